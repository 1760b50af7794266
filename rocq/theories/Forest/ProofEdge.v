(** Full-order walks, preorder/postorder iteration and size(). *)
From stdpp Require Import gmap list.
From Coq Require Import ZArith.
From Verif.Forest Require Import Model Spec Rep ProofWord ProofHeap ProofOps ProofOps2 ProofTree.

Section edge.
Context {V : Type}.
Implicit Types (h : heap V) (f g : fobj) (l r : list (tree V)).

(** ** the plain walk *)
Lemma walk_increment h t a b c fuel : WRep h t (a ++ b ++ c) -> length b <= fuel ->
  walk (increment h) fuel (firstp t (b ++ c)) (firstp t c) = Ok b.
Proof.
  revert a fuel. induction b as [|x b IH]; intros a fuel H Hf; simpl in *.
  - destruct fuel; simpl; rewrite decide_True; auto.
  - destruct fuel as [|fuel]; [lia|]. simpl. rewrite decide_False.
    + rewrite (increment_cons h t a x (b ++ c) H). simpl.
      rewrite (IH (a ++ [x])); [auto| |lia]. rewrite <- app_assoc. auto.
    + intros E. pose proof (wr_notin_ring h t a (x :: b) c x H ltac:(apply elem_of_list_here)) as Hn.
      apply Hn. rewrite E. apply firstp_in_ring.
Qed.

Lemma walk_decrement h t a b c fuel : WRep h t (a ++ b ++ c) -> length b <= fuel ->
  walk (decrement h) fuel (lastp t (a ++ b)) (lastp t a) = Ok (rev b).
Proof.
  revert c fuel. induction b as [|x b IH] using rev_ind; intros c fuel H Hf; simpl in *.
  - rewrite app_nil_r. destruct fuel; simpl; rewrite decide_True; auto.
  - rewrite app_length in Hf. simpl in Hf. destruct fuel as [|fuel]; [lia|]. simpl.
    rewrite app_assoc, lastp_snoc. rewrite decide_False.
    + assert (H' : WRep h t ((a ++ b) ++ x :: c)).
      { rewrite <- !app_assoc in *. auto. }
      rewrite (decrement_snoc h t (a ++ b) x c H'). simpl.
      rewrite (IH (x :: c)); [|rewrite <- !app_assoc in *; auto|lia]. simpl. rewrite rev_app_distr. auto.
    + intros E. pose proof (wr_notin_ring h t a (b ++ [x]) c x H) as Hn.
      apply Hn; [rewrite elem_of_app, elem_of_list_singleton; auto|]. rewrite E. apply lastp_in_ring.
Qed.

(** ** searching for an edge *)
Definition endp (e : edge) (t : nat) : iter := Iter t e.
Definition sel (e : edge) (w : list iter) : list iter := filter (fun x => it_edge x = e) w.
Definition nexte (e : edge) (t : nat) (b : list iter) : iter :=
  match sel e b with [] => endp e t | x :: _ => x end.

Lemma find_edge_spec h t a b e fuel : WRep h t (a ++ b) -> length b + 1 <= fuel ->
  find_edge fuel h (firstp t b) e = Ok (nexte e t b).
Proof.
  revert a fuel. induction b as [|x b IH]; intros a fuel H Hf.
  - simpl. unfold nexte, sel. simpl. destruct fuel as [|fuel]; [simpl in Hf; lia|]. simpl.
    destruct e; simpl; [auto|].
    rewrite (increment_wrap h t _ H). simpl. destruct fuel; auto.
  - simpl in Hf. destruct fuel as [|fuel]; [lia|]. simpl. unfold nexte, sel. rewrite filter_cons.
    destruct (decide (it_edge x = e)); auto.
    rewrite (increment_cons h t a x b H). simpl. apply (IH (a ++ [x])); [|lia].
    rewrite <- app_assoc. auto.
Qed.

(** Backwards the search does not stop at the end position of the other edge: it wraps. *)
Lemma find_edge_reverse_spec h t a b e fuel : WRep h t (a ++ b) -> length a + 1 <= fuel ->
  sel e a <> [] ->
  find_edge_reverse fuel h (lastp t a) e = Ok (List.last (sel e a) (endp e t)).
Proof.
  revert b fuel. induction a as [|x a IH] using rev_ind; intros b fuel H Hf Hs; [destruct Hs; auto|].
  rewrite app_length in Hf. simpl in Hf. destruct fuel as [|fuel]; [lia|]. simpl. rewrite lastp_snoc.
  unfold sel in *. rewrite filter_app, filter_cons, filter_nil in *.
  destruct (decide (it_edge x = e)).
  - rewrite last_last. auto.
  - rewrite <- app_assoc in H. simpl in H. rewrite (decrement_snoc h t a x b H). simpl.
    rewrite app_nil_r in *. apply (IH (x :: b)); auto. lia.
Qed.

Lemma sel_app e a b : sel e (a ++ b) = sel e a ++ sel e b.
Proof. apply filter_app. Qed.

Lemma sel_edge e w x : x ∈ sel e w -> it_edge x = e.
Proof. unfold sel. rewrite elem_of_list_filter. tauto. Qed.

(** Splitting a word at its first position with edge [e]. *)
Lemma nexte_split e t b : sel e b <> [] -> exists u c, b = u ++ nexte e t b :: c /\
  sel e u = [] /\ it_edge (nexte e t b) = e.
Proof.
  induction b as [|x b IH]; [intros Hs; destruct Hs; auto|].
  unfold nexte, sel. rewrite filter_cons. destruct (decide (it_edge x = e)) as [E|E].
  - intros _. exists [], b. auto.
  - intros Hs. destruct (IH Hs) as (u & c & E1 & E2 & E3). exists (x :: u), c. split; [|split].
    + simpl. f_equal. exact E1.
    + unfold sel. rewrite filter_cons_False; auto.
    + auto.
Qed.

Lemma edge_walk h t a b e fuel fuel2 : WRep h t (a ++ b) -> length (a ++ b) + 1 <= fuel ->
  length (sel e b) <= fuel2 ->
  walk (edge_increment fuel h e) fuel2 (nexte e t b) (endp e t) = Ok (sel e b).
Proof.
  revert a b. induction fuel2 as [|k IH]; intros a b H Hf Hk.
  - destruct (sel e b) eqn:E; [|simpl in Hk; lia]. unfold nexte. rewrite E. simpl.
    rewrite decide_True; auto.
  - destruct (decide (sel e b = [])) as [E|E].
    + unfold nexte. rewrite E. simpl. rewrite decide_True; auto.
    + destruct (nexte_split e t b E) as (u & c & Eb & Eu & Ex). set (x := nexte e t b) in *. clearbody x.
      assert (H' : WRep h t ((a ++ u) ++ x :: c)) by (rewrite <- app_assoc, <- Eb; auto).
      simpl. rewrite decide_False.
      * unfold edge_increment at 1. rewrite (increment_cons h t (a ++ u) x c H'). simpl.
        assert (Hw : WRep h t ((a ++ u ++ [x]) ++ c)) by (rewrite <- !app_assoc in *; auto).
        assert (Hlen : length ((a ++ u ++ [x]) ++ c) = length (a ++ b)).
        { rewrite Eb. rewrite !app_length. simpl. lia. }
        rewrite (find_edge_spec h t (a ++ u ++ [x]) c e fuel); [|auto|rewrite app_length in Hlen; lia].
        simpl. rewrite (IH (a ++ u ++ [x]) c).
        -- simpl. rewrite Eb, sel_app, Eu. unfold sel. rewrite filter_cons_True; auto.
        -- auto.
        -- lia.
        -- rewrite Eb, sel_app, Eu in Hk. simpl in Hk. unfold sel in Hk. rewrite filter_cons_True in Hk by auto.
           simpl in Hk. unfold sel. lia.
      * intros E1. apply (wr_notin_tail _ _ _ e H'). unfold endp in E1. rewrite <- E1.
        rewrite elem_of_app, elem_of_cons. auto.
Qed.

Lemma edge_distance_walk h e fe last fuel : forall x k,
  walk (edge_increment fe h e) fuel x last = Ok k ->
  edge_distance fe fuel h e x last = Ok (Z.of_nat (length k)).
Proof.
  induction fuel as [|fuel IH]; intros x k; simpl; destruct (decide (x = last)).
  - intros [= <-]. auto.
  - discriminate.
  - intros [= <-]. auto.
  - destruct (edge_increment fe h e x) as [y| |]; simpl; try discriminate.
    destruct (walk (edge_increment fe h e) fuel y last) as [k'| |] eqn:E; simpl; try discriminate.
    intros [= <-]. rewrite (IH y k' E). simpl. f_equal. lia.
Qed.

Lemma sel_leading_fword l : sel leading (fword l) = map (fun n => L n) (fnodes l).
Proof.
  induction l as [|n v cs l IHc IHl] using forest_ind'.
  - rewrite (fword_nil (V:=V)), (fnodes_nil (V:=V)). auto.
  - rewrite fword_cons, fnodes_cons. unfold sel in *. rewrite filter_cons_True by auto.
    rewrite filter_app, filter_cons_False by discriminate. rewrite IHc, IHl. simpl. rewrite map_app. auto.
Qed.

Lemma sel_trailing_fword l : sel trailing (fword l) = map (fun nv => T nv.1) (fpost l).
Proof.
  induction l as [|n v cs l IHc IHl] using forest_ind'.
  - rewrite (fword_nil (V:=V)), (fpost_nil (V:=V)). auto.
  - rewrite fword_cons, fpost_cons. unfold sel in *. rewrite filter_cons_False by discriminate.
    rewrite filter_app, filter_cons_True by auto. rewrite IHc, IHl, map_app. auto.
Qed.

Lemma fnodes_length l : length (fnodes l) = fcount l.
Proof. rewrite fnodes_map, map_length. apply fpre_length. Qed.

(** ** size() *)
Lemma size_spec h f l fuel : Rep h f l -> 2 * fcount l + 1 <= fuel ->
  exists f', size fuel h f = Ok (f', Z.of_nat (fcount l)) /\ f_tail f' = f_tail f /\ Rep h f' l /\
    (sv f (fword l) = true -> f' = f) /\ sv f' (fword l) = true.
Proof.
  intros [W Vl S] Hf. unfold size. rewrite (size_valid_spec h f _ W). simpl.
  destruct (sv f (fword l)) eqn:E.
  - exists f. split; [|split; [auto|split; [constructor; auto|auto]]].
    apply sv_ok in E; auto. rewrite fword_length in E. f_equal. f_equal. lia.
  - rewrite (f_begin_spec h f _ W). simpl.
    rewrite (find_edge_spec h (f_tail f) [] (fword l) leading fuel) by (auto; rewrite fword_length; lia).
    simpl.
    assert (El : find_edge fuel h (f_end f) leading = Ok (endp leading (f_tail f))).
    { pose proof (find_edge_spec h (f_tail f) (fword l) [] leading fuel) as Hx.
      rewrite app_nil_r in Hx. apply Hx; auto. simpl. lia. }
    rewrite El. simpl.
    pose proof (edge_walk h (f_tail f) [] (fword l) leading fuel fuel W) as Hw.
    simpl in Hw. rewrite fword_length in Hw. specialize (Hw ltac:(lia)).
    rewrite sel_leading_fword, map_length, fnodes_length in Hw. specialize (Hw ltac:(lia)).
    apply edge_distance_walk in Hw. rewrite map_length, fnodes_length in Hw. rewrite Hw. simpl.
    eexists. split; [reflexivity|]. split; [auto|]. split; [|split; [congruence|]].
    + constructor; auto. right. simpl. rewrite fword_length. lia.
    + unfold sv. apply bool_decide_eq_true. simpl.
      destruct l as [|[n v cs] l]; [right; apply fword_nil|left]. rewrite fcount_cons. lia.
Qed.

End edge.
