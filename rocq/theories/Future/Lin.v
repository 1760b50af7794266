(** Linear invariants of the future model: references, tasks and promises are conserved. *)
From Coq Require Import List Bool Lia ZArith.
From stdpp Require Import list.
From Verif.Lib Require Import Perm.
From Verif.Future Require Import Model Spec Step.
Local Open Scope Z_scope.

Arguments cnt : simpl never.
(** ** Sums over resources and cells *)
Section meas.
  Context (fr : res -> Z) (fc : nat -> cell -> Z).
  Definition mo (k : nat) (o : option cell) : Z := match o with Some x => fc k x | None => 0 end.
  Fixpoint mr (l : list res) : Z := match l with [] => 0 | r :: l => fr r + mr l end.
  Fixpoint mc (k : nat) (l : list (option cell)) : Z := match l with [] => 0 | o :: l => mo k o + mc (S k) l end.
  Definition meas (s : st) : Z := mr (rs s) + mc 0 (cs s).

  Lemma mr_app a b : mr (a ++ b) = mr a + mr b.
  Proof. induction a; simpl; lia. Qed.
  Lemma mc_app k a b : mc k (a ++ b) = mc k a + mc (k + length a) b.
  Proof.
    revert k. induction a as [|x a IH]; intros k; simpl; [by rewrite Nat.add_0_r|].
    rewrite IH. replace (S k + length a)%nat with (k + S (length a))%nat by lia. lia.
  Qed.
  Lemma mr_mid l i r : l !! i = Some r -> mr l = mr (take i l) + fr r + mr (drop (S i) l).
  Proof. intros H. rewrite <- (take_drop_middle _ _ _ H) at 1. rewrite mr_app. simpl. lia. Qed.
  Lemma mr_insert l i r r0 : l !! i = Some r0 -> mr (<[i := r]> l) = mr l + fr r - fr r0.
  Proof.
    intros H. rewrite (mr_mid _ _ _ H). rewrite insert_take_drop by (by eapply lookup_lt_Some). rewrite mr_app. simpl. lia.
  Qed.
  Lemma mc_insert k l i o o0 : l !! i = Some o0 -> mc k (<[i := o]> l) = mc k l + mo (k + i) o - mo (k + i) o0.
  Proof.
    revert k i. induction l as [|y l IH]; intros k [|i] H; simplify_eq/=.
    - rewrite Nat.add_0_r. lia.
    - rewrite (IH (S k) i H). replace (S k + i)%nat with (k + S i)%nat by lia. lia.
  Qed.
  Lemma meas_add l s : meas (add l s) = meas s + mr l.
  Proof. unfold meas, add. simpl. rewrite mr_app. lia. Qed.
  Lemma meas_set i r r0 s : rs s !! i = Some r0 -> meas (set i r s) = meas s + fr r - fr r0.
  Proof. intros H. unfold meas, set. simpl. rewrite (mr_insert _ _ _ _ H). lia. Qed.
  Lemma meas_rem i r0 s : rs s !! i = Some r0 -> meas (rem i s) = meas s - fr r0.
  Proof. intros H. unfold meas, rem. simpl. rewrite (mr_mid _ _ _ H), mr_app. lia. Qed.
  Lemma meas_put c x y s : get_cell s c = Some x -> meas (put c y s) = meas s + fc c y - fc c x.
  Proof. intros H. unfold meas, put. simpl. rewrite (mc_insert _ _ _ _ _ (get_cs _ _ _ H)). simpl. lia. Qed.
  Lemma meas_free c x s : get_cell s c = Some x -> meas (St (<[c := None]> (cs s)) (rs s) (nk s)) = meas s - fc c x.
  Proof. intros H. unfold meas. simpl. rewrite (mc_insert _ _ _ _ _ (get_cs _ _ _ H)). simpl. lia. Qed.
  Lemma meas_fresh f s : meas (fresh f s) = meas s + fc (length (cs s)) (Cell None false [] (Some f) None 1).
  Proof. unfold meas, fresh. simpl. rewrite mc_app. simpl. lia. Qed.
  Lemma meas_nk n s : meas (St (cs s) (rs s) n) = meas s.
  Proof. done. Qed.

  Hypothesis Hr : forall r, 0 <= fr r.
  Hypothesis Hc : forall c x, 0 <= fc c x.
  Lemma mr_nonneg l : 0 <= mr l.
  Proof. induction l as [|r l IH]; simpl; [lia|]. specialize (Hr r). lia. Qed.
  Lemma mo_nonneg k o : 0 <= mo k o.
  Proof. destruct o; simpl; [apply Hc|lia]. Qed.
  Lemma mc_nonneg k l : 0 <= mc k l.
  Proof. revert k. induction l as [|o l IH]; intros k; simpl; [lia|]. pose proof (mo_nonneg k o). specialize (IH (S k)). lia. Qed.
  Lemma mc_ge k l i o : l !! i = Some o -> mo (k + i) o <= mc k l.
  Proof.
    revert k i. induction l as [|y l IH]; intros k [|i] H; simplify_eq/=.
    - rewrite Nat.add_0_r. pose proof (mc_nonneg (S k) l). lia.
    - specialize (IH (S k) i H). replace (S k + i)%nat with (k + S i)%nat in IH by lia. pose proof (mo_nonneg k y). lia.
  Qed.
  Lemma mr_ge l r : r ∈ l -> fr r <= mr l.
  Proof. intros (i & H)%elem_of_list_lookup. rewrite (mr_mid _ _ _ H). pose proof (mr_nonneg (take i l)). pose proof (mr_nonneg (drop (S i) l)). lia. Qed.
  Lemma mr_ge2 l i j r r' : l !! i = Some r -> l !! j = Some r' -> i <> j -> fr r + fr r' <= mr l.
  Proof.
    revert i j. induction l as [|z l IH]; intros [|i] [|j] H H' N; simplify_eq/=.
    - apply elem_of_list_lookup_2 in H'. apply mr_ge in H'. lia.
    - apply elem_of_list_lookup_2 in H. apply mr_ge in H. lia.
    - specialize (IH i j H H' ltac:(lia)). specialize (Hr z). lia.
  Qed.
  Lemma mc_ge2 k l i j o o' : l !! i = Some o -> l !! j = Some o' -> i <> j -> mo (k + i) o + mo (k + j) o' <= mc k l.
  Proof.
    revert k i j. induction l as [|z l IH]; intros k [|i] [|j] H H' N; simplify_eq/=.
    - apply (mc_ge (S k)) in H'. replace (S k + j)%nat with (k + S j)%nat in H' by lia. rewrite Nat.add_0_r. lia.
    - apply (mc_ge (S k)) in H. replace (S k + i)%nat with (k + S i)%nat in H by lia. rewrite Nat.add_0_r. lia.
    - specialize (IH (S k) i j H H' ltac:(lia)). pose proof (mo_nonneg k z).
      replace (S k + i)%nat with (k + S i)%nat in IH by lia. replace (S k + j)%nat with (k + S j)%nat in IH by lia. lia.
  Qed.
  Lemma meas_ge_r r s : r ∈ rs s -> fr r <= meas s.
  Proof. intros H%mr_ge. unfold meas. pose proof (mc_nonneg 0 (cs s)). lia. Qed.
  Lemma meas_ge_rr i j r r' s : rs s !! i = Some r -> rs s !! j = Some r' -> i <> j -> fr r + fr r' <= meas s.
  Proof. intros H1 H2 N. pose proof (mr_ge2 _ _ _ _ _ H1 H2 N). unfold meas. pose proof (mc_nonneg 0 (cs s)). lia. Qed.
  Lemma meas_ge_c c x s : get_cell s c = Some x -> fc c x <= meas s.
  Proof. intros H%get_cs. pose proof (mc_ge 0 _ _ _ H). simpl in *. unfold meas. pose proof (mr_nonneg (rs s)). lia. Qed.
  Lemma meas_ge_rc r c x s : r ∈ rs s -> get_cell s c = Some x -> fr r + fc c x <= meas s.
  Proof. intros H1%mr_ge H%get_cs. pose proof (mc_ge 0 _ _ _ H). simpl in *. unfold meas. lia. Qed.
  Lemma meas_ge_cc c x d y s : get_cell s c = Some x -> get_cell s d = Some y -> c <> d -> fc c x + fc d y <= meas s.
  Proof. intros H%get_cs H'%get_cs N. pose proof (mc_ge2 0 _ _ _ _ _ H H' N). simpl in *. unfold meas. pose proof (mr_nonneg (rs s)). lia. Qed.
  Lemma meas_pos s : 0 < meas s -> (exists r, r ∈ rs s /\ 0 < fr r) \/ (exists c x, get_cell s c = Some x /\ 0 < fc c x).
  Proof.
    unfold meas. intros H. destruct (Z_lt_ge_dec 0 (mr (rs s))) as [P|P].
    - left. revert P. clear H. induction (rs s) as [|r l IH]; simpl; [lia|]. intros P.
      destruct (Z_lt_ge_dec 0 (fr r)); [exists r; split; [left|]; done|]. destruct IH as (r' & ? & ?); [lia|]. exists r'. split; [by right|done].
    - right. assert (0 < mc 0 (cs s)) as Q by lia. clear H P.
      assert (forall k l, 0 < mc k l -> exists i x, l !! i = Some (Some x) /\ 0 < fc (k + i) x) as W.
      { intros k l. revert k. induction l as [|o l IH]; intros k; simpl; [lia|]. intros P.
        destruct (Z_lt_ge_dec 0 (mo k o)) as [G|G].
        - destruct o as [x|]; simpl in G; [|lia]. exists O, x. by rewrite Nat.add_0_r.
        - destruct (IH (S k)) as (i & x & ? & ?); [lia|]. exists (S i), x. split; [done|].
          by replace (k + S i)%nat with (S k + i)%nat by lia. }
      destruct (W _ _ Q) as (i & x & E & G). exists i, x. split; [|done]. unfold get_cell. by rewrite E.
  Qed.
End meas.

(** ** The measures *)
Definition cont_strong (k : cont) : list nat := match k with KTask _ => [] | KSelf c => [c] | KDet _ c => [c] end.
Definition cont_pre (k : cont) : list nat := match k with KTask d => [d] | _ => [] end.
Definition olist {A} (o : option A) : list A := match o with Some a => [a] | None => [] end.
Definition ofn (f : option (fkind * list nat)) : list nat := match f with Some f => fn_refs f | None => [] end.
Definition ofp (f : option (fkind * list nat)) : list nat := match f with Some (Forward (Some t) _, _) => [t] | _ => [] end.
(** shared_ptrs *)
Definition r_strong (r : res) : list nat :=
  match r with
  | Fut c | Frame c _ | Drop c | Det _ c => [c]
  | Hand o l => olist o ++ (l ≫= cont_strong)
  | _ => []
  end.
Definition c_strong (x : cell) : list nat := ofn (fn x) ++ olist (hold x) ++ (thens x ≫= cont_strong).
(** packaged_tasks, up to the call of the function *)
Definition r_pre (r : res) : list nat :=
  match r with Tok c | Job c | TokDrop c | Frame c Enter => [c] | Hand _ l => l ≫= cont_pre | _ => [] end.
Definition c_pre (x : cell) : list nat := thens x ≫= cont_pre.
(** promises *)
Definition r_prom (r : res) : list nat := match r with Frame c Body | Frame c Ret | PromDrop c => [c] | _ => [] end.
Definition c_prom (x : cell) : list nat := ofp (fn x).
(** calls in progress *)
Definition r_body (r : res) : list nat := match r with Frame c Body | Frame c Ret | Frame c Fin => [c] | _ => [] end.

Definition z (n : nat) : Z := Z.of_nat n.
Definition is (x c : nat) (v : Z) : Z := if (x =? c)%nat then v else 0.
Arguments z : simpl never.
Arguments is : simpl never.
Definition F1r x r := z (cnt x (r_strong r)).
Definition F1c x c y := z (cnt x (c_strong y)) - is x c (z (strong y)).
Definition FPr x r := z (cnt x (r_pre r)).
Definition FPc x (c : nat) y := z (cnt x (c_pre y)).
Definition F3r x r := z (cnt x (r_pre r)) + z (cnt x (r_prom r)).
Definition F3c x c y := z (cnt x (c_pre y)) + z (cnt x (c_prom y)) + is x c (match out y with Some _ => 1 | None => 0 end).
Definition F4r x r := z (cnt x (r_pre r)) + z (cnt x (r_body r)).
Definition F4c x c y := z (cnt x (c_pre y)) + is x c (match fn y with Some _ => 0 | None => 1 end).
Definition M1 x := meas (F1r x) (F1c x).
Definition MP x := meas (FPr x) (FPc x).
Definition M3 x := meas (F3r x) (F3c x).
Definition M4 x := meas (F4r x) (F4c x).

(** number of events *)
Definition ev (f : event -> list nat) (tr : list event) (x : nat) : Z := z (cnt x (tr ≫= f)).
Definition e_done (e : event) : list nat :=
  match e with Called c _ | Skipped c | Abandoned c | Cancelled c | Lost c => [c] | _ => [] end.
Definition e_lost (e : event) : list nat := match e with Lost c => [c] | _ => [] end.
Definition e_res (e : event) : list nat := match e with Resolved c _ => [c] | _ => [] end.
Lemma ev_app f a b x : ev f (a ++ b) x = ev f a x + ev f b x.
Proof. unfold ev, z. rewrite bind_app, cnt_app. lia. Qed.
Lemma ev_nil f x : ev f [] x = 0.
Proof. done. Qed.
Lemma ev_cons f e l x : ev f (e :: l) x = z (cnt x (f e)) + ev f l x.
Proof. unfold ev, z. rewrite bind_cons, cnt_app. lia. Qed.
Lemma ev_got f q y x : f (GotMoved q) = [] -> ev f (got_moved q y) x = 0.
Proof. intros H. unfold got_moved. destruct (out y) as [[]|], (moved y); try done. by rewrite ev_cons, H. Qed.
Lemma ev_nonneg f tr x : 0 <= ev f tr x.
Proof. unfold ev, z. lia. Qed.

Lemma z_self x c : z (cnt x [c]) = is x c 1.
Proof. unfold z, is, cnt. simpl. destruct (Nat.eq_dec c x), (Nat.eqb_spec x c); try done; congruence. Qed.
Lemma z_nil x : z (cnt x []) = 0.
Proof. done. Qed.
Lemma z_app x a b : z (cnt x (a ++ b)) = z (cnt x a) + z (cnt x b).
Proof. unfold z. rewrite cnt_app. lia. Qed.
Lemma z_cons x c l : z (cnt x (c :: l)) = is x c 1 + z (cnt x l).
Proof. rewrite <- z_self. apply (z_app x [c] l). Qed.
Lemma is_add x c v w : is x c (v + w) = is x c v + is x c w.
Proof. unfold is. destruct (_ =? _)%nat; lia. Qed.

Lemma mr_fn_drop fr f : (forall r, 0 <= fr r) -> mr fr (fn_drop f) =
  match f with None => 0 | Some f => mr fr (Drop <$> fn_refs f) + match f.1 with Forward (Some c) _ => fr (PromDrop c) | _ => 0 end end.
Proof. destruct f as [f|]; [|done]. simpl. rewrite mr_app. destruct f as [[| | |[]] l]; simpl; lia. Qed.
Lemma mr_drops fr x l : (forall c, fr (Drop c) = is x c 1) -> mr fr (Drop <$> l) = z (cnt x l).
Proof.
  intros H. induction l as [|c l IH]; [done|]. rewrite fmap_cons. simpl. rewrite IH, H. change (c :: l) with ([c] ++ l). rewrite z_app, z_self. done.
Qed.
Lemma mr_zero fr l : (forall r, r ∈ l -> fr r = 0) -> mr fr l = 0.
Proof. induction l as [|r l IH]; intros H; simpl; [done|]. rewrite (H r) by left. rewrite IH; [done|]. intros; apply H; by right. Qed.

Lemma fnd1 x f : mr (F1r x) (fn_drop f) = z (cnt x (ofn f)).
Proof.
  destruct f as [[k l]|]; [|done]. unfold fn_drop. rewrite mr_app. simpl ofn.
  rewrite (mr_drops _ x); [|intros; unfold F1r; simpl; apply z_self].
  destruct k as [| | |[]]; simpl; unfold F1r; simpl; rewrite ?z_nil; lia.
Qed.
Lemma fnd3 x f : mr (F3r x) (fn_drop f) = z (cnt x (ofp f)).
Proof.
  destruct f as [[k l]|]; [|done]. unfold fn_drop. rewrite mr_app.
  rewrite mr_zero. 2:{ intros r (? & -> & _)%elem_of_list_fmap. done. }
  destruct k as [| | |[]]; simpl; unfold F3r; simpl; rewrite ?z_nil; try lia.
Qed.
Lemma fndP x f : mr (FPr x) (fn_drop f) = 0.
Proof.
  apply mr_zero. intros r. destruct f as [[k l]|]; simpl; [|by intros ?%elem_of_nil].
  rewrite elem_of_app. intros [(? & -> & _)%elem_of_list_fmap|H]; [done|].
  destruct k as [| | |[]]; simpl in H; rewrite ?elem_of_cons, ?elem_of_nil in H; try done. by destruct H as [->|[]].
Qed.
Lemma fnd4 x f : mr (F4r x) (fn_drop f) = 0.
Proof.
  apply mr_zero. intros r. destruct f as [[k l]|]; simpl; [|by intros ?%elem_of_nil].
  rewrite elem_of_app. intros [(? & -> & _)%elem_of_list_fmap|H]; [done|].
  destruct k as [| | |[]]; simpl in H; rewrite ?elem_of_cons, ?elem_of_nil in H; try done. by destruct H as [->|[]].
Qed.
Lemma cd1 x l : mr (F1r x) (cont_drop <$> l) = z (cnt x (l ≫= cont_strong)).
Proof.
  induction l as [|k l IH]; [done|]. rewrite fmap_cons, bind_cons, z_app, <- IH. simpl. f_equal. by destruct k.
Qed.
Lemma cdP x l : mr (FPr x) (cont_drop <$> l) = z (cnt x (l ≫= cont_pre)).
Proof. induction l as [|k l IH]; [done|]. rewrite fmap_cons, bind_cons, z_app, <- IH. simpl. f_equal. by destruct k. Qed.
Lemma cd3 x l : mr (F3r x) (cont_drop <$> l) = z (cnt x (l ≫= cont_pre)).
Proof. induction l as [|k l IH]; [done|]. rewrite fmap_cons, bind_cons, z_app, <- IH. simpl. f_equal. unfold F3r. destruct k; simpl; rewrite ?z_nil; lia. Qed.
Lemma cd4 x l : mr (F4r x) (cont_drop <$> l) = z (cnt x (l ≫= cont_pre)).
Proof. induction l as [|k l IH]; [done|]. rewrite fmap_cons, bind_cons, z_app, <- IH. simpl. f_equal. unfold F4r. destruct k; simpl; rewrite ?z_nil; lia. Qed.

Section meas2.
  Context (fr : res -> Z) (fc : nat -> cell -> Z).
  Lemma meas_resolve c o x s : get_cell s c = Some x ->
    meas fr fc (resolve_to c o x s) = meas fr fc s + fr (Hand (Some c) (thens x)) + fc c (set_strong (S (strong x)) (set_out o x)) - fc c x.
  Proof. intros H. unfold resolve_to. rewrite meas_add, (meas_put _ _ _ _ _ _ H). simpl. lia. Qed.
  Lemma meas_take q s : (forall c x, fc c (set_moved x) = fc c x) -> meas fr fc (take_out q s) = meas fr fc s.
  Proof.
    intros Hm. unfold take_out. destruct (get_cell s q) as [x|] eqn:E; [|done]. destruct (out x) as [[]|]; try done.
    destruct (_ =? _)%nat; [|done]. rewrite (meas_put _ _ _ _ _ _ E), Hm. lia.
  Qed.
  Lemma meas_incr c s : (forall c x n, fc c (set_strong n x) = fc c x) -> meas fr fc (incr c s) = meas fr fc s.
  Proof.
    intros Hm. unfold incr. destruct (get_cell s c) as [x|] eqn:E; [|done]. rewrite (meas_put _ _ _ _ _ _ E), Hm. lia.
  Qed.
  Lemma meas_incrs l s : (forall c x n, fc c (set_strong n x) = fc c x) -> meas fr fc (incrs l s) = meas fr fc s.
  Proof. intros Hm. induction l; [done|]. simpl. by rewrite meas_incr. Qed.
End meas2.
Lemma alive_incr s c d : alive (incr c s) d <-> alive s d.
Proof.
  unfold alive, incr. destruct (get_cell s c) as [x|] eqn:E; [|done].
  split; intros (y & H); rewrite ?(get_put _ _ _ _ _ E) in *; destruct (Nat.eqb_spec d c); subst; eauto.
Qed.
Lemma alive_incrs s l d : alive (incrs l s) d <-> alive s d.
Proof. induction l; [done|]. simpl. by rewrite alive_incr. Qed.
Lemma M1_incr x c s : alive s c -> M1 x (incr c s) = M1 x s - is x c 1.
Proof.
  intros (y & E). unfold M1, incr. rewrite E, (meas_put _ _ _ _ _ _ E). unfold F1c. simpl.
  unfold c_strong, is, z. simpl. destruct (_ =? _)%nat; lia.
Qed.
Lemma M1_incrs x l s : (forall c, c ∈ l -> alive s c) -> M1 x (incrs l s) = M1 x s - z (cnt x l).
Proof.
  induction l as [|c l IH]; intros H; simpl; [rewrite z_nil; lia|].
  rewrite M1_incr by (apply alive_incrs, H; left). rewrite IH by (intros; apply H; by right).
  change (c :: l) with ([c] ++ l). rewrite z_app, z_self. lia.
Qed.
Lemma get_incr s c d : get_cell (incr c s) d = (fun x => set_strong (if (d =? c)%nat then S (strong x) else strong x) x) <$> get_cell s d.
Proof.
  unfold incr. destruct (get_cell s c) as [x|] eqn:E.
  - rewrite (get_put _ _ _ _ _ E). destruct (Nat.eqb_spec d c) as [->|]; [by rewrite E|]. destruct (get_cell s d) as [[]|]; done.
  - destruct (Nat.eqb_spec d c) as [->|]; [by rewrite E|]. destruct (get_cell s d) as [[]|]; done.
Qed.
Lemma get_incrs s l d : get_cell (incrs l s) d = (fun x => set_strong (cnt d l + strong x) x) <$> get_cell s d.
Proof.
  induction l as [|c l IH]; simpl; [by destruct (get_cell s d) as [[]|]|]. rewrite get_incr, IH.
  destruct (get_cell s d) as [x|]; [|done]. simpl. unfold set_strong. simpl. do 2 f_equal. unfold cnt. simpl.
  destruct (Nat.eq_dec c d), (Nat.eqb_spec d c); try congruence; done.
Qed.
Lemma get_fresh f s d : get_cell (fresh f s) d =
  if (d =? length (cs s))%nat then Some (Cell None false [] (Some f) None 1) else get_cell s d.
Proof.
  unfold get_cell, fresh. simpl. destruct (Nat.eqb_spec d (length (cs s))) as [->|N].
  - by rewrite list_lookup_middle.
  - destruct (Nat.lt_ge_cases d (length (cs s))); [by rewrite lookup_app_l|].
    rewrite (lookup_ge_None_2 (cs s)) by lia. rewrite lookup_ge_None_2; [done|]. rewrite app_length. simpl. lia.
Qed.
Lemma get_free c s d : (c < length (cs s))%nat -> get_cell (St (<[c := None]> (cs s)) (rs s) (nk s)) d = if (d =? c)%nat then None else get_cell s d.
Proof.
  intros H. unfold get_cell. simpl. destruct (Nat.eqb_spec d c) as [->|N]; [by rewrite list_lookup_insert|]. by rewrite list_lookup_insert_ne.
Qed.
Lemma get_none_ge s d : (length (cs s) <= d)%nat -> get_cell s d = None.
Proof. intros H. unfold get_cell. by rewrite lookup_ge_None_2. Qed.

Lemma attach_cases a d s s' : attach a d s = Some s' -> exists x, get_cell s a = Some x /\
  (out x = None /\ s' = put a (set_thens (thens x ++ [KTask d]) x) s \/
   exists o, out x = Some o /\ s' = add [Hand None [KTask d]] s).
Proof.
  unfold attach. destruct (get_cell s a) as [x|]; [|done]. intros H. exists x. split; [done|].
  destruct (out x); simplify_eq; eauto.
Qed.
