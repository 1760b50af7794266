(** Iterator adaptors: children, parents, preorder/postorder, reverse, depth. *)
From stdpp Require Import gmap list.
From Coq Require Import ZArith.
From Verif.Forest Require Import Model Spec Rep ProofWord ProofHeap ProofOps ProofOps2 ProofTree ProofEdge ProofCopy.

(** ** iterators over a list of positions *)
Section lin.
Context {A B : Type} `{EqDecision B} (key : A -> B).

Definition next_ok (next : A -> res A) (ps : list A) : Prop :=
  forall a x y b, ps = a ++ x :: y :: b -> next x = Ok y.
Definition prev_ok (prev : A -> res A) (ps : list A) : Prop :=
  forall a x y b, ps = a ++ x :: y :: b -> prev y = Ok x.

Lemma next_ok_tail next x ps : next_ok next (x :: ps) -> next_ok next ps.
Proof. intros H a y z b ->. apply (H (x :: a) y z b). auto. Qed.
Lemma prev_ok_front prev x ps : prev_ok prev (ps ++ [x]) -> prev_ok prev ps.
Proof. intros H a y z b ->. apply (H a y z (b ++ [x])). rewrite <- app_assoc. auto. Qed.

Lemma lin_walk next w e fuel : next_ok next (w ++ [e]) -> (forall x, x ∈ w -> key x <> key e) ->
  length w <= fuel -> walk_on key next fuel (hd e w) (key e) = Ok w.
Proof.
  revert fuel. induction w as [|x w IH]; intros fuel Hn Hk Hf; simpl in *.
  - destruct fuel; simpl; rewrite decide_True; auto.
  - destruct fuel as [|fuel]; [lia|]. simpl. rewrite decide_False by (apply Hk, elem_of_list_here).
    assert (Hx : next x = Ok (hd e w)).
    { destruct w as [|y w]; simpl; [apply (Hn [] x e []); auto|apply (Hn [] x y (w ++ [e])); auto]. }
    rewrite Hx. simpl. rewrite IH; [auto| | |lia].
    + eapply next_ok_tail; eauto.
    + intros y Hy. apply Hk. apply elem_of_list_further. auto.
Qed.

Lemma lin_rwalk prev w e fuel : prev_ok prev (w ++ [e]) -> NoDup (map key (w ++ [e])) ->
  length w <= fuel -> rwalk_on key prev fuel e (key (hd e w)) = Ok (rev w).
Proof.
  revert e fuel. induction w as [|x w IH] using rev_ind; intros e fuel Hp Hd Hf.
  - simpl. destruct fuel; simpl; rewrite decide_True; auto.
  - rewrite app_length in Hf. simpl in Hf. destruct fuel as [|fuel]; [lia|]. simpl.
    assert (Hh : hd e (w ++ [x]) = hd x w) by (destruct w; auto). rewrite Hh.
    rewrite decide_False.
    + assert (Hx : prev e = Ok x). { apply (Hp w x e []). rewrite <- app_assoc. auto. }
      rewrite Hx. simpl. rewrite IH; [|eapply prev_ok_front; eauto| |lia].
      * simpl. rewrite rev_app_distr. auto.
      * rewrite map_app in Hd. apply NoDup_app in Hd. tauto.
    + intros E. rewrite map_app in Hd. apply NoDup_app in Hd as (_ & Hd & _). apply (Hd (key e)).
      * rewrite E. apply elem_of_list_fmap. exists (hd x w). split; auto.
        destruct w as [|y w]; simpl; [apply elem_of_list_here|apply elem_of_list_here].
      * simpl. apply elem_of_list_singleton. auto.
Qed.

Lemma lin_moves next prev ps n : next_ok next ps -> prev_ok prev ps -> length ps = S n ->
  forall ms i j x, track n ms i = Some j -> ps !! i = Some x ->
  exists y, ps !! j = Some y /\ run_moves next prev ms x = Ok y.
Proof.
  intros Hn Hp Hl. induction ms as [|b ms IH]; intros i j x Ht Hx; simpl in Ht.
  - injection Ht as <-. simpl. eauto.
  - assert (Hadj : forall k u v, ps !! k = Some u -> ps !! S k = Some v ->
              ps = take k ps ++ u :: v :: drop (S (S k)) ps).
    { intros k u v Hu Hv. rewrite <- (drop_S _ v) by auto. rewrite <- (drop_S _ u) by auto.
      rewrite take_drop. auto. }
    destruct b.
    + destruct (decide (i < n)) as [Hi|]; [|discriminate].
      destruct (lookup_lt_is_Some_2 ps (S i)) as [y Hy]; [lia|].
      destruct (IH _ _ y Ht Hy) as (z & Hz & E). exists z. split; auto. simpl.
      rewrite (Hn _ _ _ _ (Hadj i x y Hx Hy)). auto.
    + destruct (decide (0 < i)) as [Hi|]; [|discriminate]. destruct i as [|i]; [lia|].
      replace (S i - 1) with i in Ht by lia.
      destruct (lookup_lt_is_Some_2 ps i) as [y Hy]. { apply lookup_lt_Some in Hx. lia. }
      destruct (IH _ _ y Ht Hy) as (z & Hz & E). exists z. split; auto. simpl.
      rewrite (Hp _ _ _ _ (Hadj i y x Hy Hx)). auto.
Qed.
End lin.

Section iter.
Context {V : Type}.
Implicit Types (h : heap V) (f g : fobj) (l r : list (tree V)) (C D : list (@frame V)).

(** ** the full order itself *)
Lemma full_next h t w : WRep h t w -> next_ok (increment h) (ring t w).
Proof. intros H a x y b E. eapply increment_adj; eauto. Qed.
Lemma full_prev h t w : WRep h t w -> prev_ok (decrement h) (ring t w).
Proof. intros H a x y b E. eapply decrement_adj; eauto. Qed.

(** ** children and parents *)
Lemma inc_leading h f C a n v cs b : Rep h f (plug C (a ++ Node n v cs :: b)) ->
  increment h (L n) = Ok (gap (f_tail f) ((a, n, v, b) :: C) cs).
Proof.
  intros [W _ _]. rewrite gap_firstp. change (plug C (a ++ Node n v cs :: b)) with (plug ((a,n,v,b)::C) ([] ++ cs)) in W.
  rewrite fword_gap in W. simpl in W.
  apply (increment_cons h (f_tail f) (pre C ++ fword a) (L n)).
  rewrite (fword_nil (V:=V)) in W. rewrite <- !app_assoc in W. simpl in W. rewrite <- app_assoc. exact W.
Qed.

Lemma inc_trailing h f C a n v cs b : Rep h f (plug C (a ++ Node n v cs :: b)) ->
  increment h (T n) = Ok (gap (f_tail f) C b).
Proof.
  intros [W _ _]. rewrite gap_firstp. rewrite fword_gap, fword_cons in W.
  rewrite <- !app_assoc in W. simpl in W. rewrite <- !app_assoc in W. simpl in W.
  apply (increment_cons h (f_tail f) (pre C ++ fword a ++ L n :: fword cs) (T n) (fword b ++ post C)).
  rewrite <- !app_assoc. simpl. rewrite <- ?app_assoc. auto.
Qed.

Lemma child_ne h f C a n v cs b : Rep h f (plug C (a ++ Node n v cs :: b)) -> n ∉ fnodes cs.
Proof.
  intros R Hn. pose proof (rep_nodup _ _ _ R) as Hd. unfold fp in Hd. apply NoDup_cons in Hd as [_ Hd].
  apply fword_NoDup in Hd. rewrite fword_gap, fword_cons in Hd.
  apply NoDup_app in Hd as (_ & _ & Hd). simpl in Hd. apply NoDup_cons in Hd as [Hd _]. apply Hd.
  rewrite <- !app_assoc, elem_of_app. left. apply elem_fword. auto.
Qed.

Lemma has_children_spec h f C a n v cs b e : Rep h f (plug C (a ++ Node n v cs :: b)) ->
  has_children h (Iter n e) = Ok (bool_decide (cs <> [])).
Proof.
  intros R. unfold has_children, leading_of. simpl. rewrite (inc_leading h f C a n v cs b R). simpl.
  f_equal. destruct cs as [|[m x ds] cs].
  - simpl. rewrite !bool_decide_eq_false_2; auto.
  - simpl. rewrite !bool_decide_eq_true_2; auto.
    intros ->. apply (child_ne _ _ _ _ _ _ _ _ R). rewrite fnodes_cons. apply elem_of_list_here.
Qed.

(** The root position also answers. *)
Lemma has_children_root h f l e : Rep h f l ->
  has_children h (Iter (f_tail f) e) = Ok (bool_decide (l <> [])).
Proof.
  intros R. unfold has_children, leading_of. simpl.
  assert (E : increment h (L (f_tail f)) = Ok (firstp (f_tail f) (fword l))).
  { apply (f_begin_spec h f (fword l) (rep_word _ _ _ R)). }
  rewrite E. simpl. f_equal. destruct l as [|[m x ds] l].
  - rewrite fword_nil. simpl. rewrite !bool_decide_eq_false_2; auto.
  - rewrite fword_cons. simpl. rewrite !bool_decide_eq_true_2; auto.
    intros Em. pose proof (rep_nodup _ _ _ R) as Hd. unfold fp in Hd. rewrite fnodes_cons, Em in Hd.
    apply NoDup_cons in Hd as [Hd _]. apply Hd, elem_of_list_here.
Qed.

Lemma find_parent_spec h f C b : forall a n v cs e fuel, Rep h f (plug C (a ++ Node n v cs :: b)) ->
  length b + 1 <= fuel -> find_parent fuel h (Iter n e) = Ok (T (hole_owner (f_tail f) C)).
Proof.
  induction b as [|[m x ds] b IH]; intros a n v cs e fuel R Hf.
  - destruct fuel as [|fuel]; [simpl in Hf; lia|]. simpl. unfold trailing_of. simpl.
    rewrite (inc_trailing h f C a n v cs [] R). simpl. auto.
  - destruct fuel as [|fuel]; [simpl in Hf; lia|]. simpl. unfold trailing_of. simpl.
    rewrite (inc_trailing h f C a n v cs _ R). simpl.
    apply (IH (a ++ [Node n v cs]) m x ds).
    + rewrite <- app_assoc. auto.
    + simpl in Hf. lia.
Qed.


Lemma child_inc h f C a tr b : Rep h f (plug C (a ++ tr :: b)) ->
  child_increment h (root_of tr) = Ok (gap (f_tail f) C b).
Proof. destruct tr as [n v cs]. intros R. apply (inc_trailing _ _ _ _ _ _ _ _ R). Qed.

Lemma child_dec h f C a tr b : Rep h f (plug C (a ++ tr :: b)) ->
  child_decrement h (gap (f_tail f) C b) = Ok (root_of tr).
Proof.
  destruct tr as [n v cs]. intros R. unfold child_decrement. rewrite gap_firstp.
  destruct R as [W _ _].
  assert (E : a ++ Node n v cs :: b = (a ++ [Node n v cs]) ++ b) by (rewrite <- app_assoc; auto).
  rewrite E, fword_gap in W. rewrite (decrement_gap _ _ _ _ W). simpl.
  rewrite fword_app, fword_cons, fword_nil.
  assert (E2 : pre C ++ fword a ++ L n :: fword cs ++ [T n] = (pre C ++ fword a ++ L n :: fword cs) ++ [T n]).
  { rewrite <- !app_assoc. simpl. auto. }
  rewrite E2, lastp_snoc. auto.
Qed.

Lemma gap_roots t C r : gap t C r = hd (T (hole_owner t C)) (map root_of r).
Proof. destruct r as [|[n v cs] r]; auto. Qed.

(** The children of the owner of [C] as a list of positions. *)
Lemma child_next h f C r : Rep h f (plug C r) ->
  next_ok (child_increment h) (map root_of r ++ [T (hole_owner (f_tail f) C)]).
Proof.
  intros R a x y b E.
  assert (Hs : exists r1 tr r2, r = r1 ++ tr :: r2 /\ x = root_of tr /\ y = gap (f_tail f) C r2).
  { clear R. revert a E. induction r as [|tr r IH]; intros a E; simpl in E.
    - destruct a as [|? [|]]; discriminate.
    - destruct a as [|z a]; simpl in E.
      + injection E as <- E. exists [], tr, r. split; [auto|split; auto].
        rewrite gap_roots. destruct r; simpl in E |- *; injection E as <- _; auto.
      + injection E as <- E. destruct (IH a E) as (r1 & t2 & r2 & -> & ? & ?).
        exists (tr :: r1), t2, r2. auto. }
  destruct Hs as (r1 & tr & r2 & -> & -> & ->). eapply child_inc; eauto.
Qed.

Lemma child_prev h f C r : Rep h f (plug C r) ->
  prev_ok (child_decrement h) (map root_of r ++ [T (hole_owner (f_tail f) C)]).
Proof.
  intros R a x y b E.
  assert (Hs : exists r1 tr r2, r = r1 ++ tr :: r2 /\ x = root_of tr /\ y = gap (f_tail f) C r2).
  { clear R. revert a E. induction r as [|tr r IH]; intros a E; simpl in E.
    - destruct a as [|? [|]]; discriminate.
    - destruct a as [|z a]; simpl in E.
      + injection E as <- E. exists [], tr, r. split; [auto|split; auto].
        rewrite gap_roots. destruct r; simpl in E |- *; injection E as <- _; auto.
      + injection E as <- E. destruct (IH a E) as (r1 & t2 & r2 & -> & ? & ?).
        exists (tr :: r1), t2, r2. auto. }
  destruct Hs as (r1 & tr & r2 & -> & -> & ->). eapply child_dec; eauto.
Qed.

Lemma child_nodup h f C r : Rep h f (plug C r) -> NoDup (map root_of r ++ [T (hole_owner (f_tail f) C)]).
Proof.
  intros R.
  assert (Hd : NoDup (fword r)).
  { pose proof (rep_nodup _ _ _ R) as Hd. unfold fp in Hd. apply NoDup_cons in Hd as [_ Hd].
    apply fword_NoDup in Hd. rewrite fword_plug in Hd.
    apply NoDup_app in Hd as (_ & _ & Hd). apply NoDup_app in Hd. tauto. }
  apply NoDup_app. split; [|split; [|apply NoDup_singleton]].
  - clear R. induction r as [|[n v cs] r IH]; simpl; [constructor|].
    rewrite fword_cons in Hd. apply NoDup_cons in Hd as [H1 Hd].
    apply NoDup_cons. split.
    + intros Hin. apply H1. rewrite elem_of_app, elem_of_cons. right. right.
      apply elem_of_list_fmap in Hin as ([m x ds] & E & Hin). simpl in E. injection E as ->.
      apply elem_of_list_split in Hin as (r1 & r2 & ->). rewrite fword_app, fword_cons, elem_of_app, elem_of_cons. auto.
    + apply IH. apply NoDup_app in Hd as (_ & _ & Hd). apply NoDup_cons in Hd. tauto.
  - intros x Hx. rewrite elem_of_list_singleton. intros ->.
    apply elem_of_list_fmap in Hx as ([m x ds] & E & Hin). discriminate.
Qed.

(** ** preorder and postorder *)
Lemma sel_split e w p x q : sel e w = p ++ x :: q -> exists a b, w = a ++ x :: b /\ sel e a = p /\ sel e b = q.
Proof.
  revert p. induction w as [|y w IH]; intros p; unfold sel in *; [destruct p; discriminate|].
  rewrite filter_cons. destruct (decide (it_edge y = e)) as [E|E].
  - destruct p as [|z p]; simpl; intros [= -> H].
    + exists [], w. auto.
    + destruct (IH p H) as (a & b & -> & <- & <-). exists (z :: a), b. split; auto.
      rewrite filter_cons_True; auto.
  - intros H. destruct (IH p H) as (a & b & -> & <- & <-). exists (y :: a), b. split; auto.
    rewrite filter_cons_False; auto.
Qed.

Lemma edge_next h t w e fuel : WRep h t w -> length w + 1 <= fuel ->
  next_ok (edge_increment fuel h e) (sel e w ++ [endp e t]).
Proof.
  intros H Hf a x y b E.
  assert (Hs : exists p q, w = p ++ x :: q /\ y = nexte e t q).
  { assert (Hx : exists q', sel e w = a ++ x :: q' /\ y = hd (endp e t) q').
    { destruct b as [|z b _] using rev_ind.
      - assert (E' : sel e w ++ [endp e t] = (a ++ [x]) ++ [y]) by (rewrite <- app_assoc; auto).
        apply app_inj_tail in E' as [-> <-]. exists []. auto.
      - assert (E' : sel e w ++ [endp e t] = (a ++ x :: y :: b) ++ [z]) by (rewrite <- app_assoc; auto).
        apply app_inj_tail in E' as [-> <-]. exists (y :: b). auto. }
    destruct Hx as (q' & Hx & ->). destruct (sel_split _ _ _ _ _ Hx) as (p & q & -> & _ & <-).
    exists p, q. split; [reflexivity|]. unfold nexte. destruct (sel e q); reflexivity. }
  destruct Hs as (p & q & -> & ->). unfold edge_increment.
  rewrite (increment_cons h t p x q H). simpl.
  apply (find_edge_spec h t (p ++ [x]) q).
  - rewrite <- app_assoc. auto.
  - rewrite app_length in Hf. simpl in Hf. lia.
Qed.

Lemma edge_prev h t w e fuel : WRep h t w -> length w + 2 <= fuel ->
  prev_ok (edge_decrement fuel h e) (sel e w ++ [endp e t]).
Proof.
  intros H Hf a x y b E.
  assert (Hs : (exists p q, w = p ++ y :: q /\ sel e p = a ++ [x]) \/ (y = endp e t /\ sel e w = a ++ [x])).
  { destruct b as [|z b _] using rev_ind.
    - right. assert (E' : sel e w ++ [endp e t] = (a ++ [x]) ++ [y]) by (rewrite <- app_assoc; auto).
      apply app_inj_tail in E' as [-> <-]. auto.
    - left. assert (E' : sel e w ++ [endp e t] = ((a ++ [x]) ++ y :: b) ++ [z]) by (rewrite <- !app_assoc; auto).
      apply app_inj_tail in E' as [E' <-]. destruct (sel_split _ _ _ _ _ E') as (p & q & -> & <- & <-).
      exists p, q. auto. }
  unfold edge_decrement. destruct Hs as [(p & q & -> & Hp)|[-> Hp]].
  - rewrite (decrement_snoc h t p y q H). simpl.
    rewrite (find_edge_reverse_spec h t p (y :: q)); auto.
    + rewrite Hp, last_last. auto.
    + rewrite app_length in Hf. simpl in Hf. lia.
    + rewrite Hp. destruct a; discriminate.
  - assert (H' : WRep h t (w ++ [])) by (rewrite app_nil_r; auto).
    assert (Hr : forall fuel, length w + 1 <= fuel -> find_edge_reverse fuel h (lastp t w) e = Ok x).
    { intros fl Hl. rewrite (find_edge_reverse_spec h t w []); auto.
      - rewrite Hp, last_last. auto.
      - rewrite Hp. destruct a; discriminate. }
    assert (Hd : decrement h (T t) = Ok (lastp t w)) by apply (decrement_gap h t w [] H').
    destruct e.
    + unfold endp. rewrite Hd. simpl. apply Hr. lia.
    + unfold endp. rewrite (decrement_wrap h t w H). simpl.
      destruct fuel as [|fuel]; [lia|]. simpl. rewrite Hd. simpl. apply Hr. lia.
Qed.

Lemma edge_nodup h t w e : WRep h t w -> NoDup (sel e w ++ [endp e t]).
Proof.
  intros H. apply NoDup_app. split; [|split; [|apply NoDup_singleton]].
  - unfold sel. apply NoDup_filter. pose proof (wr_nodup _ _ _ H) as Hd. unfold ring in Hd.
    apply NoDup_cons in Hd as [_ Hd]. apply NoDup_app in Hd. tauto.
  - intros x Hx. rewrite elem_of_list_singleton. intros ->. unfold sel in Hx.
    apply elem_of_list_filter in Hx as [_ Hx]. apply (wr_notin_tail _ _ _ _ H Hx).
Qed.

End iter.
