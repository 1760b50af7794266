(** Reverse, depth and filter iterators. *)
From stdpp Require Import gmap list.
From Coq Require Import ZArith.
From Verif.Forest Require Import Model Spec Rep ProofWord ProofHeap ProofOps ProofOps2 ProofTree ProofEdge ProofCopy ProofIter.

Section chained.
Context {A : Type} (R : A -> A -> Prop).
Fixpoint chained (l : list A) : Prop :=
  match l with
  | [] => True
  | x :: l' => match l' with [] => True | y :: _ => R x y end /\ chained l'
  end.
Lemma chained_app a x b : chained (a ++ [x]) -> chained (x :: b) -> chained (a ++ x :: b).
Proof.
  induction a as [|y a IH]; simpl; [auto|]. intros [H1 H2] H3. split; [|apply IH; auto].
  destruct a; auto.
Qed.
Lemma chained_adj l a x y b : chained l -> l = a ++ x :: y :: b -> R x y.
Proof.
  revert l. induction a as [|z a IH]; intros l H ->; simpl in H; [tauto|]. eapply IH; [|reflexivity]. tauto.
Qed.
End chained.

Section iter2.
Context {V : Type}.
Implicit Types (h : heap V) (f g : fobj) (l r : list (tree V)) (C D : list (@frame V)).

Lemma map_adj {A B} (g : A -> B) (l : list A) a x y b : map g l = a ++ x :: y :: b ->
  exists a' x' y' b', l = a' ++ x' :: y' :: b' /\ x = g x' /\ y = g y'.
Proof.
  intros E. apply fmap_app_inv in E as (k1 & k2 & E1 & E2 & ->).
  destruct k2 as [|x' [|y' k2]]; simpl in E2; try discriminate. injection E2 as -> -> E2. eauto 10.
Qed.

Lemma last_cons' {A} (l : list A) x d : List.last (x :: l) d = List.last l x.
Proof.
  revert x d. induction l as [|y l IH]; intros x d; [reflexivity|].
  change (List.last (y :: l) d = List.last (y :: l) x). rewrite !IH. auto.
Qed.
Lemma last_app_cons {A} (k l : list A) x d : List.last (k ++ x :: l) d = List.last l x.
Proof. revert d. induction k as [|y k IH]; intros d; [apply last_cons'|]. simpl app. rewrite last_cons'. apply IH. Qed.

(** ** reverse_fullorder_iterator *)
Definition rp (x : iter) : riter := RIter x (pivot_edge (it_edge x)).
Definition flip (x : iter) : iter := Iter (it_node x) (pivot_edge (it_edge x)).

Lemma rp_fwd x : Iter (it_node (r_base (rp x))) (pivot_edge (r_edge (rp x))) = x.
Proof. destruct x as [n []]; auto. Qed.

Lemma r_next_ok h t w : WRep h t w -> next_ok (r_increment h) (map rp (rev (ring t w))).
Proof.
  intros H a x y b E.
  assert (Hs : exists a' x' y' b', ring t w = b' ++ y' :: x' :: a' /\ x = rp x' /\ y = rp y').
  { destruct (map_adj _ _ _ _ _ _ E) as (a' & x' & y' & b' & E' & -> & ->).
    apply (f_equal (@rev _)) in E'. rewrite rev_involutive, rev_app_distr in E'. simpl in E'.
    rewrite <- !app_assoc in E'. simpl in E'. eauto 10. }
  destruct Hs as (a' & x' & y' & b' & Er & -> & ->). unfold r_increment. rewrite rp_fwd.
  rewrite (decrement_adj _ _ _ _ _ _ _ H Er). auto.
Qed.

Lemma r_prev_ok h t w : WRep h t w -> prev_ok (r_decrement h) (map rp (rev (ring t w))).
Proof.
  intros H a x y b E.
  assert (Hs : exists a' x' y' b', ring t w = b' ++ y' :: x' :: a' /\ x = rp x' /\ y = rp y').
  { destruct (map_adj _ _ _ _ _ _ E) as (a' & x' & y' & b' & E' & -> & ->).
    apply (f_equal (@rev _)) in E'. rewrite rev_involutive, rev_app_distr in E'. simpl in E'.
    rewrite <- !app_assoc in E'. simpl in E'. eauto 10. }
  destruct Hs as (a' & x' & y' & b' & Er & -> & ->). unfold r_decrement. rewrite rp_fwd.
  rewrite (increment_adj _ _ _ _ _ _ _ H Er). auto.
Qed.

Lemma r_make_spec h t a b : WRep h t (a ++ b) -> r_make h (firstp t b) = Ok (rp (lastp t a)).
Proof. intros H. unfold r_make. rewrite (decrement_gap _ _ _ _ H). auto. Qed.

Lemma r_base_spec h t a b : WRep h t (a ++ b) -> r_base_of h (rp (lastp t a)) = Ok (firstp t b).
Proof. intros H. unfold r_base_of. simpl. apply (increment_gap _ _ _ _ H). Qed.

Lemma fmirror_cons n v cs l : fmirror (V:=V) (Node n v cs :: l) = fmirror l ++ [Node n v (fmirror cs)].
Proof. reflexivity. Qed.

Lemma fword_mirror l : map flip (rev (fword l)) = fword (fmirror l).
Proof.
  induction l as [|n v cs l IHc IHl] using forest_ind'.
  - unfold fmirror. simpl. rewrite !(fword_nil (V:=V)). auto.
  - rewrite fmirror_cons, fword_app, !fword_cons, (fword_nil (V:=V)).
    simpl. rewrite !rev_app_distr. simpl. rewrite !map_app. simpl. rewrite IHc, IHl.
    rewrite <- !app_assoc. auto.
Qed.

(** ** depth_fullorder_iterator *)
Definition drel (p q : iter * Z) : Prop :=
  q.2 = (p.2 + (if decide (it_edge p.1 = it_edge q.1) then depth_delta (it_edge p.1) else 0))%Z.

Lemma fdepths_nil d : fdepths d (@nil (tree V)) = [].
Proof. auto. Qed.
Lemma fdepths_cons d n v cs l : fdepths d (Node n v cs :: l) =
  (L n, d) :: fdepths (d + 1) cs ++ (T n, d) :: fdepths (V:=V) d l.
Proof. unfold fdepths. simpl. rewrite <- app_assoc. auto. Qed.

Lemma fdepths_fst l : forall d, map fst (fdepths d l) = fword l.
Proof.
  induction l as [|n v cs l IHc IHl] using forest_ind'; intros d.
  - rewrite (fword_nil (V:=V)). auto.
  - rewrite fdepths_cons, fword_cons. simpl. rewrite map_app. simpl. rewrite IHc, IHl. auto.
Qed.

Lemma fdepths_chained l : forall d p q,
  (it_edge p.1 = leading /\ p.2 = (d - 1)%Z \/ it_edge p.1 = trailing /\ p.2 = d) ->
  (it_edge q.1 = leading /\ q.2 = d \/ it_edge q.1 = trailing /\ q.2 = (d - 1)%Z) ->
  chained drel (p :: fdepths d l ++ [q]).
Proof.
  induction l as [|n v cs l IHc IHl] using forest_ind'; intros d p q Hp Hq.
  - simpl. split; auto. unfold drel, depth_delta.
    destruct Hp as [[-> Hp]|[-> Hp]], Hq as [[-> Hq]|[-> Hq]]; case_decide; try congruence; rewrite ?Z.shiftl_mul_pow2 by lia; simpl; lia.
  - rewrite fdepths_cons.
    change (chained drel ([p] ++ (L n, d) :: ((fdepths (d + 1) cs ++ (T n, d) :: fdepths d l) ++ [q]))).
    apply chained_app.
    + simpl. split; auto. unfold drel, depth_delta. simpl.
      destruct Hp as [[-> Hp]|[-> Hp]]; case_decide; try congruence; rewrite ?Z.shiftl_mul_pow2 by lia; simpl; lia.
    + rewrite <- app_assoc. simpl app.
      change (chained drel (((L n, d) :: fdepths (d + 1) cs) ++ (T n, d) :: (fdepths d l ++ [q]))).
      apply chained_app.
      * apply IHc; simpl; [left; split; auto; lia|right; split; auto; lia].
      * apply IHl; auto. 
Qed.

Definition dp (p : iter * Z) : diter := DIter p.1 p.2.
Definition dring (t : nat) l : list (iter * Z) := (L t, (-1)%Z) :: fdepths 0 l ++ [(T t, (-1)%Z)].

Lemma dring_fst t l : map fst (dring t l) = ring t (fword l).
Proof. unfold dring. simpl. rewrite map_app, fdepths_fst. auto. Qed.

Lemma d_next_ok h t l : WRep h t (fword l) -> next_ok (d_increment h) (map dp (dring t l)).
Proof.
  intros H a x y b E. destruct (map_adj _ _ _ _ _ _ E) as (a' & x' & y' & b' & E' & -> & ->).
  assert (Hc : drel x' y').
  { eapply chained_adj; [|exact E']. apply fdepths_chained; simpl; auto. }
  assert (Hi : increment h x'.1 = Ok y'.1).
  { apply (f_equal (map fst)) in E'. rewrite dring_fst, map_app in E'. simpl in E'.
    eapply increment_adj; eauto. }
  unfold d_increment, dp. simpl. rewrite Hi. simpl. f_equal. f_equal. rewrite Hc.
  destruct (decide _); lia.
Qed.

Lemma d_prev_ok h t l : WRep h t (fword l) -> prev_ok (d_decrement h) (map dp (dring t l)).
Proof.
  intros H a x y b E. destruct (map_adj _ _ _ _ _ _ E) as (a' & x' & y' & b' & E' & -> & ->).
  assert (Hc : drel x' y').
  { eapply chained_adj; [|exact E']. apply fdepths_chained; simpl; auto. }
  assert (Hi : decrement h y'.1 = Ok x'.1).
  { apply (f_equal (map fst)) in E'. rewrite dring_fst, map_app in E'. simpl in E'.
    eapply decrement_adj; eauto. }
  unfold d_decrement, dp. simpl. rewrite Hi. simpl. f_equal. f_equal. rewrite Hc.
  destruct (decide (it_edge x'.1 = it_edge y'.1)) as [Ee|Ee];
    destruct (decide (it_edge y'.1 = it_edge x'.1)) as [Ee'|Ee']; try congruence; [rewrite Ee|]; lia.
Qed.

(** The number of ancestors, in terms of contexts. *)
Lemma fdepths_app d l r : fdepths (V:=V) d (l ++ r) = fdepths d l ++ fdepths d r.
Proof. unfold fdepths. rewrite map_app, concat_app. auto. Qed.

Lemma fdepths_under C : forall q l d, q ∈ fdepths (V:=V) (d + Z.of_nat (length C)) l ->
  q ∈ fdepths (V:=V) d (plug C l).
Proof.
  induction C as [|[[[a n] v] b] C IH]; intros q l d Hq; simpl in *.
  - rewrite Z.add_0_r in Hq. auto.
  - apply IH. rewrite fdepths_app, fdepths_cons, elem_of_app, elem_of_cons, elem_of_app.
    rewrite Nat2Z.inj_succ in Hq. rewrite <- Z.add_assoc, Z.add_1_r. auto.
Qed.

Lemma fdepths_plug C a n v cs b e d : (Iter n e, (d + Z.of_nat (length C))%Z) ∈
   fdepths (V:=V) d (plug C (a ++ Node n v cs :: b)).
Proof.
  apply fdepths_under. rewrite fdepths_app, fdepths_cons, elem_of_app, elem_of_cons, elem_of_app, elem_of_cons.
  destruct e; auto.
Qed.

(** ** filter_fullorder_iterator *)
Lemma fkeep_cons (p : V -> bool) n v cs l : fkeep p (Node n v cs :: l) =
  if p v then Node n v (fkeep p cs) :: fkeep p l else fkeep p l.
Proof. unfold fkeep. simpl. destruct (p v); auto. Qed.

Section filter.
Variables (h : heap V) (t : nat) (w : list iter) (p : V -> bool).
Hypothesis (W : WRep h t w).
Let first := firstp t w.
Let lst := T t.

Definition Fw (c : list iter) (x : iter) : Prop :=
  forall fuel, length c <= fuel -> skip_forward fuel h p (firstp t c) lst = Ok x.
Definition Bw (a : list iter) (x : iter) : Prop :=
  forall fuel, length a <= fuel -> skip_backward fuel h p first (lastp t a) = Ok x.

Lemma first_leading n : n ∈ wnodes w -> first <> T n.
Proof.
  intros Hn E. unfold first in E. pose proof (wr_bal _ _ _ W) as Hb. destruct w as [|x w'].
  - simpl in Hn. inversion Hn.
  - simpl in E. rewrite E in Hb. apply bal_brun in Hb. simpl in Hb. discriminate.
Qed.

Lemma Fw_stop_T c n : firstp t c = T n -> Fw c (T n).
Proof. intros E fuel _. rewrite E. destruct fuel; auto. Qed.

Lemma deref_of n v : dt h n = Some (Some v) -> forall e, deref h (Iter n e) = Ok v.
Proof.
  intros H e. unfold deref, load, dt in *. simpl. destruct (h !! n); simpl in *; [|discriminate].
  injection H as ->. auto.
Qed.

Lemma Fw_stop_L n v c : dt h n = Some (Some v) -> p v = true -> n <> t -> Fw (L n :: c) (L n).
Proof.
  intros Hv Hp Hn fuel Hf. destruct fuel; simpl; rewrite (bool_decide_eq_false_2 (L n = lst)) by discriminate;
    simpl; rewrite (deref_of n v Hv); simpl; rewrite Hp; auto.
Qed.

Lemma Fw_skip a n v s c x : w = a ++ L n :: s ++ T n :: c -> dt h n = Some (Some v) -> p v = false ->
  Fw c x -> Fw (L n :: s ++ T n :: c) x.
Proof.
  intros Ew Hv Hp HF fuel Hf. destruct fuel as [|fuel]; [simpl in Hf; lia|].
  simpl. rewrite (bool_decide_eq_false_2 (L n = lst)) by discriminate.
  simpl. rewrite (deref_of n v Hv). simpl. rewrite Hp. unfold trailing_of. simpl.
  assert (W' : WRep h t ((a ++ L n :: s) ++ T n :: c)).
  { rewrite <- app_assoc. simpl. rewrite <- Ew. auto. }
  rewrite (increment_cons _ _ _ _ _ W'). simpl. apply HF. simpl in Hf. rewrite app_length in Hf. simpl in Hf. lia.
Qed.

Lemma Bw_stop_L a n : lastp t a = L n -> Bw a (L n).
Proof. intros E fuel _. rewrite E. destruct fuel; auto. Qed.

Lemma Bw_stop_T n v a : dt h n = Some (Some v) -> p v = true -> n ∈ wnodes w -> Bw (a ++ [T n]) (T n).
Proof.
  intros Hv Hp Hn fuel Hf. rewrite lastp_snoc.
  destruct fuel; simpl; rewrite (bool_decide_eq_false_2 (first = T n)) by (apply first_leading; auto);
    simpl; rewrite (deref_of n v Hv); simpl; rewrite Hp; auto.
Qed.

Lemma Bw_skip a n v s c x : w = a ++ L n :: s ++ T n :: c -> dt h n = Some (Some v) -> p v = false ->
  Bw a x -> Bw (a ++ L n :: s ++ [T n]) x.
Proof.
  intros Ew Hv Hp HF fuel Hf. rewrite !app_length in Hf. simpl in Hf. rewrite app_length in Hf. simpl in Hf.
  destruct fuel as [|fuel]; [lia|].
  assert (E : a ++ L n :: s ++ [T n] = (a ++ L n :: s) ++ [T n]) by (rewrite <- app_assoc; auto).
  rewrite E, lastp_snoc. simpl. rewrite (bool_decide_eq_false_2 (first = T n)).
  2:{ apply first_leading. rewrite Ew. rewrite wnodes_app, wnodes_cons, elem_of_app, elem_of_cons. auto. }
  simpl. rewrite (deref_of n v Hv). simpl. rewrite Hp. unfold leading_of. simpl.
  assert (W' : WRep h t (a ++ L n :: s ++ T n :: c)) by (rewrite <- Ew; auto).
  rewrite (decrement_snoc _ _ _ _ _ W'). simpl. apply HF. lia.
Qed.

Lemma lastp_app' a s : s <> [] -> lastp t (a ++ s) = lastp t s.
Proof. intros Hs. apply lastp_app. auto. Qed.

Lemma filter_struct l : forall a c fc ba, w = a ++ fword l ++ c ->
  (forall n v, (n, v) ∈ fpre l -> dt h n = Some (Some v)) -> Fw c fc -> Bw a ba ->
  Fw (fword l ++ c) (hd fc (fword (fkeep p l))) /\
  Bw (a ++ fword l) (List.last (fword (fkeep p l)) ba) /\
  (forall p1 x q1, fword (fkeep p l) = p1 ++ x :: q1 -> exists a2 c2, w = a2 ++ x :: c2 /\
     Fw c2 (hd fc q1) /\ Bw a2 (List.last p1 ba)).
Proof.
  induction l as [|n v cs l IHc IHl] using forest_ind'; intros a c fc ba Ew Hv HF HB.
  - assert (E : fkeep p [] = []) by reflexivity. rewrite E, (fword_nil (V:=V)), app_nil_r. simpl.
    split; auto. split; auto. intros p1 x q1 H. destruct p1; discriminate.
  - rewrite fword_cons in *.
    assert (Hn : dt h n = Some (Some v)). { apply Hv. rewrite fpre_cons. apply elem_of_list_here. }
    assert (Hnt : n <> t).
    { intros ->. apply (wr_tail_nodes _ _ _ W). rewrite Ew, wnodes_app. simpl. rewrite elem_of_app, elem_of_cons. auto. }
    assert (Ew1 : w = (a ++ L n :: fword cs ++ [T n]) ++ fword l ++ c).
    { rewrite Ew. rewrite <- !app_assoc. simpl. rewrite <- !app_assoc. auto. }
    assert (Ew2 : w = (a ++ [L n]) ++ fword cs ++ (T n :: fword l ++ c)).
    { rewrite Ew. rewrite <- !app_assoc. simpl. rewrite <- !app_assoc. auto. }
    assert (Ew3 : w = a ++ L n :: fword cs ++ T n :: (fword l ++ c)).
    { rewrite Ew. simpl. rewrite <- !app_assoc. auto. }
    assert (Hnw : n ∈ wnodes w). { rewrite Ew3, wnodes_app, wnodes_cons, elem_of_app, elem_of_cons. auto. }
    assert (Hvl : forall m x, (m, x) ∈ fpre l -> dt h m = Some (Some x)).
    { intros m x Hm. apply Hv. rewrite fpre_cons, elem_of_cons, elem_of_app. auto. }
    assert (Hvc : forall m x, (m, x) ∈ fpre cs -> dt h m = Some (Some x)).
    { intros m x Hm. apply Hv. rewrite fpre_cons, elem_of_cons, elem_of_app. auto. }
    rewrite fkeep_cons. destruct (p v) eqn:Hp.
    + destruct (IHc (a ++ [L n]) (T n :: fword l ++ c) (T n) (L n) Ew2 Hvc) as (Fc & Bc & Mc).
      { apply (Fw_stop_T _ n). auto. }
      { apply Bw_stop_L. apply lastp_snoc. }
      destruct (IHl (a ++ L n :: fword cs ++ [T n]) c fc (T n) Ew1 Hvl HF) as (Fl & Bl & Ml).
      { assert (E : a ++ L n :: fword cs ++ [T n] = (a ++ L n :: fword cs) ++ [T n]) by (rewrite <- app_assoc; auto).
        rewrite E. eapply Bw_stop_T; eauto. }
      rewrite fword_cons. set (wc := fword (fkeep p cs)) in *. set (wl := fword (fkeep p l)) in *.
      clearbody wc wl. split; [|split].
      * simpl. eapply Fw_stop_L; eauto.
      * rewrite last_cons', last_app_cons. rewrite <- app_assoc in Bl. simpl in Bl. rewrite <- app_assoc in Bl. exact Bl.
      * intros p1 x q1 H. destruct p1 as [|y p1]; simpl in H.
        { injection H as <- <-. exists a, (fword cs ++ T n :: fword l ++ c). split; auto.
          split; [|auto]. destruct wc; simpl in *; auto. }
        injection H as <- H. rewrite last_cons'.
        assert (Hs : (exists k, wc = p1 ++ x :: k /\ q1 = k ++ T n :: wl) \/ (x = T n /\ p1 = wc /\ q1 = wl) \/
                     (exists k, wl = k ++ x :: q1 /\ p1 = wc ++ T n :: k)).
        { clear -H. revert p1 H. induction wc as [|z wc IH]; intros p1 H; simpl in *.
          - destruct p1 as [|y p1]; simpl in H; injection H as <- H; [auto|]. right. right. exists p1. split; auto.
          - destruct p1 as [|y p1]; simpl in H; injection H as <- H; [left; eauto|].
            destruct (IH p1 H) as [(k & -> & ->)|[(-> & -> & ->)|(k & -> & ->)]]; eauto 10. }
        destruct Hs as [(k & -> & ->)|[(-> & -> & ->)|(k & -> & ->)]].
        -- destruct (Mc p1 x k eq_refl) as (a2 & c2 & E & HF2 & HB2). exists a2, c2. split; auto.
           split; auto. destruct k; auto.
        -- exists (a ++ L n :: fword cs), (fword l ++ c). split; [rewrite Ew3, <- app_assoc; auto|].
           split; auto. rewrite <- app_assoc in Bc. exact Bc.
        -- destruct (Ml k x q1 eq_refl) as (a2 & c2 & E & HF2 & HB2). exists a2, c2. split; auto.
           split; auto. rewrite last_app_cons. auto.
    + destruct (IHl (a ++ L n :: fword cs ++ [T n]) c fc ba Ew1 Hvl HF) as (Fl & Bl & Ml).
      { eapply Bw_skip; eauto. }
      split; [|split].
      * simpl. rewrite <- app_assoc. simpl. eapply Fw_skip; eauto.
      * rewrite <- app_assoc in Bl. simpl in Bl. rewrite <- app_assoc in Bl. exact Bl.
      * exact Ml.
Qed.

(** The kept positions. *)
Lemma fl_next_ok l fuel : w = fword l -> (forall n v, (n, v) ∈ fpre l -> dt h n = Some (Some v)) ->
  length w <= fuel ->
  next_ok (fl_increment fuel h p first lst) (map (fun x => Flt x true) (fword (fkeep p l) ++ [T t])).
Proof.
  intros Ew Hv Hf a x y b E. destruct (map_adj _ _ _ _ _ _ E) as (a' & x' & y' & b' & E' & -> & ->).
  destruct (filter_struct l [] [] (T t) (L t)) as (_ & _ & M).
  { simpl. rewrite app_nil_r. auto. } { auto. } { apply (Fw_stop_T _ t). auto. } { apply Bw_stop_L. auto. }
  assert (Hx : exists q1, fword (fkeep p l) = a' ++ x' :: q1 /\ y' = hd (T t) q1).
  { destruct b' as [|z b' _] using rev_ind.
    - assert (E2 : fword (fkeep p l) ++ [T t] = (a' ++ [x']) ++ [y']) by (rewrite <- app_assoc; auto).
      apply app_inj_tail in E2 as [-> <-]. exists []. auto.
    - assert (E2 : fword (fkeep p l) ++ [T t] = (a' ++ x' :: y' :: b') ++ [z]) by (rewrite <- app_assoc; auto).
      apply app_inj_tail in E2 as [-> <-]. exists (y' :: b'). auto. }
  destruct Hx as (q1 & Hx & ->). destruct (M _ _ _ Hx) as (a2 & c2 & E2 & HF & _).
  unfold fl_increment. simpl.
  rewrite (decide_False (P := x' = lst)).
  2:{ intros ->. apply (wr_notin_tail _ _ _ trailing W). rewrite E2, elem_of_app, elem_of_cons. auto. }
  assert (W' : WRep h t (a2 ++ x' :: c2)) by (rewrite <- E2; auto).
  rewrite (increment_cons _ _ _ _ _ W'). simpl.
  assert (Eb : forall P (d : Decision P), (if d then true else true) = true) by (intros P []; auto).
  rewrite Eb. rewrite HF; auto. rewrite E2, app_length in Hf. simpl in Hf. lia.
Qed.

Lemma fl_prev_ok l fuel : w = fword l -> (forall n v, (n, v) ∈ fpre l -> dt h n = Some (Some v)) ->
  length w <= fuel ->
  prev_ok (fl_decrement fuel h p first lst) (map (fun x => Flt x true) (fword (fkeep p l) ++ [T t])).
Proof.
  intros Ew Hv Hf a x y b E. destruct (map_adj _ _ _ _ _ _ E) as (a' & x' & y' & b' & E' & -> & ->).
  destruct (filter_struct l [] [] (T t) (L t)) as (_ & Bl & M).
  { simpl. rewrite app_nil_r. auto. } { auto. } { apply (Fw_stop_T _ t). auto. } { apply Bw_stop_L. auto. }
  simpl in Bl. rewrite <- Ew in Bl.
  assert (Hin : forall z, z ∈ fword (fkeep p l) -> z ∈ w).
  { intros z Hz. apply elem_of_list_split in Hz as (u1 & u2 & Hz). destruct (M _ _ _ Hz) as (a2 & c2 & E2 & _).
    rewrite E2, elem_of_app, elem_of_cons. auto. }
  assert (Hxw : x' ∈ w).
  { apply Hin. destruct b' as [|z b' _] using rev_ind.
    - assert (E2 : fword (fkeep p l) ++ [T t] = (a' ++ [x']) ++ [y']) by (rewrite <- app_assoc; auto).
      apply app_inj_tail in E2 as [-> <-]. rewrite elem_of_app, elem_of_list_singleton. auto.
    - assert (E2 : fword (fkeep p l) ++ [T t] = (a' ++ x' :: y' :: b') ++ [z]) by (rewrite <- app_assoc; auto).
      apply app_inj_tail in E2 as [-> <-]. rewrite elem_of_app, elem_of_cons. auto. }
  assert (Hs : exists a2 c2, w = a2 ++ c2 /\ y' = firstp t c2 /\ Bw a2 x').
  { destruct b' as [|z b' _] using rev_ind.
    - assert (E2 : fword (fkeep p l) ++ [T t] = (a' ++ [x']) ++ [y']) by (rewrite <- app_assoc; auto).
      apply app_inj_tail in E2 as [E2 <-]. exists w, []. rewrite app_nil_r. split; auto. split; auto.
      rewrite E2, last_app_cons in Bl. exact Bl.
    - assert (E2 : fword (fkeep p l) ++ [T t] = ((a' ++ [x']) ++ y' :: b') ++ [z]) by (rewrite <- !app_assoc; auto).
      apply app_inj_tail in E2 as [E2 <-]. destruct (M _ _ _ E2) as (a2 & c2 & E3 & _ & HB).
      exists a2, (y' :: c2). split; auto. split; auto. rewrite last_app_cons in HB. exact HB. }
  destruct Hs as (a2 & c2 & E2 & -> & HB).
  assert (Ha2 : a2 <> []).
  { intros ->. specialize (HB 0 ltac:(simpl; lia)). rewrite lastp_nil in HB. simpl in HB. injection HB as <-.
    apply (wr_notin_tail _ _ _ leading W Hxw). }
  assert (W' : WRep h t (a2 ++ c2)) by (rewrite <- E2; auto).
  unfold fl_decrement. simpl. rewrite (decide_False (P := firstp t c2 = first)).
  2:{ unfold first. rewrite E2. rewrite firstp_app by auto. intros Ef.
      assert (Hd : NoDup (ring t (a2 ++ c2))) by apply W'.
      destruct a2 as [|z a2]; [congruence|]. simpl in Ef. subst z.
      unfold ring in Hd. apply NoDup_cons in Hd as [_ Hd]. simpl in Hd. apply NoDup_cons in Hd as [Hd _].
      apply Hd. rewrite <- app_assoc, elem_of_app. right. destruct c2; simpl; rewrite ?elem_of_cons; auto. }
  rewrite (decrement_gap _ _ _ _ W'). simpl.
  assert (Eb : forall P (d : Decision P), (if d then true else true) = true) by (intros P []; auto).
  rewrite Eb. rewrite HB; auto. rewrite E2, app_length in Hf. lia.
Qed.

Lemma fl_make_spec l fuel : w = fword l -> (forall n v, (n, v) ∈ fpre l -> dt h n = Some (Some v)) ->
  length w <= fuel ->
  fl_make fuel h p first lst = Ok (Flt (hd (T t) (fword (fkeep p l))) true).
Proof.
  intros Ew Hv Hf.
  destruct (filter_struct l [] [] (T t) (L t)) as (HF & _).
  { simpl. rewrite app_nil_r. auto. } { auto. } { apply (Fw_stop_T _ t). auto. } { apply Bw_stop_L. auto. }
  rewrite app_nil_r, <- Ew in HF. unfold fl_make. unfold first. rewrite HF; auto.
Qed.

Lemma fkeep_in l x : w = fword l -> (forall n v, (n, v) ∈ fpre l -> dt h n = Some (Some v)) ->
  x ∈ fword (fkeep p l) -> x ∈ w.
Proof.
  intros Ew Hv Hx.
  destruct (filter_struct l [] [] (T t) (L t)) as (_ & _ & M).
  { simpl. rewrite app_nil_r. auto. } { auto. } { apply (Fw_stop_T _ t). auto. } { apply Bw_stop_L. auto. }
  apply elem_of_list_split in Hx as (u1 & u2 & Hx). destruct (M _ _ _ Hx) as (a2 & c2 & E2 & _).
  rewrite E2, elem_of_app, elem_of_cons. auto.
Qed.
End filter.
End iter2.
