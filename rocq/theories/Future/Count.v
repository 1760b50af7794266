(** More counting: results, hand-overs and detached functions happen once. *)
From Coq Require Import List Bool Lia ZArith.
From stdpp Require Import list.
From Verif.Lib Require Import Perm.
From Verif.Future Require Import Model Spec Step Lin LinInv Loc LocInv Hist.
Local Open Scope Z_scope.

(** tasks not finished *)
Definition BBr x r := z (cnt x (r_pre r)) + z (cnt x (match r with Frame c Body => [c] | _ => [] end)).
Definition BBc x (c : nat) y := z (cnt x (c_pre y)).
Definition MB x := meas (BBr x) (BBc x).
Definition e_ret (e : event) : list nat := match e with Returned c _ | Skipped c | Abandoned c | Cancelled c | Lost c => [c] | _ => [] end.
(** continuations not handed over *)
Definition KKr x r := z (cnt x (match r with Hand _ l => l ≫= cont_pre | _ => [] end)).
Definition KKc x (c : nat) y := z (cnt x (c_pre y)).
Definition MK x := meas (KKr x) (KKc x).
(** continuations taken out of a cell *)
Definition HHr x r := z (cnt x (match r with Hand (Some c) _ => [c] | _ => [] end)).
Definition HHc x c y := is x c (match out y with Some _ => 0 | None => 1 end).
Definition MH x := meas (HHr x) (HHc x).
(** detached functions *)
Definition cont_det (k : cont) : list nat := match k with KDet k _ => [k] | _ => [] end.
Definition DDr x r := z (cnt x (match r with Hand _ l => l ≫= cont_det | Det k _ => [k] | _ => [] end)).
Definition DDc x (c : nat) y := z (cnt x (thens y ≫= cont_det)).
Definition MD x := meas (DDr x) (DDc x).
Definition e_det (e : event) : list nat := match e with DetCalled k _ => [k] | _ => [] end.

Lemma BBr_nn x r : 0 <= BBr x r. Proof. unfold BBr, z. lia. Qed.
Lemma BBc_nn x c y : 0 <= BBc x c y. Proof. unfold BBc, z. lia. Qed.
Lemma KKr_nn x r : 0 <= KKr x r. Proof. unfold KKr, z. lia. Qed.
Lemma KKc_nn x c y : 0 <= KKc x c y. Proof. unfold KKc, z. lia. Qed.
Lemma HHr_nn x r : 0 <= HHr x r. Proof. unfold HHr, z. lia. Qed.
Lemma HHc_nn x c y : 0 <= HHc x c y. Proof. unfold HHc, is. destruct (out y), (_ =? _)%nat; lia. Qed.
Lemma DDr_nn x r : 0 <= DDr x r. Proof. unfold DDr, z. lia. Qed.
Lemma DDc_nn x c y : 0 <= DDc x c y. Proof. unfold DDc, z. lia. Qed.

Lemma mr_none fr f : (forall c, fr (Drop c) = 0) -> (forall c, fr (PromDrop c) = 0) -> mr fr (fn_drop f) = 0.
Proof. intros H1 H2. apply mr_zero. intros r [(c & -> & _)|(c & -> & _)]%in_fn_drop; auto. Qed.
Lemma mr_none' fr l : (forall k, fr (cont_drop k) = 0) -> mr fr (cont_drop <$> l) = 0.
Proof. intros H1. apply mr_zero. intros r (k & -> & _)%elem_of_list_fmap; auto. Qed.
Lemma fndB x f : mr (BBr x) (fn_drop f) = 0. Proof. by apply mr_none. Qed.
Lemma fndK x f : mr (KKr x) (fn_drop f) = 0. Proof. by apply mr_none. Qed.
Lemma fndH x f : mr (HHr x) (fn_drop f) = 0. Proof. by apply mr_none. Qed.
Lemma fndD x f : mr (DDr x) (fn_drop f) = 0. Proof. by apply mr_none. Qed.
Lemma cdB x l : mr (BBr x) (cont_drop <$> l) = z (cnt x (l ≫= cont_pre)).
Proof. induction l as [|k l IH]; [done|]. rewrite fmap_cons, bind_cons, z_app, <- IH. simpl. f_equal. unfold BBr. destruct k; simpl; rewrite ?z_nil; lia. Qed.
Lemma cdK x l : mr (KKr x) (cont_drop <$> l) = 0. Proof. apply mr_none'. by intros []. Qed.
Lemma cdH x l : mr (HHr x) (cont_drop <$> l) = 0. Proof. apply mr_none'. by intros []. Qed.
Lemma cdD x l : mr (DDr x) (cont_drop <$> l) = 0. Proof. apply mr_none'. by intros []. Qed.

Definition newk (s s' : st) (x : nat) : Z := if (nk s' =? nk s)%nat then 0 else is x (nk s) 1.
Lemma nk_incr c s : nk (incr c s) = nk s. Proof. unfold incr. by destruct (get_cell s c). Qed.
Lemma nk_incrs l s : nk (incrs l s) = nk s. Proof. induction l; [done|]. simpl. by rewrite nk_incr. Qed.
Lemma nk_take c s : nk (take_out c s) = nk s.
Proof. unfold take_out. destruct (get_cell s c) as [x|]; [|done]. destruct (out x) as [[]|]; try done. by destruct (_ =? _)%nat. Qed.
Lemma newk_S s s' x : nk s' = S (nk s) -> newk s s' x = is x (nk s) 1.
Proof. intros H. unfold newk. by rewrite H, (proj2 (Nat.eqb_neq _ _)) by lia. Qed.
Ltac nks := try match goal with |- context [newk ?s ?s' ?x] =>
  first [ replace (newk s s' x) with 0 by (unfold newk, resolve_to; simpl; rewrite ?nk_incr, ?nk_incrs, ?nk_take; simpl; by rewrite Nat.eqb_refl)
        | replace (newk s s' x) with (is x (nk s) 1) by (by rewrite newk_S) ] end.
Ltac evc := evs; unfold e_handed, e_det, e_ret; cbn -[z cnt is ev]; rewrite ?z_self, ?z_nil; rewrite ?ev_got by done.
Ltac cel := unfold BBr, BBc, KKr, KKc, HHr, HHc, DDr, DDc; cell_eq.
Lemma len_foldr s l : length (cs (foldr incr s l)) = length (cs s). Proof. apply len_incrs. Qed.
Ltac finc :=
  len_eq; rewrite ?len_foldr; len_eq; simpl cs; rewrite ?insert_length;
  repeat match goal with H : out ?y = _ |- context [out ?y] => rewrite H end; rewrite ?is0;
  unfold z, is; repeat match goal with |- context [out ?y] => destruct (out y) end; repeat destruct (_ =? _)%nat; lia.
Ltac tc1 T :=
  tcases T;
  try match goal with U : no_ub _, Hu : ub_cause _ ?r ?a |- _ => destruct (U r a); [by eapply elem_of_list_lookup_2|exact Hu] end;
  try match goal with H : attach _ _ _ = Some _ |- _ =>
    apply attach_cases in H as (w & Hw & [[Hwo ->]|(wo & Hwo & ->)]) end;
  try match goal with H : _ = Tok _ \/ _ = Job _ \/ _ = TokDrop _ |- _ => destruct H as [->|[->| ->]] end;
  try match goal with H : _ = Tok _ \/ _ = Job _ |- _ => destruct H as [->| ->] end;
  try match goal with |- context [resolve_to ?c _ (set_fn None ?y) (put ?c (set_fn None ?y) (rem ?i ?s))] =>
    match goal with Hc : get_cell s c = Some y |- _ =>
    pose proof (get_put_eq (rem i s) c y (set_fn None y) Hc) end end;
  try match goal with |- context [take_out ?q ?s] => 
    match goal with Hc : get_cell s ?c = Some ?x0, _ : fn ?x0 = _ |- _ => pose proof (take_cell s q c x0 Hc) end end;
  try match goal with |- context [match hold ?y with _ => _ end] => destruct (hold y) end.
Ltac mcx := repeat first [mc1 | rewrite meas_incrs by done | rewrite meas_incr by done | rewrite meas_take by done].
Ltac tkc := repeat match goal with |- context [if tk ?a ?b ?c then _ else _] => destruct (tk a b c) end.
Lemma MB_step s l s' e x : no_ub s -> tstep s l s' e -> MB x s' + ev e_ret e x = MB x s + new s s' x.
Proof.
  intros U T. tc1 T; first [new0|new1]; unfold MB; mcx; rewrite ?mr_app, ?fndB, ?cdB; tkc; evc; cel; try lia.
Qed.
Lemma MK_step s l s' e x : no_ub s -> tstep s l s' e -> MK x s' + ev e_handed e x <= MK x s + new s s' x.
Proof.
  intros U T. tc1 T; first [new0|new1]; unfold MK; mcx; rewrite ?mr_app, ?fndK, ?cdK; tkc; evc; cel; try lia.
  all: finc.
Qed.
Lemma MH_step s l s' e x : no_ub s -> tstep s l s' e -> MH x s' <= MH x s + new s s' x.
Proof.
  intros U T. tc1 T; first [new0|new1]; unfold MH; mcx; rewrite ?mr_app, ?fndH, ?cdH; tkc; evc; cel; try lia.
  all: finc.
Qed.
Lemma MD_step s l s' e x : no_ub s -> tstep s l s' e -> MD x s' + ev e_det e x <= MD x s + newk s s' x.
Proof.
  intros U T. tc1 T; nks; unfold MD; mcx; rewrite ?mr_app, ?fndD, ?cdD; tkc; evc; cel; try lia.
  all: finc.
Qed.
Lemma nk_mono s l s' e : no_ub s -> tstep s l s' e -> nk s' = nk s \/ nk s' = S (nk s).
Proof.
  intros U T. tc1 T; unfold resolve_to; simpl; rewrite ?nk_incr, ?nk_incrs, ?nk_take; simpl; rewrite ?nk_incr, ?nk_incrs, ?nk_take; auto.
Qed.

Record counts (tr : list event) (s : st) : Prop := {
  n_ret x : MB x s + ev e_ret tr x = if (x <? length (cs s))%nat then 1 else 0;
  n_handed x : MK x s + ev e_handed tr x <= if (x <? length (cs s))%nat then 1 else 0;
  n_hand x : MH x s <= if (x <? length (cs s))%nat then 1 else 0;
  n_det x : MD x s + ev e_det tr x <= if (x <? nk s)%nat then 1 else 0
}.
Lemma reach_counts tr s : reach tr s -> counts tr s.
Proof.
  induction 1 as [|tr s l s' e R IH T]; [split; intros x; unfold ev; simpl; done|].
  destruct (reach_u _ _ R) as [U F]. pose proof (len_step _ _ _ _ U T) as HL. pose proof (nk_mono _ _ _ _ U T) as HK.
  split; intros x; rewrite ?ev_app.
  - pose proof (MB_step _ _ _ _ x U T). pose proof (n_ret _ _ IH x). unfold new, is in *.
    destruct (Nat.ltb_spec x (length (cs s))), (Nat.ltb_spec x (length (cs s'))), (Nat.eqb_spec (length (cs s')) (length (cs s))), (Nat.eqb_spec x (length (cs s))); lia.
  - pose proof (MK_step _ _ _ _ x U T). pose proof (n_handed _ _ IH x). unfold new, is in *.
    destruct (Nat.ltb_spec x (length (cs s))), (Nat.ltb_spec x (length (cs s'))), (Nat.eqb_spec (length (cs s')) (length (cs s))), (Nat.eqb_spec x (length (cs s))); lia.
  - pose proof (MH_step _ _ _ _ x U T). pose proof (n_hand _ _ IH x). unfold new, is in *.
    destruct (Nat.ltb_spec x (length (cs s))), (Nat.ltb_spec x (length (cs s'))), (Nat.eqb_spec (length (cs s')) (length (cs s))), (Nat.eqb_spec x (length (cs s))); lia.
  - pose proof (MD_step _ _ _ _ x U T). pose proof (n_det _ _ IH x). unfold newk, is in *.
    destruct (Nat.ltb_spec x (nk s)), (Nat.ltb_spec x (nk s')), (Nat.eqb_spec (nk s') (nk s)), (Nat.eqb_spec x (nk s)); lia.
Qed.
Lemma ev_once f tr x b : ev f tr x <= (if b : bool then 1 else 0) -> (cnt x (tr ≫= f) <= 1)%nat.
Proof. unfold ev, z. destruct b; lia. Qed.
Lemma done_once tr s x : reach tr s -> (cnt x (tr ≫= e_done) <= 1)%nat.
Proof.
  intros R. destruct (reach_inv _ _ R) as [I _]. pose proof (i_pre _ _ I x) as H. pose proof (meas_nonneg _ _ s (FPr_nn x) (FPc_nn x)) as N.
  fold (MP x) in N. eapply ev_once. instantiate (1 := (x <? length (cs s))%nat). lia.
Qed.
Lemma ret_once tr s x : reach tr s -> (cnt x (tr ≫= e_ret) <= 1)%nat.
Proof.
  intros R. pose proof (n_ret _ _ (reach_counts _ _ R) x) as H. pose proof (meas_nonneg _ _ s (BBr_nn x) (BBc_nn x)) as N.
  fold (MB x) in N. eapply ev_once. instantiate (1 := (x <? length (cs s))%nat). lia.
Qed.
Lemma handed_once tr s x : reach tr s -> (cnt x (tr ≫= e_handed) <= 1)%nat.
Proof.
  intros R. pose proof (n_handed _ _ (reach_counts _ _ R) x) as H. pose proof (meas_nonneg _ _ s (KKr_nn x) (KKc_nn x)) as N.
  fold (MK x) in N. eapply ev_once. instantiate (1 := (x <? length (cs s))%nat). lia.
Qed.
Lemma det_once tr s x : reach tr s -> (cnt x (tr ≫= e_det) <= 1)%nat.
Proof.
  intros R. pose proof (n_det _ _ (reach_counts _ _ R) x) as H. pose proof (meas_nonneg _ _ s (DDr_nn x) (DDc_nn x)) as N.
  fold (MD x) in N. eapply ev_once. instantiate (1 := (x <? nk s)%nat). lia.
Qed.
(** two events of one kind about the same cell are the same event *)
Lemma once_eq f tr x (v w : event) : (cnt x (tr ≫= f) <= 1)%nat -> v ∈ tr -> w ∈ tr -> x ∈ f v -> x ∈ f w -> v = w.
Proof.
  intros H Hv Hw Fv Fw. apply elem_of_list_split in Hv as (l1 & l2 & ->). rewrite bind_app, bind_cons, !cnt_app in H.
  apply elem_of_app in Hw as [Hw|[Hw|Hw]%elem_of_cons]; [|done|].
  - assert (x ∈ l1 ≫= f) as Hx by (apply elem_of_list_bind; eauto). apply cnt_in in Hx, Fv. lia.
  - assert (x ∈ l2 ≫= f) as Hx by (apply elem_of_list_bind; eauto). apply cnt_in in Hx, Fv. lia.
Qed.
