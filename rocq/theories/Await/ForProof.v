From Coq Require Import List Bool Lia.
From stdpp Require Import list.
From Verif.Await Require Import Model ForModel ForSpec.

(** the states that can be reached *)
Definition fok (s : fstate) : Prop :=
  let '(FSt x r m t res n w k p q) := s in
  match w with
  | FStart => r = false /\ m = None /\ t = false /\ res = None /\ k = KIdle /\ p = false /\ q = false
  | FAttach => r = false /\ m = None /\ t = false /\ res = None /\ k = KIdle /\ p = true /\ q = false
  | FInline => r = false /\ p = true /\ x <> None /\ t = false /\
    match k with
    | KIdle => False
    | KUpgrade => m = None /\ res = None
    | KLock => m = None /\ res = None /\ q = true
    | KSet => m = Some Waiter /\ res = None /\ q = true
    | KNotify => m = None /\ res = x /\ q = true
    | KDone => m = None /\ res = x
    end
  | FLock | FSleep | FWoken _ | FCheck _ => p = true /\ t = false /\
    match k with
    | KIdle => r = true /\ x = None /\ res = None /\ m = match w with FCheck _ => Some Waiter | _ => None end
    | KUpgrade => x <> None /\ res = None /\ m = match w with FCheck _ => Some Waiter | _ => None end
    | KLock => x <> None /\ res = None /\ q = true /\ m = match w with FCheck _ => Some Waiter | _ => None end
    | KSet => x <> None /\ res = None /\ q = true /\ m = Some Completer /\ match w with FCheck _ => False | _ => True end
    | KNotify => x <> None /\ res = x /\ q = true /\ m = match w with FCheck _ => Some Waiter | _ => None end
    | KDone => x <> None /\ res = x /\ m = (match w with FCheck _ => Some Waiter | _ => None end) /\ (w = FSleep -> n = true)
    end
  | FLeave (Some o) => x = Some o /\ p = true /\ t = false /\ m = None /\
    match k with KNotify => q = true | KDone => True | _ => False end
  | FLeave None | FRet =>
    p = (match w with FRet => false | _ => true end) /\
    if t then
      match k with
      | KIdle => r = true /\ x = None /\ m = None
      | KUpgrade => x <> None /\ m = None
      | KLock => x <> None /\ m = None /\ q = true
      | KSet => x <> None /\ m = Some Completer /\ q = true
      | KNotify => False
      | KDone => x <> None /\ m = None
      end
    else w = FRet /\ x <> None /\ m = None /\ match k with KIdle => r = false | KNotify => q = true | KDone => True | _ => False end
  end.
Ltac fkill := simpl in *; repeat match goal with
  | H : _ /\ _ |- _ => destruct H
  | H : Some (_, _) = Some (_, _) |- _ => injection H as <- <-
  | H : Some _ = Some _ |- _ => injection H as H
  | H : context [match ?a with _ => _ end] |- _ => is_var a; destruct a
  end; subst; simpl in *; try done; try congruence.
Ltac ffin := repeat split; auto; try done; try congruence.

Lemma fok_step s l s' e : fok s -> fstep s l = Some (s', e) -> fok s' /\ FUb ∉ e.
Proof.
  intros O H.
  assert (forall v, v <> FUb -> FUb ∉ [v]) as N1 by (intros v Hv E%elem_of_list_singleton; congruence).
  assert (FUb ∉ ([] : list fevent)) as N0 by (by intros ?%elem_of_nil).
  destruct s as [x r m t res n w k p q].
  enough (fok s' /\ match e with [] => True | [v] => v <> FUb | _ => False end) as [G1 G2].
  { split; [done|]. destruct e as [|v [|]]; [done|by apply N1|done]. }
  clear N0 N1. destruct l as [o| | | |].
  - fkill; fkill; fkill; ffin.
  - destruct w; fkill; fkill; fkill; ffin.
  - destruct w, k; fkill; fkill; fkill; ffin.
  - fkill; fkill; fkill; ffin.
  - fkill; fkill; fkill; ffin.
Qed.

(** ** executions *)
Lemma frun_app ls1 ls2 s s2 tr : frun s (ls1 ++ ls2) = Some (s2, tr) <->
  exists s1 t1 t2, frun s ls1 = Some (s1, t1) /\ frun s1 ls2 = Some (s2, t2) /\ tr = t1 ++ t2.
Proof.
  revert s tr. induction ls1 as [|l ls1 IH]; intros s tr; simpl.
  - split; [intros H; by exists s, [], tr|]. by intros (s1 & t1 & t2 & [= <- <-] & H & ->).
  - destruct (fstep s l) as [[s1 e1]|]; [|split; [done|by intros (? & ? & ? & ? & _)]].
    split.
    + destruct (frun s1 (ls1 ++ ls2)) as [[s3 e3]|] eqn:R; [|done]. intros [= <- <-].
      apply IH in R as (s4 & t4 & t5 & R1 & R2 & ->). rewrite R1. exists s4, (e1 ++ t4), t5.
      rewrite <- app_assoc. done.
    + intros (s4 & t4 & t5 & R1 & R2 & ->). destruct (frun s1 ls1) as [[s5 t6]|] eqn:R; [|done].
      injection R1 as <- <-. assert (frun s1 (ls1 ++ ls2) = Some (s2, t6 ++ t5)) as -> by (apply IH; by exists s5, t6, t5).
      by rewrite app_assoc.
Qed.
Lemma fstep_len s l s' e : fstep s l = Some (s', e) -> length e <= 1.
Proof.
  intros H. unfold fstep in H. repeat (case_match; try done; simplify_eq); simpl; lia.
Qed.
Lemma frun_prefix ls : forall s s2 t1 v t2, frun s ls = Some (s2, t1 ++ v :: t2) ->
  exists ls1 l ls2 s1 s1', ls = ls1 ++ l :: ls2 /\ frun s ls1 = Some (s1, t1) /\ fstep s1 l = Some (s1', [v]).
Proof.
  induction ls as [|l ls IH]; intros s s2 t1 v t2 R; simpl in R.
  - injection R as _ R. by destruct t1.
  - destruct (fstep s l) as [[s1 e1]|] eqn:S; [|done]. destruct (frun s1 ls) as [[s3 e3]|] eqn:R1; [|done].
    injection R as -> R. pose proof (fstep_len _ _ _ _ S) as L. destruct e1 as [|v1 [|]]; simpl in *; [| |lia].
    + subst e3. apply IH in R1 as (ls1 & l' & ls2 & s4 & s5 & -> & R2 & S2). exists (l :: ls1), l', ls2, s4, s5.
      simpl. by rewrite S, R2.
    + destruct t1 as [|v2 t1]; injection R as -> R.
      * exists [], l, ls, s, s1. done.
      * subst e3. apply IH in R1 as (ls1 & l' & ls2 & s4 & s5 & -> & R2 & S2). exists (l :: ls1), l', ls2, s4, s5.
        simpl. by rewrite S, R2.
Qed.
Lemma fok_run o0 ls s tr : frun (finit o0) ls = Some (s, tr) -> fok s /\ FUb ∉ tr.
Proof.
  revert s tr. induction ls as [|l ls IH] using rev_ind; intros s tr R.
  - injection R as <- <-. split; [by simpl|]. by intros ?%elem_of_nil.
  - apply frun_app in R as (s1 & t1 & t2 & R1 & R2 & ->). simpl in R2.
    destruct (fstep s1 l) as [[s2 e2]|] eqn:S; [|done]. injection R2 as -> <-. apply IH in R1 as [O N].
    apply fok_step in S as [O' N']; [|done]. split; [done|]. rewrite app_nil_r. rewrite elem_of_app. tauto.
Qed.
Definition sret (s : fstate) : list (option outcome) := match fw s with FRet => [if timed_out s then None else fx s] | _ => [] end.
Definition shold (s : fstate) : list held :=
  match fk s, fx s with KDone, Some o => [if timed_out s then Orig o else NotAnError] | _, _ => [] end.
Definition late (s : fstate) : bool :=
  timed_out s || match fw s with FWoken b | FCheck b => b | FLeave None => true | _ => false end.
Lemma fseen_step s l s' e : fok s -> fstep s l = Some (s', e) ->
  option_list (fx s') = option_list (fx s) ++ fresolutions e /\ sret s' = sret s ++ freturns e /\ shold s' = shold s ++ holds e /\
  (late s' = true -> late s = true \/ FTimeout ∈ e).
Proof.
  intros O H. destruct s as [x r m t res n w k p q]. unfold sret, shold, late.
  destruct l as [o| | | |].
  - fkill; fkill; fkill; repeat split; rewrite ?orb_true_r, ?orb_false_r, ?app_nil_r; auto; try done.
  - destruct w; fkill; fkill; fkill; repeat split; rewrite ?orb_true_r, ?orb_false_r, ?app_nil_r; auto; try done.
  - destruct w, k; fkill; fkill; fkill; repeat split; rewrite ?orb_true_r, ?orb_false_r, ?app_nil_r; auto; try done; by destruct x.
  - fkill; fkill; fkill; repeat split; rewrite ?orb_true_r, ?orb_false_r, ?app_nil_r; auto; try done.
  - fkill; fkill; fkill; repeat split; rewrite ?orb_true_r, ?orb_false_r, ?app_nil_r; auto; try done; right; by left.
Qed.
Lemma fseen_run o0 ls s tr : frun (finit o0) ls = Some (s, tr) ->
  option_list (fx s) = option_list o0 ++ fresolutions tr /\ sret s = freturns tr /\ shold s = holds tr /\
  (late s = true -> FTimeout ∈ tr).
Proof.
  revert s tr. induction ls as [|l ls IH] using rev_ind; intros s tr R.
  - injection R as <- <-. simpl. by rewrite app_nil_r.
  - apply frun_app in R as (s1 & t1 & t2 & R1 & R2 & ->). simpl in R2.
    destruct (fstep s1 l) as [[s2 e2]|] eqn:S; [|done]. injection R2 as -> <-. pose proof (proj1 (fok_run _ _ _ _ R1)) as O.
    apply fseen_step in S as (A & B & C & D); [|done]. apply IH in R1 as (A1 & B1 & C1 & D1).
    unfold fresolutions, freturns, holds in *. rewrite !omap_app, !app_nil_r, app_assoc, <- A1, <- B1, <- C1, <- A, <- B, <- C.
    repeat split; try done. rewrite elem_of_app. tauto.
Qed.
Lemma f_ready o0 ls s tr t1 o t2 : frun (finit o0) ls = Some (s, tr) -> tr = t1 ++ RetReady o :: t2 ->
  option_list o0 ++ fresolutions t1 = [o].
Proof.
  intros R ->. apply frun_prefix in R as (ls1 & l & ls2 & s1 & s1' & -> & R & S).
  pose proof (fok_run _ _ _ _ R) as [O _]. destruct (fseen_run _ _ _ _ R) as [<- _].
  destruct s1 as [x r m t res n w k p q]. destruct l, w, k; fkill; fkill; fkill.
Qed.
Lemma f_pending o0 ls s tr : frun (finit o0) ls = Some (s, tr) -> RetHold ∈ tr ->
  forall h, HoldResolved h ∈ tr -> exists o, h = Orig o /\ option_list o0 ++ fresolutions tr = [o].
Proof.
  intros R T h Hh. destruct (fseen_run _ _ _ _ R) as (<- & B & C & _).
  assert (None ∈ freturns tr) as T1 by (apply elem_of_list_omap; by exists RetHold).
  assert (h ∈ holds tr) as T2 by (apply elem_of_list_omap; by exists (HoldResolved h)).
  rewrite <- B in T1. rewrite <- C in T2. unfold sret in T1. unfold shold in T2.
  pose proof (proj1 (fok_run _ _ _ _ R)) as O. destruct s as [x r m t res n w k p q]. simpl in *.
  destruct w; try by apply elem_of_nil in T1. apply elem_of_list_singleton in T1. destruct k; try by apply elem_of_nil in T2.
  destruct x as [o|]; [|by apply elem_of_nil in T2]. apply elem_of_list_singleton in T2. destruct t; [|done]. by exists o.
Qed.
Lemma f_timeout o0 ls s tr t1 t2 : frun (finit o0) ls = Some (s, tr) -> tr = t1 ++ RetHold :: t2 -> FTimeout ∈ t1.
Proof.
  intros R ->. apply frun_prefix in R as (ls1 & l & ls2 & s1 & s1' & -> & R & S).
  destruct (fseen_run _ _ _ _ R) as (_ & _ & _ & D). apply D. unfold late.
  destruct s1 as [x r m t res n w k p q]. simpl in *. repeat (case_match; try done; simplify_eq); by rewrite orb_true_r.
Qed.
Lemma f_once o0 ls s tr : frun (finit o0) ls = Some (s, tr) ->
  length (freturns tr) <= 1 /\ length (holds tr) <= 1 /\ length (fresolutions tr) <= 1.
Proof.
  intros R. destruct (fseen_run _ _ _ _ R) as (A & B & C & _). rewrite <- B, <- C. unfold sret, shold. repeat split.
  - destruct (fw s); simpl; lia.
  - destruct (fk s), (fx s); simpl; lia.
  - apply (f_equal length) in A. rewrite app_length in A. destruct (fx s); simpl in A; lia.
Qed.
Lemma f_no_ub o0 ls s tr : frun (finit o0) ls = Some (s, tr) -> FUb ∉ tr.
Proof. intros R. apply (fok_run _ _ _ _ R). Qed.

Definition fmu (s : fstate) : nat :=
  (match fx s with None => 1 | _ => 0 end) +
  (match fk s with KDone => 0 | KNotify => 4 | KSet => 5 | KLock => 6 | KUpgrade | KIdle => 7 end) +
  (match fw s with FRet => 0 | FLeave _ => 1 | FCheck true => 2 | FWoken true => 3 | FSleep => if fnotified s then 7 else 4
   | FCheck false => 5 | FWoken false | FLock => 6 | FInline => 7 | FAttach => 8 | FStart => 9 end).
Lemma fmu_step s l s' e : fok s -> fstep s l = Some (s', e) -> fmu s' + 1 <= fmu s + (match l with FSpurious => 3 | _ => 0 end).
Proof.
  intros O H. destruct s as [x r m t res n w k p q]. destruct l as [o| | | |], w, k; unfold fmu; fkill; fkill; fkill; try lia;
    repeat match goal with b : bool |- _ => destruct b | o : option _ |- _ => destruct o end; try done; lia.
Qed.
Lemma f_finite o0 ls s tr : frun (finit o0) ls = Some (s, tr) -> length ls <= 17 + 3 * fspurious ls.
Proof.
  intros R. enough (length ls + fmu s <= fmu (finit o0) + 3 * fspurious ls).
  { unfold fmu in H at 2. simpl in H. destruct o0; lia. }
  revert s tr R. induction ls as [|l ls IH] using rev_ind; intros s tr R.
  - injection R as <- <-. simpl. lia.
  - apply frun_app in R as (s1 & t1 & t2 & R1 & R2 & ->). simpl in R2.
    destruct (fstep s1 l) as [[s2 e2]|] eqn:S; [|done]. injection R2 as -> <-. apply fmu_step in S; [|by eapply fok_run].
    apply IH in R1. unfold fspurious in *. rewrite omap_app, !app_length. destruct l; simpl; lia.
Qed.
Lemma f_can s : fok s -> (exists s' e, fstep s FStep = Some (s', e)) \/ (exists s' e, fstep s FCont = Some (s', e)) \/
  (fx s = None /\ fw s = FSleep) \/ (fw s = FRet /\ ((fk s = KDone /\ fx s <> None) \/ (fk s = KIdle /\ (timed_out s = true -> fx s = None)))).
Proof.
  intros O. destruct s as [x r m t res n w k p q]. destruct w, k; fkill; fkill; fkill; eauto 10;
    try (repeat match goal with b : bool |- _ => destruct b | o : option _ |- _ => destruct o end; try done; eauto 10; fail).
  - rewrite H4 by done. eauto 10.
  - right. right. right. split; [done|]. right. split; done.
Qed.
(** once neither the caller nor the continuation can go on: nothing is lost *)
Lemma f_rest o0 ls s tr : frun (finit o0) ls = Some (s, tr) ->
  (forall s' e, fstep s FStep <> Some (s', e)) -> (forall s' e, fstep s FCont <> Some (s', e)) ->
  (option_list o0 ++ fresolutions tr = [] /\ (freturns tr = [] \/ freturns tr = [None] /\ holds tr = [])) \/
  exists o, option_list o0 ++ fresolutions tr = [o] /\ (freturns tr = [Some o] \/ freturns tr = [None] /\ holds tr = [Orig o]).
Proof.
  intros R N1 N2. destruct (fseen_run _ _ _ _ R) as (<- & <- & <- & _). pose proof (proj1 (fok_run _ _ _ _ R)) as O.
  destruct (f_can s O) as [(s' & e & H)|[(s' & e & H)|[[H1 H2]|[H1 H2]]]].
  - by destruct (N1 s' e).
  - by destruct (N2 s' e).
  - left. unfold sret. rewrite H1, H2. auto.
  - destruct s as [x r m t res n w k p q]. unfold sret, shold. simpl in *. destruct H2 as [[-> Hx]|[-> Hx]].
    + right. destruct x as [o|]; [|done]. exists o. subst w. simpl. destruct t; auto.
    + subst w. destruct t.
      * left. rewrite Hx by done. auto.
      * destruct O as (_ & _ & Hx' & _). right. destruct x as [o|]; [|done]. exists o. auto.
Qed.
(** until the return, the caller can go on, or the continuation, or the time is running *)
Lemma f_progress o0 ls s tr : frun (finit o0) ls = Some (s, tr) -> freturns tr = [] ->
  (exists s' e, fstep s FStep = Some (s', e)) \/ (exists s' e, fstep s FCont = Some (s', e)) \/
  (option_list o0 ++ fresolutions tr = [] /\ exists s' , fstep s FExpire = Some (s', [FTimeout])).
Proof.
  intros R N. destruct (fseen_run _ _ _ _ R) as (<- & B & _ & _). rewrite N in B. pose proof (proj1 (fok_run _ _ _ _ R)) as O.
  destruct (f_can s O) as [H|[H|[[H1 H2]|[H1 H2]]]]; [auto|auto| |].
  - right. right. rewrite H1. split; [done|]. destruct s. simpl in *. subst. eauto.
  - unfold sret in B. by rewrite H1 in B.
Qed.
