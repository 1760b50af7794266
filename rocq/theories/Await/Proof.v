From Coq Require Import List Bool Lia.
From stdpp Require Import list.
From Verif.Await Require Import Model Spec.

(** the states that can be reached *)
Definition ok (s : st) : Prop :=
  match w s with
  | WStart | WAttach => reg s = false /\ m s = None /\ result s = None /\ c s = CIdle /\ dead s = false
  | WInline =>
    reg s = false /\ dead s = false /\ x s <> None /\
    match c s with
    | CIdle => False
    | CLock => m s = None /\ result s = None
    | CSet => m s = Some Waiter /\ result s = None
    | CNotify | CUnlock => m s = Some Waiter /\ result s = x s
    | CDone => m s = None /\ result s = x s
    end
  | WLock | WCheck | WSleep | WWoken =>
    dead s = false /\
    match c s with
    | CIdle => reg s = true /\ x s = None /\ result s = None /\ m s = match w s with WCheck => Some Waiter | _ => None end
    | CLock => x s <> None /\ result s = None /\ m s = match w s with WCheck => Some Waiter | _ => None end
    | CSet => x s <> None /\ result s = None /\ m s = Some Completer /\ w s <> WCheck
    | CNotify => x s <> None /\ result s = x s /\ m s = Some Completer /\ w s <> WCheck
    | CUnlock => x s <> None /\ result s = x s /\ m s = Some Completer /\ w s <> WCheck /\ (w s = WSleep -> notified s = true)
    | CDone => x s <> None /\ result s = x s /\ m s = (match w s with WCheck => Some Waiter | _ => None end) /\ (w s = WSleep -> notified s = true)
    end
  | WRet o => dead s = true /\ x s = Some o /\ m s = None /\ (c s = CIdle /\ reg s = false \/ c s = CDone)
  end.
Ltac kill := simpl in *; repeat match goal with
  | H : _ /\ _ |- _ => destruct H
  | H : Some (_, _) = Some (_, _) |- _ => injection H as <- <-
  | H : Some _ = Some _ |- _ => injection H as H
  | H : (_, _) = (_, _) |- _ => injection H as H
  end; subst; simpl in *; try done; try congruence.

Ltac fin := try (split; [|auto]); unfold ok; simpl; repeat split; auto; try done.

Lemma ok_step s l s' e : ok s -> step s l = Some (s', e) -> ok s' /\ Ub ∉ e.
Proof.
  intros O H. destruct s as [sx sr sm sres sn sw sc sd]. unfold ok in O. simpl in O.
  assert (forall v, v <> Ub -> Ub ∉ [v]) as N1 by (intros v Hv E%elem_of_list_singleton; congruence).
  assert (Ub ∉ ([] : list event)) as N0 by (by intros ?%elem_of_nil).
  destruct l as [o| | |]; simpl in H.
  - destruct sx; [done|]. injection H as <- <-. split; [|by apply N1]. unfold ok. simpl. destruct sw; kill.
    all: destruct sc; kill; repeat split; auto.
    all: destruct H3; kill.
  - destruct sw; kill.
    all: try solve [destruct sx; kill; fin].
    all: try solve [destruct sc; kill; fin].
    all: try solve [destruct sm; kill; destruct sc; kill; fin].
    all: try solve [destruct sres; kill; destruct sc; kill; fin].
    all: try solve [destruct sn; kill; destruct sc; kill; fin].
  - destruct sw, sc; kill; kill; try (destruct sd; kill); try (destruct sm; kill; fin); fin.
    all: destruct H3; kill.
  - destruct sw; kill. destruct sc; kill; fin.
Qed.

(** ** executions *)
Lemma run_app ls1 ls2 s s2 tr : run s (ls1 ++ ls2) = Some (s2, tr) <->
  exists s1 t1 t2, run s ls1 = Some (s1, t1) /\ run s1 ls2 = Some (s2, t2) /\ tr = t1 ++ t2.
Proof.
  revert s tr. induction ls1 as [|l ls1 IH]; intros s tr; simpl.
  - split; [intros H; by exists s, [], tr|]. by intros (s1 & t1 & t2 & [= <- <-] & H & ->).
  - destruct (step s l) as [[s1 e1]|]; [|split; [done|by intros (? & ? & ? & ? & _)]].
    split.
    + destruct (run s1 (ls1 ++ ls2)) as [[s3 e3]|] eqn:R; [|done]. intros [= <- <-].
      apply IH in R as (s4 & t4 & t5 & R1 & R2 & ->). rewrite R1. exists s4, (e1 ++ t4), t5.
      rewrite <- app_assoc. done.
    + intros (s4 & t4 & t5 & R1 & R2 & ->). destruct (run s1 ls1) as [[s5 t6]|] eqn:R; [|done].
      injection R1 as <- <-. assert (run s1 (ls1 ++ ls2) = Some (s2, t6 ++ t5)) as -> by (apply IH; by exists s5, t6, t5).
      by rewrite app_assoc.
Qed.
Lemma step_len s l s' e : step s l = Some (s', e) -> length e <= 1.
Proof.
  intros H. unfold step in H. repeat (case_match; try done; simplify_eq); simpl; lia.
Qed.
Lemma run_prefix ls : forall s s2 t1 v t2, run s ls = Some (s2, t1 ++ v :: t2) ->
  exists ls1 l ls2 s1 s1', ls = ls1 ++ l :: ls2 /\ run s ls1 = Some (s1, t1) /\ step s1 l = Some (s1', [v]).
Proof.
  induction ls as [|l ls IH]; intros s s2 t1 v t2 R; simpl in R.
  - injection R as _ R. by destruct t1.
  - destruct (step s l) as [[s1 e1]|] eqn:S; [|done]. destruct (run s1 ls) as [[s3 e3]|] eqn:R1; [|done].
    injection R as -> R. pose proof (step_len _ _ _ _ S) as L. destruct e1 as [|v1 [|]]; simpl in *; [| |lia].
    + subst e3. apply IH in R1 as (ls1 & l' & ls2 & s4 & s5 & -> & R2 & S2). exists (l :: ls1), l', ls2, s4, s5.
      simpl. by rewrite S, R2.
    + destruct t1 as [|v2 t1]; injection R as -> R.
      * exists [], l, ls, s, s1. done.
      * subst e3. apply IH in R1 as (ls1 & l' & ls2 & s4 & s5 & -> & R2 & S2). exists (l :: ls1), l', ls2, s4, s5.
        simpl. by rewrite S, R2.
Qed.
Lemma ok_run o0 ls s tr : run (init o0) ls = Some (s, tr) -> ok s /\ Ub ∉ tr.
Proof.
  revert s tr. induction ls as [|l ls IH] using rev_ind; intros s tr R.
  - injection R as <- <-. split; [done|]. by intros ?%elem_of_nil.
  - apply run_app in R as (s1 & t1 & t2 & R1 & R2 & ->). simpl in R2.
    destruct (step s1 l) as [[s2 e2]|] eqn:S; [|done]. injection R2 as -> <-. apply IH in R1 as [O N].
    apply ok_step in S as [O' N']; [|done]. split; [done|]. rewrite app_nil_r. rewrite elem_of_app. tauto.
Qed.
Lemma seen_run o0 ls s tr : run (init o0) ls = Some (s, tr) ->
  option_list (x s) = option_list o0 ++ resolutions tr /\
  (match w s with WRet o => [o] | _ => [] end) = returns tr.
Proof.
  revert s tr. induction ls as [|l ls IH] using rev_ind; intros s tr R.
  - injection R as <- <-. simpl. by rewrite app_nil_r.
  - apply run_app in R as (s1 & t1 & t2 & R1 & R2 & ->). simpl in R2.
    destruct (step s1 l) as [[s2 e2]|] eqn:S; [|done]. injection R2 as -> <-. pose proof (proj1 (ok_run _ _ _ _ R1)) as O.
    apply IH in R1 as [A B]. unfold resolutions, returns in *. rewrite !omap_app, !app_nil_r, app_assoc, <- A, <- B. clear A B.
    unfold step in S. repeat (case_match; try done; simplify_eq); simpl; rewrite ?app_nil_r; try done.
    all: try solve [simpl in *; split; congruence]. all: try (rewrite ?H, ?H0, ?H1; done).
Qed.
Lemma t_result o0 ls s tr t1 o t2 : run (init o0) ls = Some (s, tr) -> tr = t1 ++ Returned o :: t2 ->
  option_list o0 ++ resolutions t1 = [o].
Proof.
  intros R ->. apply run_prefix in R as (ls1 & l & ls2 & s1 & s1' & -> & R & S).
  pose proof (ok_run _ _ _ _ R) as [O _]. destruct (seen_run _ _ _ _ R) as [<- _].
  unfold step in S. repeat (case_match; try done; simplify_eq).
  all: unfold ok in O; rewrite H in O; destruct (c s1); kill; try (rewrite H0; done); try (rewrite <- H3; rewrite H0; done); try congruence.
Qed.
Definition mu (s : st) : nat :=
  (match x s with None => 1 | _ => 0 end) +
  (match c s with CDone => 0 | CUnlock => 1 | CNotify => 5 | CSet => 6 | CLock | CIdle => 7 end) +
  (match w s with WRet _ => 0 | WCheck => 1 | WWoken | WLock => 2 | WInline => 3 | WAttach => 4 | WStart => 5
   | WSleep => if notified s then 3 else 0 end).
Lemma mu_step s l s' e : ok s -> step s l = Some (s', e) ->
  mu s' + 1 <= mu s + (match l with LSpurious => 3 | _ => 0 end).
Proof.
  intros O H. unfold step in H. unfold ok in O.
  repeat (case_match; try done; simplify_eq); unfold mu; simpl;
    repeat match goal with E : ?a = _ |- _ => rewrite E end; simpl; try lia.
  all: try (destruct (c s), (x s); kill; lia).
  all: try (destruct (c s), (x s), (w s), (notified s); kill; lia).
  all: destruct O as (_ & _ & _ & [[? _]|?]); done.
Qed.
Lemma t_finite o0 ls s tr : run (init o0) ls = Some (s, tr) -> length ls <= 13 + 3 * spurious ls.
Proof.
  intros R. enough (length ls + mu s <= mu (init o0) + 3 * spurious ls).
  { unfold mu in H at 2. simpl in H. destruct o0; lia. }
  revert s tr R. induction ls as [|l ls IH] using rev_ind; intros s tr R.
  - injection R as <- <-. simpl. lia.
  - apply run_app in R as (s1 & t1 & t2 & R1 & R2 & ->). simpl in R2.
    destruct (step s1 l) as [[s2 e2]|] eqn:S; [|done]. injection R2 as -> <-. apply mu_step in S; [|by eapply ok_run].
    apply IH in R1. unfold spurious in *. rewrite omap_app, !app_length. destruct l; simpl; lia.
Qed.
Lemma t_progress o0 ls s tr : run (init o0) ls = Some (s, tr) -> option_list o0 ++ resolutions tr <> [] -> returns tr = [] ->
  exists l s' e, (l = LWait \/ l = LCont) /\ step s l = Some (s', e).
Proof.
  intros R X W. pose proof (proj1 (ok_run _ _ _ _ R)) as O. destruct (seen_run _ _ _ _ R) as [A B]. rewrite <- A in X. rewrite W in B.
  clear R A W. destruct s as [sx sr sm sres sn sw sc sd]. unfold ok in O. simpl in *. destruct sx as [o|]; [|done]. clear X.
  assert (forall s', (exists e, step (St (Some o) sr sm sres sn sw sc sd) LWait = Some (s', e)) \/
                     (exists e, step (St (Some o) sr sm sres sn sw sc sd) LCont = Some (s', e)) ->
     exists l s' e, (l = LWait \/ l = LCont) /\ step (St (Some o) sr sm sres sn sw sc sd) l = Some (s', e)) as G.
  { intros s' [[e H]|[e H]]; eauto 8. }
  destruct sw; kill; try (eapply G; left; eexists; simpl; reflexivity).
  all: destruct sc; kill; try (eapply G; left; eexists; simpl; reflexivity); try (eapply G; right; eexists; simpl; reflexivity).
  - rewrite (H2 eq_refl) in *. eapply G; left; eexists; simpl; reflexivity.
Qed.
Lemma t_once o0 ls s tr : run (init o0) ls = Some (s, tr) -> length (returns tr) <= 1 /\ length (resolutions tr) <= 1.
Proof.
  intros R. destruct (seen_run _ _ _ _ R) as [A B]. rewrite <- B. split; [destruct (w s); simpl; lia|].
  apply (f_equal length) in A. rewrite app_length in A. destruct (x s); simpl in A; lia.
Qed.
Lemma t_no_ub o0 ls s tr : run (init o0) ls = Some (s, tr) -> Ub ∉ tr.
Proof. intros R. apply (ok_run _ _ _ _ R). Qed.
(** the caller's variables: nothing uses them when it has returned *)
Lemma t_stack o0 ls s tr : run (init o0) ls = Some (s, tr) -> returns tr <> [] -> forall s' e, step s LCont <> Some (s', e).
Proof.
  intros R X s' e. destruct (seen_run _ _ _ _ R) as [_ B]. rewrite <- B in X. pose proof (proj1 (ok_run _ _ _ _ R)) as O. unfold ok in O.
  destruct (w s); try done. destruct O as (_ & _ & _ & [[C _]|C]); unfold step; by rewrite C.
Qed.
