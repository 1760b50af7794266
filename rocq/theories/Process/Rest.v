(** Left alone, the process comes to rest. *)
From Coq Require Import List Bool Arith Lia.
From stdpp Require Import list.
From Verif.Process Require Import Model Spec Count Move Inv Trace Final.

Definition ql (s : st) : nat := length (queue s) + b2n (closeq s).
Definition wt1 (b : bool) (d : bool) (nd : nat) (p : pc) : nat :=
  match p with
  | JEnd _ | JDelay | JTimer => 1
  | JFinal => 2
  | JDecide => if d then (if b then 22 else 16) else 3
  | JDone => if b then 21 else 15
  | JTop => if b then 4 else 17
  | JRun => 18
  | JSelf2 _ => 20 | JSelf _ => 21 | JSend _ _ i n => 22 + (n - i) | JSusp _ _ n => 23 + n
  | JBcast _ _ => 24 + nd
  | JCts => 20 | JCts2 => 19
  | JCall _ _ => 0
  end.
Definition forever (p : pstate) : bool := match p with (Await, Forever) => true | _ => false end.
Definition weight (s : st) : nat :=
  40 * ql s + cnt (wt1 (negb (ql s =? 0)) (forever (pst s)) (ndown s)) (jobs s) + 80 * length (pends s).
Lemma wt1_any b b' d nd js : cnt (wt1 b d nd) js <= cnt (wt1 b' d nd) js + 13 * cnt lk js.
Proof. induction js as [|q js IH]; cbn [cnt]; [lia|]. destruct b, b', d, q; cbn in *; lia. Qed.
Lemma wt1_down b d nd js : cnt (wt1 b d 0) js <= cnt (wt1 b d nd) js.
Proof. apply cnt_mono. intros []; cbn; lia. Qed.
Lemma del_len {A} (l : list A) k x : l !! k = Some x -> S (length (delete k l)) = length l.
Proof. intros H. pose proof (lookup_lt_Some _ _ _ H). rewrite length_delete; [lia|by exists x]. Qed.
Local Arguments Nat.mul : simpl never.
Local Arguments Nat.eqb : simpl never.
Lemma eqb_false n : n <> 0 -> (n =? 0) = false.
Proof. intros. by apply Nat.eqb_neq. Qed.
Lemma weight_step c s l s' e : held s -> own l = true -> step c s l = Some (s', e) -> s' = s \/ weight s' < weight s.
Proof.
  intros [Hl _] O H%step_move. pose proof (b2n_le (tlock s)).
  assert (Hw : cnt lk (jobs s) <= 1) by lia.
  pose proof (wt1_any true false (forever (pst s)) (ndown s) (jobs s)) as W1. pose proof (wt1_any false true (forever (pst s)) (ndown s) (jobs s)) as W2.
  destruct H; try done; try (by left); right; unfold weight, ql; cbn;
    repeat match goal with H : pends s !! _ = Some _ |- _ => pose proof (del_len _ _ _ H); revert H end; intros;
    counts; cbn in *;
    repeat match goal with H : queue s = _ |- _ => rewrite H in *; cbn in * end;
    repeat match goal with H : closeq s = _ |- _ => rewrite H in *; cbn in * end;
    repeat match goal with H : pst s = _ |- _ => rewrite H in *; cbn in * end;
    rewrite ?Nat.add_1_r; try (rewrite (eqb_false (S _)) by done); cbn in *;
    try match goal with |- context [?n =? 0] => destruct (n =? 0) eqn:En; [apply Nat.eqb_eq in En|apply Nat.eqb_neq in En]; cbn in * end;
    try lia.
  all: try (destruct (pst s) as [[] []]; cbn in *; done || lia).
  all: try (destruct (final s); cbn; lia).
  all: try (pose proof (wt1_down false (forever (pst s)) (ndown s) (jobs s)); pose proof (wt1_down true (forever (pst s)) (ndown s) (jobs s)); cbn in *; lia).
  all: try (destruct (queue s), (closeq s); cbn in *; naive_solver lia).
  all: repeat match goal with H : context [0 =? 0] |- _ => rewrite Nat.eqb_refl in H; cbn in H end.
  all: try (destruct (forever (pst s)); cbn; lia).
  all: try (destruct (final s); cbn; lia).
Qed.
Lemma works_weight c s n s' : held s -> works c s n s' -> held s' /\ n + weight s' <= weight s.
Proof.
  induction 2 as [s|s l s1 e n s2 O St N Wk IH]; [done|].
  destruct (weight_step _ _ _ _ _ H O St) as [|Wt]; [done|].
  destruct IH as (A & C); [by eapply held_step|]. split; [done|lia].
Qed.

(** something can always be done, except while the user or the environment is to act *)
Lemma differ_set s k p q s' : jobs s !! k = Some p -> p <> q -> jobs s' = <[k := q]> (jobs s) -> s' <> s.
Proof.
  intros Hk N J ->. apply (f_equal (fun l => l !! k)) in J. rewrite list_lookup_insert in J by (by eapply lookup_lt_Some). congruence.
Qed.
Lemma differ_len s s' : length (jobs s') <> length (jobs s) -> s' <> s.
Proof. by intros ? ->. Qed.
Definition idle (c : conf) (s : st) : Prop := forall l s' e, own l = true -> step c s l = Some (s', e) -> s' = s /\ ~ In Ub e.
Lemma can_move c s k p : jobs s !! k = Some p -> cl p = 0 -> tlock s = false \/ lk p = 1 ->
  exists s' e, step c s (LJob k true) = Some (s', e) /\ (s' <> s \/ In Ub e).
Proof.
  intros Hk Cp R. pose proof (lookup_lt_Some _ _ _ Hk) as Lk.
  assert (Set1 : forall q s', jobs s' = <[k := q]> (jobs s) -> p <> q -> s' <> s) by (intros; by eapply differ_set).
  assert (Del : forall s', jobs s' = delete k (jobs s) -> s' <> s).
  { intros s' J. apply differ_len. rewrite J. pose proof (del_len _ _ _ Hk). lia. }
  assert (Add : forall q r s', jobs s' = <[k := q]> (jobs s) ++ [r] -> s' <> s).
  { intros q r s' J. apply differ_len. rewrite J, app_length, insert_length. cbn. lia. }
  cbn [step]. rewrite Hk. unfold job_step.
  Local Ltac pick t := eexists _, _; split; [done|]; left; t.
  Local Ltac ub := eexists _, _; split; [done|]; right; by left.
  destruct p; try done.
  - destruct R as [R|R]; [|done]. rewrite R. cbn. pick ltac:(by eapply Set1).
  - destruct (proc s); [|ub]. destruct (is_yield (pst s)); [pick ltac:(by eapply Set1)|].
    destruct (has_await c); [|pick ltac:(by eapply Set1)].
    unfold dequeue. destruct (queue s) as [|[v|e] q] eqn:Q.
    + destruct (has_close c); pick ltac:(by eapply Set1).
    + pick ltac:(by eapply Set1).
    + destruct (has_set_error c); [pick ltac:(by eapply Set1)|].
      destruct (has_close c); [pick ltac:(by eapply Set1)|].
      pick idtac. intros E. apply (f_equal queue) in E. cbn in E. rewrite Q in E. apply (f_equal length) in E. cbn in E. lia.
  - destruct (pst s) as [[] []]; pick ltac:((by eapply Set1) || (by eapply Add)).
  - pick ltac:(by eapply Set1).
  - pick ltac:(by eapply Set1).
  - destruct (i <? n) eqn:E; [|pick ltac:(by eapply Set1)]. destruct (i <? ndown s) eqn:E2; [|ub].
    pick idtac. eapply (Set1 (JSend w o (S i) n)); [done|]. intros [=]. lia.
  - destruct (final s); pick ltac:(by eapply Set1).
  - unfold clear2. cbn zeta. destruct (proc s); [|pick ltac:(by eapply Set1)].
    destruct (pred (susp s)); [|pick ltac:(by eapply Set1)].
    case_match; pick ltac:((by eapply Add) || (by eapply Set1)).
  - destruct w; pick ltac:(by eapply Del).
  - unfold run_if. case_match; [|pick ltac:(by destruct (final s); eapply Set1)].
    destruct (final s); pick ltac:(by eapply Add).
  - pick ltac:(by eapply Set1).
  - destruct (proc s); pick ltac:((by eapply Set1) || (by eapply Del)).
  - destruct R as [R|R]; [|done]. rewrite R. cbn. destruct (proc s); [|ub]. destruct (is_yield (pst s)); pick ltac:((by eapply Set1) || (by eapply Del)).
  - destruct (final s); pick ltac:((by eapply Set1) || (by eapply Del)).
  - unfold clear2. cbn zeta. destruct (proc s); [|ub].
    destruct (pred (susp s)) eqn:E; [|pick ltac:(by eapply Del)].
    case_match; [|pick ltac:(by eapply Del)].
    pick idtac. intros X. apply (f_equal jobs) in X. cbn in X.
    assert (Y : cnt (fun p => match p with JCts2 => 1 | _ => 0 end) (delete k (jobs s) ++ [JRun]) = cnt (fun p => match p with JCts2 => 1 | _ => 0 end) (jobs s)) by by rewrite X.
    rewrite cnt_app, (cnt_del _ _ _ _ Hk) in Y. cbn in Y. pose proof (cnt_le (fun p => match p with JCts2 => 1 | _ => 0 end) _ _ _ Hk) as Z. cbn in Z. lia.
Qed.
Lemma idle_rest c s : held s -> idle c s -> pends s = [] /\ (jobs s = [] \/ in_call s).
Proof.
  intros H D. split.
  - destruct (pends s) as [|x l] eqn:P; [done|]. exfalso.
    assert (E : exists s1 e, step c s (LPend 0) = Some (s1, e) /\ length (pends s1) < length (pends s)).
    { cbn [step]. rewrite P. cbn. eexists _, _. split; [done|]. destruct x; cbn; unfold run_if; case_match; cbn; lia. }
    destruct E as (s1 & e & E & L). apply D in E as [E _]; [|done]. subst. lia.
  - destruct (jobs s) as [|x l] eqn:J; [by left|]. right.
    destruct (decide (cnt cl (jobs s) = 0)) as [Z|N].
    + exfalso. destruct (tlock s) eqn:T.
      * destruct H as [H _]. rewrite T in H. destruct (cnt_pos lk (jobs s)) as (k & p & Hk & Hp); [cbn in H; lia|].
        pose proof (cnt_le lk _ _ _ Hk). cbn in H.
        destruct (can_move c s k p) as (s' & e & St & Ne); [done|by eapply cnt_zero|right; lia|].
        apply D in St; [|done]. naive_solver.
      * destruct (can_move c s 0 x) as (s' & e & St & Ne); [by rewrite J|eapply (cnt_zero _ _ 0); [done|by rewrite J]|by left|].
        apply D in St; [|done]. naive_solver.
    + destruct (cnt_pos cl (jobs s)) as (k & p & Hk & Hp); [lia|]. destruct p; cbn in Hp; try lia. exists w, c0.
      apply elem_of_list_In, elem_of_list_lookup. by exists k.
Qed.
Lemma held_run c p ls s tr : run c (init p) ls = Some (s, tr) -> held s.
Proof.
  intros R. assert (L : Forall (fun _ : label => True) ls) by by apply Forall_forall.
  revert ls s tr L R. apply (run_ind c p _ (fun s _ => held s)); [done|]. intros s tr l s' e I _ H. by eapply held_step.
Qed.
Lemma terminates c p ls s tr : run c (init p) ls = Some (s, tr) -> exists N, forall n s', works c s n s' -> n <= N.
Proof. intros R%held_run. exists (weight s). intros n s' Wk. destruct (works_weight _ _ _ _ R Wk) as [_ L]. lia. Qed.
Lemma unblocked c p ls s tr : run c (init p) ls = Some (s, tr) -> idle c s -> pends s = [] /\ (jobs s = [] \/ in_call s).
Proof. intros R%held_run D. by apply (idle_rest c). Qed.
Lemma idle_defined c p ls s tr : sane c -> avoids timed p ls -> run c (init p) ls = Some (s, tr) ->
  (forall l s' e, own l = true -> step c s l = Some (s', e) -> s' = s) -> idle c s.
Proof.
  intros W Av R D l s' e O St. split; [by eapply D|]. pose proof (all_run _ _ _ _ _ W Av R) as A.
  intros U. pose proof (over_step _ _ _ _ _ _ (a_inv _ _ _ _ A) (a_over _ _ _ _ A) St) as [_ X]. apply X, in_or_app. by right.
Qed.

(** a process that is marked as running but is not: nothing happens any more *)
Definition stuck (s : st) : Prop := jobs s = [] /\ owed s = 0 /\ running s = true /\ active s = false.
Lemma stuck_step c s l s' e : stuck s -> step c s l = Some (s', e) -> stuck s' /\ (forall x, In x e -> x <> Closed /\ forall cc, x <> Begin cc).
Proof.
  intros (J & O & R & A) H%step_move. unfold stuck.
  destruct H; try (rewrite J in *; done); cbn; try congruence.
  all: try (split; [done|]; intros x X; repeat destruct X as [<-|X]; done).
  destruct H1; congruence.
Qed.
Lemma stuck_run c ls : forall s s' tr, stuck s -> run c s ls = Some (s', tr) -> ended tr = 0 /\ handed tr = [] /\ results tr = [].
Proof.
  assert (K : forall s s' tr, stuck s -> run c s ls = Some (s', tr) -> stuck s' /\ ended tr = 0 /\ handed tr = [] /\ results tr = []).
  { induction ls as [|l ls IH]; cbn; intros s s' tr S R; [by injection R as <- <-|].
    destruct (step c s l) as [[s1 e1]|] eqn:E; [|done]. destruct (run c s1 ls) as [[s2 e2]|] eqn:E2; [|done]. injection R as <- <-.
    pose proof (stuck_step _ _ _ _ _ S E) as [S1 X]. destruct (IH _ _ _ S1 E2) as (Y & A & B & C). split; [done|].
    rewrite ended_app, handed_app, results_app, A, B, C, app_nil_r, Nat.add_0_r. 
    destruct S as (J & O & Ru & Ac). apply step_move in E. clear -E J O Ru Ac.
    destruct E; try (rewrite J in *; done); try congruence; done. }
  intros s s' tr S R. by destruct (K _ _ _ S R) as (_ & ?).
Qed.
Lemma generator c p ls s tr : sane c -> has_await c = false -> avoids timed p ls -> run c (init p) ls = Some (s, tr) -> ended tr = 0 /\ handed tr = [].
Proof.
  intros W A Av R. pose proof (all_run _ _ _ _ _ W Av R) as I.
  assert (F : final s = false). { destruct (final s) eqn:F; [|done]. destruct (i_fin _ _ (a_inv _ _ _ _ I) F) as (_ & _ & _ & X). congruence. }
  destruct (a_over _ _ _ _ I) as [O _]. destruct (i_open _ _ (a_inv _ _ _ _ I) F) as [P _]. split; [by rewrite O, P|].
  assert (L : Forall (fun _ : label => True) ls) by by apply Forall_forall. clear -A L R.
  revert ls s tr L R. apply (run_ind c p _ (fun s tr => handed tr = [] )).
  - done.
  - intros s tr l s' e I _ H%step_move. rewrite handed_app, I. destruct H; try done; congruence.
Qed.
