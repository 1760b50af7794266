(** No message is left behind, in any run of a process with await(). *)
From Coq Require Import List Bool Arith Lia ZifyBool.
From stdpp Require Import list.
From Verif.Process Require Import Model Spec Count Move Inv Trace Final.

(** will look at the queue *)
Definition lo (p : pc) : nat := match p with JTimer | JEnd _ | JFinal => 0 | _ => 1 end.
Definition te (p : pc) : nat := match p with JEnd Timeout => 1 | _ => 0 end.
Definition tj (p : pc) : nat := match p with JTimer => 1 | _ => 0 end.
Definition one (p : pc) : nat := 1.
Definition gone (s : st) : Prop := length (queue s) = 0 /\ scount s = 0.
Definition looker (s : st) : Prop := cnt lo (jobs s) + owed s > 0.
Record wake (s : st) : Prop := Wake {
  w_held : held s;
  w_early : rcount s > 0 -> running s = false /\ cnt one (jobs s) = 0 /\ owed s = 0;
  w_ready : precvs (pends s) > 0 -> rcount s = 0;
  w_close : closeq s = true \/ final s = true \/ psends (pends s) > 0 -> scount s = 0;
  w_gone : final s = true \/ proc s = false \/ cnt jf (jobs s) > 0 -> gone s;
  w_susp : gone s \/ susp s <= cnt sh (jobs s) + owed s;
  w_run : running s = true -> looker s \/ gone s \/ (active s = true /\ cnt te (jobs s) = 0);
  w_queue : rcount s = 0 -> length (queue s) > 0 ->
    looker s \/ (cnt tj (jobs s) > 0 /\ is_yield (pst s) = false) \/ (precvs (pends s) > 0 /\ running s = false)
}.
Lemma sh_lo js : cnt sh js > 0 -> cnt lo js > 0.
Proof. intros (k & p & Hk & Hp)%cnt_pos. pose proof (cnt_le lo _ _ _ Hk). destruct p; cbn in *; lia. Qed.
Lemma te_lk js : cnt te js <= cnt lk js.
Proof. apply cnt_mono. intros [| |[]| |[]|[]|[]|[]|[]|[]| | | | | |]; cbn; lia. Qed.
Definition lt (p : pc) : nat := lk p - te p.
Lemma te_lt js : cnt te js + cnt lt js <= cnt lk js.
Proof. apply cnt_sum. intros [| |[]| |[]|[]|[]|[]|[]|[]| | | | | |]; cbn; lia. Qed.
Lemma is_await p : p.1 = Await <-> is_yield p = false.
Proof. unfold is_yield. by destruct p as [[] ?]. Qed.
Lemma isnt_await p : p.1 = Yield <-> is_yield p = true.
Proof. unfold is_yield. by destruct p as [[] ?]. Qed.
Ltac lens :=
  repeat match goal with
         | H : _ \/ (queue _ = _ /\ _) |- _ => destruct H as [H|(H & ?)]
         | H : pst _ = (Await, _) |- _ => apply (f_equal is_yield) in H; cbn in H
         | H : queue ?s = _ |- _ => apply (f_equal length) in H; cbn in H
         | H : queue ?s <> [] |- _ => assert (length (queue s) > 0) by (destruct (queue s); [done|cbn; lia]); clear H
         | H : (pst _).1 = Await |- _ => apply is_await in H
         | H : (pst _).1 = Yield |- _ => apply isnt_await in H
         end.
Ltac jobf s fs := match goal with H : jobs s !! _ = Some _ |- _ => fs H | _ => idtac end.
Ltac fin := cbn; counts; rewrite ?psends_app, ?precvs_app, ?app_length; cbn in *; lens; try lia.
Section wake.
Context (c : conf) (s : st) (l : label) (s' : st) (e : list event).
Context (Ha : has_await c = true) (W : wake s) (M : move c s l s' e).
Lemma wk_early : rcount s' > 0 -> running s' = false /\ cnt one (jobs s') = 0 /\ owed s' = 0.
Proof.
  pose proof (w_early _ W) as We. pose proof (w_ready _ W) as Wy.
  destruct M; jobf s ltac:(fun H => pose proof (cnt_le one _ _ _ H)); try match goal with H : pends s !! _ = Some _ |- _ => pose proof (precvs_del _ _ _ H) end;
    cbn; counts; unfold one in *; fin.
Qed.
Lemma wk_ready : precvs (pends s') > 0 -> rcount s' = 0.
Proof.
  pose proof (w_ready _ W) as Wy.
  destruct M; try match goal with H : pends s !! _ = Some _ |- _ => pose proof (precvs_del _ _ _ H) end; fin.
Qed.
Lemma wk_close : closeq s' = true \/ final s' = true \/ psends (pends s') > 0 -> scount s' = 0.
Proof.
  pose proof (w_close _ W) as We. destruct M; try match goal with H : pends s !! _ = Some _ |- _ => pose proof (psends_del _ _ _ H) end; fin.
Qed.
Lemma wk_gone : final s' = true \/ proc s' = false \/ cnt jf (jobs s') > 0 -> gone s'.
Proof.
  pose proof (w_gone _ W) as Wg. pose proof (w_close _ W) as Wc. unfold gone in *.
  destruct M; jobf s ltac:(fun H => pose proof (cnt_le jf _ _ _ H)); fin.
  all: destruct (final s); cbn in *; lia.
Qed.
Lemma wk_susp : gone s' \/ susp s' <= cnt sh (jobs s') + owed s'.
Proof.
  pose proof (w_gone _ W) as Wg. pose proof (w_susp _ W) as Ws. unfold gone in *.
  destruct M; jobf s ltac:(fun H => pose proof (cnt_le sh _ _ _ H); pose proof (cnt_le jf _ _ _ H)); fin.
  all: destruct (final s); cbn in *; lia.
Qed.
Lemma wk_run : running s' = true -> looker s' \/ gone s' \/ (active s' = true /\ cnt te (jobs s') = 0).
Proof.
  pose proof (w_gone _ W) as Wg. pose proof (w_susp _ W) as Ws. pose proof (w_run _ W) as Wr. generalize (sh_lo (jobs s')).
  pose proof (te_lt (jobs s)) as TL. pose proof (w_held _ W) as [Wh _]. assert (B : b2n (tlock s) <= 1) by apply b2n_le. unfold gone, looker in *. clear W.
  destruct M; clear M; jobf s ltac:(fun H => pose proof (cnt_le sh _ _ _ H); pose proof (cnt_le lo _ _ _ H); pose proof (cnt_le te _ _ _ H);
    pose proof (cnt_le jf _ _ _ H); pose proof (cnt_le lt _ _ _ H)); try destruct w; cbn; counts; cbn in *; lens; intros SL;
    first [clear SL Ws Wg Wh TL B; lia | clear SL; lia | lia | idtac].
  all: destruct (final s); cbn in *; lia.
Qed.
Lemma wk_queue : rcount s' = 0 -> length (queue s') > 0 ->
  looker s' \/ (cnt tj (jobs s') > 0 /\ is_yield (pst s') = false) \/ (precvs (pends s') > 0 /\ running s' = false).
Proof.
  pose proof (w_gone _ W) as Wg. pose proof (w_susp _ W) as Ws. pose proof (w_run _ W) as Wr. generalize (sh_lo (jobs s')). pose proof (w_queue _ W) as Wq.
  pose proof (w_early _ W) as We. pose proof (w_ready _ W) as Wy. unfold gone, looker in *. clear W.
  destruct M; clear M; jobf s ltac:(fun H => pose proof (cnt_le sh _ _ _ H); pose proof (cnt_le lo _ _ _ H); pose proof (cnt_le tj _ _ _ H);
    pose proof (cnt_le jf _ _ _ H)); try match goal with H : pends s !! _ = Some _ |- _ => pose proof (precvs_del _ _ _ H) end; try destruct w;
    cbn; counts; rewrite ?precvs_app, ?app_length; cbn in *; lens; intros SL;
    first [clear SL Ws Wg We Wy Wr; lia | clear SL Ws We Wy Wr; lia | clear SL Ws Wg; lia | lia | idtac].
Qed.
End wake.
Lemma wake_step c s l s' e : has_await c = true -> wake s -> step c s l = Some (s', e) -> wake s'.
Proof.
  intros A W H. pose proof (step_move _ _ _ _ _ H) as M.
  constructor; [eapply held_step|eapply wk_early|eapply wk_ready|eapply wk_close|eapply wk_gone|eapply wk_susp|eapply wk_run|eapply wk_queue]; try done; by apply W.
Qed.
Lemma wake_run c p ls s tr : has_await c = true -> run c (init p) ls = Some (s, tr) -> wake s.
Proof.
  intros A R. assert (L : Forall (fun _ : label => True) ls) by by apply Forall_forall.
  revert ls s tr L R. apply (run_ind c p _ (fun s _ => wake s)).
  - constructor; unfold gone, looker, held; cbn; try lia.
  - intros s tr l s' e I _ H. by eapply wake_step.
Qed.
Lemma all_handed c p ls s tr : has_await c = true -> run c (init p) ls = Some (s, tr) -> rest s -> rcount s = 0 -> handed tr = wanted c (sents tr).
Proof.
  intros A R (J & P & O) Rc. pose proof (wake_run _ _ _ _ _ A R) as W. destruct (stream_run _ _ _ _ _ R) as [R1 R2].
  assert (Q : queue s = []); [|by rewrite <- R1, Q, app_nil_r].
  destruct (queue s) eqn:Q; [done|]. exfalso. pose proof (w_queue _ W Rc) as K. rewrite Q in K. unfold looker in K. rewrite J, P, O in K. cbn in K. lia.
Qed.
