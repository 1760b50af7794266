(** C71: when pre_exit returns, tasks are done and none begins later. *)
From Coq Require Import List.
From stdpp Require Import list.
From Verif.Exit Require Import Model Spec Proof Final.

(** libdispatch, when the timer was not used for the first time while pre_exit was executing *)
Theorem C71_libdispatch_partial : forall ls s tr, run Libdispatch init ls = Some (s, tr) -> late_timer tr = [] -> returned tr <> [] ->
  ended tr ≡ₚ started tr /\ (forall i, i ∈ submitted tr -> i ∈ ended tr) /\
  forall ls' s' tr', run Libdispatch s ls' = Some (s', tr') -> started tr' = [].
Proof. exact lib_done. Qed.
Print Assumptions C71_libdispatch_partial.

Definition ex_lib : list label :=
  [Outside Arm; Outside (Exec 1); Outside Arm; Fire 0; Start 0; Begin; Task 1 (Exec 2); Pop; Pop; Start 0; Task 0 (Exec 0); End 2; Fire 0; End 0; Start 0; End 0; End 0; Done; Pop].
Example ex_lib_run : exists s tr, run Libdispatch init ex_lib = Some (s, tr) /\ late_timer tr = [] /\ returned tr = [tt] /\
  submitted tr = [1; 3; 4] /\ armed tr = [0; 2] /\ started tr = [0; 1; 3; 4] /\ lost tr = [2].
Proof. vm_compute. eauto 10. Qed.

(** and no assertion fails when tasks do not use the timer *)
Theorem C71_assert_partial : forall ls s tr, Forall no_arm ls -> run Libdispatch init ls = Some (s, tr) ->
  bad s = false /\ aborted s = false /\ late_timer tr = [].
Proof. exact lib_safe. Qed.
Print Assumptions C71_assert_partial.
Example ex_lib_no_arm : Forall no_arm ex_lib.
Proof. repeat constructor. Qed.

(** the portable and the Windows pools, when all tasks have one priority and the timer is not used *)
Theorem C71_pool_partial : forall v p ls s tr, v <> Libdispatch -> Forall (plain p) ls -> run v init ls = Some (s, tr) ->
  bad s = false /\ aborted s = false /\
  (returned tr <> [] ->
    ended tr ≡ₚ started tr /\ (forall i, i ∈ in_time tr -> i ∈ ended tr) /\ (v = Windows -> forall i, i ∈ submitted tr -> i ∈ ended tr) /\
    forall ls' s' tr', run v s ls' = Some (s', tr') -> started tr' = []).
Proof. exact pool_done. Qed.
Print Assumptions C71_pool_partial.

Definition ex_pool : list label :=
  [Outside (Exec 1); Outside (Exec 1); Start 0; Begin; Pop; Task 0 (Exec 1); End 0; Start 0; Start 0; End 1; End 0; Done; Pop].
Example ex_pool_run : exists s tr, run Windows init ex_pool = Some (s, tr) /\ returned tr = [tt] /\ in_time tr = [0; 1] /\ submitted tr = [0; 1; 2] /\ ended tr = [0; 2; 1].
Proof. vm_compute. eauto 10. Qed.
Example ex_pool_plain : Forall (plain 1) ex_pool.
Proof. repeat constructor. Qed.
(** a task submitted while the portable pool is joined may be lost *)
Example ex_portable_lost : exists s tr,
  run Portable init [Outside (Exec 1); Start 0; Begin; Pop; Task 0 (Exec 1); End 0; Lose 0; Done; Pop] = Some (s, tr) /\
  returned tr = [tt] /\ in_time tr = [0] /\ submitted tr = [0; 1] /\ ended tr = [0] /\ lost tr = [1].
Proof. vm_compute. eauto 10. Qed.

(** pre_exit returns: from any state, when nobody asks for anything more, there are finitely many steps, and there is one until it has *)
Theorem C71_ends : forall v s, exists n, forall ls s' tr, Forall internal ls -> run v s ls = Some (s', tr) -> length ls <= n.
Proof. intros v s. exists (weight s). intros ls s' tr. exact (ends v s ls s' tr). Qed.
Print Assumptions C71_ends.
Theorem C71_rest : forall v ls s tr, run v init ls = Some (s, tr) -> bad s = false -> aborted s = false -> returned tr = [] ->
  exists l s' es, internal l /\ step v s l = Some (s', es).
Proof. exact rest. Qed.
Print Assumptions C71_rest.

(** libdispatch: the timer is first used by a task that pre_exit waits for, and pre_exit returns while a task executes *)
Theorem C71_late_timer_refuted : exists ls s tr i, run Libdispatch init ls = Some (s, tr) /\ returned tr = [tt] /\ i ∈ started tr /\ ended tr = [0] /\ i <> 0.
Proof.
  exists [Outside (Exec 0); Begin; Start 0; Pop; Task 0 Arm; End 0; Done; Fire 0; Pop; Pop]. eexists. eexists. exists 1.
  split; [vm_compute; reflexivity|]. split; [reflexivity|]. split; [vm_compute; right; left|]. split; [reflexivity|]. discriminate.
Qed.
Print Assumptions C71_late_timer_refuted.
(** libdispatch: a task that pre_exit waits for uses the timer, and the program ends with a failed assertion *)
Theorem C71_assert_refuted : exists ls s tr, run Libdispatch init ls = Some (s, tr) /\ late_timer tr = [] /\ aborted s = true.
Proof. exists [Outside Arm; Outside (Exec 0); Start 0; Begin; Pop; Task 0 Arm]. vm_compute. eauto. Qed.
Print Assumptions C71_assert_refuted.
(** portable and Windows: pre_exit leaves the timer alone, its tasks begin later *)
Theorem C71_timer_refuted : forall v, v <> Libdispatch ->
  exists ls s tr ls' s' tr', run v init ls = Some (s, tr) /\ returned tr = [tt] /\ run v s ls' = Some (s', tr') /\ started tr' = [0].
Proof.
  intros v Hv. exists [Outside Arm; Begin; Pop].
  destruct v; [done| |]; eexists; eexists; exists [Fire 0]; eexists; eexists; (split; [vm_compute; reflexivity|]); (split; [reflexivity|]);
    (split; [vm_compute; reflexivity|]); reflexivity.
Qed.
Print Assumptions C71_timer_refuted.
(** and when one of them uses the executor that is undefined behaviour *)
Theorem C71_timer_executor_refuted : forall v, v <> Libdispatch -> exists ls s tr, run v init ls = Some (s, tr) /\ bad s = true.
Proof.
  intros v Hv. exists [Outside (Exec 0); Outside Arm; Start 0; End 0; Begin; Pop; Done; Pop; Fire 0; Task 0 (Exec 0)].
  destruct v; [done| |]; vm_compute; eauto.
Qed.
Print Assumptions C71_timer_executor_refuted.
(** Windows: the pools of the priorities are joined one after the other, a task of one may use another that is gone *)
Theorem C71_priorities_refuted : exists ls s tr, run Windows init ls = Some (s, tr) /\ armed tr = [] /\ bad s = true.
Proof. exists [Outside (Exec 0); Outside (Exec 1); Start 1; End 0; Begin; Pop; Done; Start 0; Task 0 (Exec 1)]. vm_compute. eauto. Qed.
Print Assumptions C71_priorities_refuted.
