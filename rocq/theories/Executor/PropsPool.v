(** C24, C25, C55: the portable thread pool. [init c m] is a pool of c threads that may add m more. *)
From stdpp Require Import list.
From Verif.Executor Require Import Queue Pool PoolProof PoolInv PoolWake PoolThm PoolBound.

(** In every execution, no task is started twice, every task started had been pushed, and every one ended had started. *)
Theorem C24_at_most_once c m ls s tr : 0 < c -> run (init c m) ls = Some (s, tr) ->
  NoDup (starts tr) /\ starts tr ⊆+ pushes tr /\ ends tr ⊆+ starts tr /\ (forall t, t ∈ pushes tr -> t < next s).
Proof. exact (at_most_once c m ls s tr). Qed.
(** When join() has returned, every task pushed before it was called has run to its end. *)
Theorem C24_join_drains c m ls1 s1 tr1 ls2 s2 tr2 t : 0 < c -> run (init c m) ls1 = Some (s1, tr1) -> jn s1 = JIdle ->
  run s1 ls2 = Some (s2, tr2) -> jn s2 = JReturned -> t ∈ pushes tr1 -> t ∈ ends (tr1 ++ tr2).
Proof. exact (join_drains c m ls1 s1 tr1 ls2 s2 tr2 t). Qed.
(** When join() has returned nothing runs, and what was pushed has either ended or been destroyed unexecuted. *)
Theorem C24_join_quiet c m ls s tr : 0 < c -> run (init c m) ls = Some (s, tr) -> jn s = JReturned ->
  ends tr ≡ₚ starts tr /\ pushes tr ≡ₚ ends tr ++ dropped s.
Proof. exact (join_quiet c m ls s tr). Qed.
(** join() cannot get stuck: until it returns, it or a thread or a call in progress can go on, without spurious wake-ups; *)
Theorem C24_join_progress c m ls s tr : 0 < c -> run (init c m) ls = Some (s, tr) -> jn s <> JIdle -> jn s <> JReturned ->
  exists l s' e, (pool l \/ l = Join) /\ step s l = Some (s', e).
Proof. exact (join_progress c m ls s tr). Qed.
(** ... and from any state only boundedly many such steps are possible before a new execute() or wake() is called.
    So join() returns. *)
Theorem C24_bounded c m ls1 s1 tr1 : 0 < c -> run (init c m) ls1 = Some (s1, tr1) -> exists n, forall ls2 s2 tr2,
  Forall quiet ls2 -> run s1 ls2 = Some (s2, tr2) -> Ub ∉ tr2 -> length ls2 <= n.
Proof. exact (bounded c m ls1 s1 tr1). Qed.
(** No queue is used after its destruction unless the pool is used when join() has returned. *)
Theorem C24_no_ub c m ls s tr : 0 < c -> run (init c m) ls = Some (s, tr) -> Ub ∈ tr -> jn s = JReturned.
Proof. exact (no_ub c m ls s tr). Qed.

(** The proviso "before join() was called" is needed: a running task submits another to the queue of a thread that has
    left; join() destroys it unexecuted. *)
Definition C24_late : list label :=
  [Execute 0 0; Call 0 false; Call 0 false; Worker 0 false 0;                    (* thread 0 runs task 0 *)
   Join; Join; Join; Join; Join; Join; Join;                                     (* join() tells both queues *)
   Worker 1 false 0; Worker 1 false 0; Worker 1 false 0;                         (* thread 1 leaves *)
   Execute 0 1; Call 0 false; Call 0 false;                                      (* task 0 submits task 1 to queue 1 *)
   Worker 0 false 0; Worker 0 false 0; Worker 0 true 0; Worker 0 false 0;        (* thread 0 ends it, a try_lock fails, it leaves *)
   Join; Join; Join].
Theorem C24_late_dropped : exists s, run (init 2 0) C24_late = Some (s, [Pushed 0; Started 0; Pushed 1; Ended 0]) /\
  jn s = JReturned /\ dropped s = [1].
Proof. eexists. split; [vm_compute; reflexivity|]. vm_compute. auto. Qed.

(** A thread is parked (waiting, not notified) only if its queue is empty, unless a notification is on its way. *)
Theorem C25_no_lost_wakeup c m ls s tr i : 0 < c -> run (init c m) ls = Some (s, tr) ->
  ws s !! i = Some (Wait false) -> Notify i ∉ calls s -> jn s <> JNote i ->
  exists q, qs s !! i = Some q /\ items q = [] /\ done q = false.
Proof. exact (no_lost_wakeup c m ls s tr i). Qed.
(** When no thread of the pool and no call can take a step, every task ever submitted has been executed. *)
Theorem C25_quiescent c m ls s tr : 0 < c -> run (init c m) ls = Some (s, tr) -> jn s = JIdle ->
  (forall l, pool l -> step s l = None) -> calls s = [] /\ ends tr ≡ₚ seq 0 (next s).
Proof. exact (quiescent c m ls s tr). Qed.

(** The pool is not work-conserving: a task waits in the queue of a busy thread (it was pushed there while the lock of
    the other queue could not be taken) while the other thread sleeps, and nothing is in progress that would wake it. *)
Definition C55_labels : list label :=
  [Worker 1 false 0; Worker 1 false 0; Worker 1 false 0;       (* thread 1 finds nothing and parks *)
   Execute 0 0; Call 0 false; Call 0 false;                    (* task 0 to queue 0 *)
   Worker 0 false 0;                                           (* thread 0 runs it *)
   Execute 0 0; Call 0 false; Call 0 false].                   (* task 1 to queue 0, too *)
Theorem C55_work_conserving_refuted : exists s q, run (init 2 0) C55_labels = Some (s, [Pushed 0; Started 0; Pushed 1]) /\
  ws s = [Run 0; Wait false] /\ calls s = [] /\ jn s = JIdle /\ qs s !! 0 = Some q /\ (items q).*2 = [1] /\
  forall l s' e, pool l -> step s l = Some (s', e) -> exists f k, l = Worker 0 f k /\ e = [Ended 0].
Proof.
  do 2 eexists. split; [vm_compute; reflexivity|]. do 5 (split; [vm_compute; reflexivity|]).
  intros l s' e. destruct l as [| | |c f|i f k|i f k| | |]; simpl; try done; intros _.
  destruct i as [|[|i]]; try done. intros [= <- <-]. eauto.
Qed.
(** What does hold: whatever is queued gets executed when the running tasks end (C25_quiescent, C24_bounded). *)

(** Non-vacuity: two threads and one added, three tasks of three priorities; all are executed and join() returns. *)
Definition C24_ls1 : list label :=
  [AddThread; Worker 0 false 0; Worker 0 false 0; Worker 0 false 0; Execute 2 0; Execute 0 0; Execute 1 1;
   Call 0 true; Call 1 true; Call 0 true; Call 1 true; Call 2 false; Call 0 false; Call 1 false].
Definition C24_ls2 : list label :=
  [Call 0 false; Worker 0 true 1; Worker 0 false 0; Expand 0 false 0; Worker 1 false 0; Join; Join; Join; Join; Join; Join; Join; Join; Join;
   Expand 0 false 0; Expand 0 false 0; Expand 0 false 0; Expand 0 false 0; Worker 0 false 0; Worker 0 false 0; Worker 0 false 0;
   Worker 1 false 0; Worker 1 false 0; Worker 1 false 0; Worker 1 false 0; Join; Join; Join; Join].
Example C24_ex : exists s1 tr1 s2 tr2, run (init 2 1) C24_ls1 = Some (s1, tr1) /\ jn s1 = JIdle /\ pushes tr1 = [2; 0; 1] /\
  run s1 C24_ls2 = Some (s2, tr2) /\ jn s2 = JReturned /\ starts tr2 = [1; 0; 2] /\ ends tr2 = [1; 0; 2].
Proof.
  do 4 eexists. split; [vm_compute; reflexivity|]. split; [reflexivity|]. split; [reflexivity|].
  split; [vm_compute; reflexivity|]. vm_compute. auto.
Qed.
(** A parked thread with a notification on its way, *)
Example C25_ex_window : exists s tr, run (init 2 1) C24_ls1 = Some (s, tr) /\ ws s !! 0 = Some (Wait false) /\ Notify 0 ∈ calls s /\
  exists q, qs s !! 0 = Some q /\ length (items q) = 2.
Proof.
  do 2 eexists. split; [vm_compute; reflexivity|]. split; [reflexivity|]. split; [simpl; by left|].
  eexists. split; [reflexivity|]. reflexivity.
Qed.
(** ... a parked thread with none, *)
Example C25_ex_parked : exists s tr, run (init 2 0) C55_labels = Some (s, tr) /\ ws s !! 1 = Some (Wait false) /\ Notify 1 ∉ calls s.
Proof. do 2 eexists. split; [vm_compute; reflexivity|]. split; [reflexivity|]. simpl. by intros ?%elem_of_nil. Qed.
(** ... and a pool at rest after two tasks. *)
Example C25_ex_rest : exists s tr, run (init 1 0) [Execute 0 0; Execute 0 7; Call 1 false; Worker 0 false 0; Call 0 false; Call 1 false;
    Worker 0 false 0; Worker 0 true 0; Worker 0 false 0; Worker 0 false 0; Worker 0 false 0; Worker 0 false 0; Call 0 false;
    Worker 0 false 0] = Some (s, tr) /\
  jn s = JIdle /\ (forall l, pool l -> step s l = None) /\ ends tr = [1; 0].
Proof.
  do 2 eexists. split; [vm_compute; reflexivity|]. split; [reflexivity|]. split; [|reflexivity].
  intros l. destruct l as [| | |[] f|[|[]] f k|[] f k| | |]; simpl; done.
Qed.

Print Assumptions C24_at_most_once.
Print Assumptions C24_join_drains.
Print Assumptions C24_join_quiet.
Print Assumptions C24_join_progress.
Print Assumptions C24_bounded.
Print Assumptions C24_no_ub.
Print Assumptions C24_late_dropped.
Print Assumptions C25_no_lost_wakeup.
Print Assumptions C25_quiescent.
Print Assumptions C55_work_conserving_refuted.
