(** C28: the portable system timer. C29: execute_at / execute_delayed. *)
From Coq Require Import ZArith List Bool.
From stdpp Require Import list.
From Verif.Timer Require Import Model Proof ExecuteAt ProofEA.
Open Scope Z_scope.

(** No task is started before its due time, nor before it was submitted. *)
Theorem C28_never_early {A} t ls (s : st A) es es1 i t' es2 :
  run (init t) ls = Some (s, es) -> es = es1 ++ Started i t' :: es2 ->
  exists d ts, Submitted i d ts ∈ es1 /\ d <= t'.
Proof. exact (never_early t ls s es es1 i t' es2). Qed.

(** When a task starts, no task waiting at that moment has an earlier due time. *)
Theorem C28_due_order {A} t ls (s : st A) es es1 a ta es2 b da sa db sb :
  run (init t) ls = Some (s, es) -> es = es1 ++ Started a ta :: es2 ->
  Submitted a da sa ∈ es1 -> Submitted b db sb ∈ es1 -> b ∉ starts es1 -> da <= db.
Proof. exact (due_order t ls s es es1 a ta es2 b da sa db sb). Qed.

Theorem C28_at_most_once {A} t ls (s : st A) es : run (init t) ls = Some (s, es) -> NoDup (starts es).
Proof. exact (once t ls s es). Qed.

(** A task that was submitted and not started is still queued, with its due time. *)
Theorem C28_none_lost {A} t ls (s : st A) es i d ts : run (init t) ls = Some (s, es) -> Submitted i d ts ∈ es ->
  i ∈ starts es \/ exists e, e ∈ queue s /\ ident e = i /\ due e = d.
Proof. exact (none_lost t ls s es i d ts). Qed.

(** No lost wake-up: with a due task queued, the timer running and its thread not executing a task, the thread can
    go on without a spurious wake-up and its next step, whatever it is, starts a due task. *)
Theorem C28_prompt {A} t ls (s : st A) es x : run (init t) ls = Some (s, es) -> stop s = false -> x ∈ queue s ->
  due x <= now s -> (forall e, thr s <> Running e) ->
  (exists k s' e, step s (Check false k) = Some (s', e)) /\
  (forall sp k s' e, step s (Check sp k) = Some (s', e) ->
     exists y, y ∈ queue s /\ thr s' = Running y /\ e = [Started (ident y) (now s)] /\ due y <= due x).
Proof. exact (prompt t ls s es x). Qed.

(** A waiting task is overtaken only by tasks that are due no later. *)
Theorem C28_overtaken {A} t ls (s : st A) es es1 es2 x : run (init t) ls = Some (s, es) -> es = es1 ++ es2 -> x ∈ queue s ->
  ident x ∈ submits es1 -> forall i, i ∈ starts es2 -> exists d ts, Submitted i d ts ∈ es /\ d <= due x.
Proof. exact (overtaken t ls s es es1 es2 x). Qed.

(** Stopping drops what is pending: nothing is started afterwards. *)
Theorem C28_none_after_stop {A} t ls (s : st A) es es1 es2 :
  run (init t) ls = Some (s, es) -> es = es1 ++ Stopped :: es2 -> starts es2 = [].
Proof. exact (none_after_stop t ls s es es1 es2). Qed.

(** ... and the thread ends: the destructor's join returns. *)
Theorem C28_stop_exits {A} t ls1 ls2 (s : st A) es : run (init t) (ls1 ++ StopNotify :: ls2) = Some (s, es) ->
  (forall e, thr s <> Running e) ->
  thr s = Exited \/
  ((exists s' e, step s (Check false 0) = Some (s', e)) /\
   forall sp k s' e, step s (Check sp k) = Some (s', e) -> thr s' = Exited).
Proof. exact (stop_exits t ls1 ls2 s es). Qed.

Theorem C28_no_ub {A} t ls (s : st A) es : run (init t) ls = Some (s, es) -> thr s <> Ub.
Proof. exact (no_ub t ls s es). Qed.

(** A history with two tasks submitted out of order, a wait that is cut short by the second submission, and a stop. *)
Definition C28_labels : list (label nat) :=
  [Check false 0; Submit 10 7%nat; Check false 0; Submit 3 8%nat; Check false 1; Tick 4; Check false 1; Finish;
   Check false 0; Tick 9; Check false 0; Submit 5 9%nat; Finish; StopSet; StopNotify; Check false 0].
Example C28_ex : exists s, run (init 100) C28_labels = Some (s,
  [Submitted 0 110 100; Submitted 1 103 100; Started 1 104; Finished 1; Started 0 113; Submitted 2 118 113; Finished 0;
   Stopped; ThreadEnded]) /\ length (queue s) = 1%nat.
Proof. eexists. split; [vm_compute; reflexivity|]. vm_compute. auto. Qed.
Example C28_ex_prompt : exists s es x, run (init 100) (take 6 C28_labels) = Some (s, es) /\ stop s = false /\ x ∈ queue s /\
  due x <= now s /\ (forall e, thr s <> Running e).
Proof.
  do 2 eexists. exists (Entry 103 1 8%nat). split; [vm_compute; reflexivity|]. split; [reflexivity|]. split; [right; left|].
  split; [discriminate|]. intros e. discriminate.
Qed.

(** ** C29 *)
(** Zero duration: every task is handed over at once, in order. *)
Theorem C29_zero t ls s : erun 0 (einit t) ls = Some s ->
  dead s = false /\ handed s = calls s /\ (handed s).*1 = called ls.
Proof. exact (zero_final t ls s). Qed.

(** Non-zero duration, one task: handed over at most once, not before the duration has elapsed, and until then it is
    pending in the timer with the right due time. Missing: a second task. *)
Theorem C29_first_task_partial d t ls s f : d <> 0 -> erun d (einit t) ls = Some s -> called ls = [f] -> dead s = false /\
  exists t0, calls s = [(f, t0)] /\
    ((exists t1, handed s = [(f, t1)] /\ t0 + d <= t1) \/
     (handed s = [] /\ exists e, e ∈ pending (timer s) /\ payload e = Job f true /\ due e = t0 + d)).
Proof. exact (single_final d t ls s f). Qed.

(** With a second task the property fails: an execution in which the second task was submitted, its time came, and
    the program was terminated instead. *)
Theorem C29_second_task_refuted : exists d t ls s, erun d (einit t) ls = Some s /\ called ls = [1%nat; 2%nat] /\
  handed s = [(1%nat, 10)] /\ bads (timer s) = [] /\ dead s = true.
Proof.
  exists 10, 0, [Call 1; Call 2; T (Tick 10); T (Check false 0); T Finish; T (Check false 0); T Finish].
  eexists. split; [vm_compute; reflexivity|]. vm_compute. auto.
Qed.
(** ... and it fails always: never more than one task is handed over, and once all of two or more tasks have been
    fired by the timer the program has been terminated. *)
Theorem C29_at_most_one_ever d t ls s : d <> 0 -> erun d (einit t) ls = Some s -> (length (handed s) <= 1)%nat /\
  ((2 <= length (called ls))%nat -> bads (timer s) = [] -> dead s = true).
Proof. exact (at_most_one d t ls s). Qed.

Example C29_ex : exists s, erun 5 (einit 0) [Call 3; T (Tick 5); T (Check false 0); T Finish] = Some s /\ handed s = [(3%nat, 5)].
Proof. eexists. split; [vm_compute; reflexivity|]. vm_compute. auto. Qed.
Example C29_ex_zero : exists s, erun 0 (einit 2) [Call 3; T (Tick 5); Call 4] = Some s /\ handed s = [(3%nat, 2); (4%nat, 7)].
Proof. eexists. split; [vm_compute; reflexivity|]. vm_compute. auto. Qed.

Print Assumptions C28_never_early.
Print Assumptions C28_due_order.
Print Assumptions C28_at_most_once.
Print Assumptions C28_none_lost.
Print Assumptions C28_prompt.
Print Assumptions C28_overtaken.
Print Assumptions C28_none_after_stop.
Print Assumptions C28_stop_exits.
Print Assumptions C28_no_ub.
Print Assumptions C29_zero.
Print Assumptions C29_first_task_partial.
Print Assumptions C29_second_task_refuted.
Print Assumptions C29_at_most_one_ever.
