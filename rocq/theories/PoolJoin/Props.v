(** C73: join of the portable pool while tasks submit and await. *)
From Coq Require Import List Bool Arith.
From stdpp Require Import list.
From Verif.PoolJoin Require Import Model Spec Ends Final.

(** a client submits task 0, which is started; task a submits a task and calls await *)
Definition ex_start : list label := [Poll 0 false 0; Poll 0 false 0; Client; Exec (C 0); Step (C 0) false; Step (C 0) false; Poll 0 false 0].
Definition ex_fork (t : nat) : list label :=
  [Exec (T 0); Step (T 0) false; Step (T 0) false; Await (T 0) (Some t); Step (T 0) false; Step (T 0) false; Step (T 0) false; Step (T 0) false; Poll 1 false 0].
(** Example: a task submits and awaits a task, for which a thread is added; join is called; the task submits another one and
    ends; both threads leave, join returns. *)
Definition ex_ok : list label := ex_start ++ ex_fork 1 ++ [End 1; Resume (T 0); Poll 1 false 0; Poll 1 false 0; Join; Join; Join;
  Exec (T 0); Step (T 0) false; Step (T 0) false; End 0; Poll 0 false 0] ++ replicate 18 Join ++ [Poll 1 false 0; End 0; Poll 0 false 0; Poll 0 false 0; Join; Join; Join].
Definition ex_ok_trace : list event := [Pushed None 0; Started 0; Pushed (Some 0) 1; Awaits (Some 0) (Some 1); Started 1; Ended 1; Called;
  Pushed (Some 0) 2; Ended 0; Started 2; Ended 2; Returned].
Definition ex_ok_end : st := St [[]] [Exited; Exited] [false; false] (replicate 9 true) JEnd false [User] 3 3 [2; 0; 1].
Lemma ex_ok_run : run 9 (init 1 9) ex_ok = Some (ex_ok_end, ex_ok_trace).
Proof. vm_compute. reflexivity. Qed.
Lemma ex_ok_hyp : Late ∉ ex_ok_trace /\ Missed ∉ ex_ok_trace /\ Returned ∈ ex_ok_trace /\ at_rest 9 ex_ok_end.
Proof.
  split; [apply (bool_decide_eq_true_1 _); vm_compute; reflexivity|]. split; [apply (bool_decide_eq_true_1 _); vm_compute; reflexivity|].
  split; [apply (bool_decide_eq_true_1 _); vm_compute; reflexivity|]. apply restb_ok. vm_compute. reflexivity.
Qed.

(** If no thread is added after join has read the end of _threads, nothing uses the queues once they are cleared, and nothing happens after
    join has returned. *)
Theorem C73_safe_partial : forall m c ls s tr, 0 < c -> c <= m -> run m (init c m) ls = Some (s, tr) -> Late ∉ tr ->
  bad s = false /\ forall tr1 tr2, tr = tr1 ++ Returned :: tr2 -> tr2 = [].
Proof. intros m c ls s tr Hc Hm Hr Hl. split; [eapply safe|eapply last_event]; eauto. Qed.
Print Assumptions C73_safe_partial.

(** Then what was submitted before join was called has been run when it returns. *)
Theorem C73_before_partial : forall m c ls s tr, 0 < c -> c <= m -> run m (init c m) ls = Some (s, tr) -> Late ∉ tr -> Returned ∈ tr ->
  forall tr1 tr2 x t, tr = tr1 ++ Called :: tr2 -> Pushed x t ∈ tr1 -> Ended t ∈ tr.
Proof. exact before. Qed.
Print Assumptions C73_before_partial.

(** And also what tasks submit meanwhile, if no try_pop misses it. *)
Theorem C73_all_partial : forall m c ls s tr, 0 < c -> c <= m -> run m (init c m) ls = Some (s, tr) -> Late ∉ tr -> Missed ∉ tr -> Returned ∈ tr ->
  forall x t, Pushed x t ∈ tr -> Ended t ∈ tr.
Proof. exact all_tasks. Qed.
Print Assumptions C73_all_partial.

(** Left to themselves the threads and join come to rest, *)
Theorem C73_ends : forall m c ls s tr, 0 < c -> c <= m -> run m (init c m) ls = Some (s, tr) ->
  exists b, forall ls' s' tr', Forall internal ls' -> run m s ls' = Some (s', tr') -> length ls' <= b.
Proof. exact ends. Qed.
Print Assumptions C73_ends.

(** where join has returned, or a task of the pool waits for something that has not come. *)
Theorem C73_rest : forall m c ls s tr, 0 < c -> c <= m -> run m (init c m) ls = Some (s, tr) -> bad s = false -> at_rest m s ->
  Called ∈ tr /\ (Returned ∈ tr \/ exists k t o, thr s !! k = Some (Run t (Blocked o)) /\ Awaits (Some t) o ∈ tr /\ forall y, o = Some y -> Ended y ∉ tr).
Proof. exact rest. Qed.
Print Assumptions C73_rest.

(** A task that submits a task and awaits it when join waits for the threads: a thread is added, which join does not wait for; it uses the
    queues when they have been cleared. *)
Theorem C73_late_refuted : exists ls s tr, run 9 (init 1 9) ls = Some (s, tr) /\ bad s = true /\ structured tr /\ Missed ∉ tr /\
  tr = [Pushed None 0; Started 0; Called; Pushed (Some 0) 1; Awaits (Some 0) (Some 1); Late; Started 1; Ended 1; Ended 0; Returned].
Proof.
  eexists (ex_start ++ replicate 21 Join ++ ex_fork 1 ++ [End 1; Resume (T 0); End 0; Poll 0 false 0; Poll 0 false 0; Join; Join; Poll 1 false 0]), _, _.
  split; [vm_compute; reflexivity|]. split; [reflexivity|]. split; [apply structb_ok; vm_compute; reflexivity|].
  split; [apply (bool_decide_eq_true_1 _); vm_compute; reflexivity|]. reflexivity.
Qed.
Print Assumptions C73_late_refuted.

(** A task that submits a task and awaits it when join has told the threads to leave: wake, 432-440, wakes a thread, so that none is added,
    and this thread leaves. The task waits for ever, and so does join. *)
Theorem C73_hang_refuted : exists ls s tr, run 9 (init 1 9) ls = Some (s, tr) /\ bad s = false /\ at_rest 9 s /\ structured tr /\ Missed ∉ tr /\
  tr = [Pushed None 0; Started 0; Pushed (Some 0) 1; Awaits (Some 0) (Some 1); Started 1; Ended 1; Called; Pushed (Some 0) 2; Awaits (Some 0) (Some 2)].
Proof.
  eexists (ex_start ++ ex_fork 1 ++ [End 1; Resume (T 0); Poll 1 false 0; Poll 1 false 0; Join; Join; Join; Join] ++ ex_fork 2 ++ replicate 17 Join), _, _.
  split; [vm_compute; reflexivity|]. split; [reflexivity|]. split; [apply restb_ok; vm_compute; reflexivity|]. split; [apply structb_ok; vm_compute; reflexivity|].
  split; [apply (bool_decide_eq_true_1 _); vm_compute; reflexivity|]. reflexivity.
Qed.
Print Assumptions C73_hang_refuted.

(** A task that is submitted when join has told the threads to leave and missed by the one that looks for it is dropped. *)
Theorem C73_missed_refuted : exists ls s tr, run 18 (init 2 18) ls = Some (s, tr) /\ bad s = false /\
  tr = [Pushed None 0; Started 0; Called; Pushed (Some 0) 1; Ended 0; Missed; Returned].
Proof.
  eexists ([Poll 0 false 0; Poll 0 false 0; Poll 0 false 0; Poll 1 false 0; Poll 1 false 0; Poll 1 false 0; Client; Exec (C 0); Step (C 0) false; Step (C 0) false;
    Poll 0 false 0] ++ replicate 39 Join ++ [Poll 1 false 0; Exec (T 0); Step (T 0) false; Step (T 0) false; End 0; Poll 0 false 0; Poll 0 true 0; Poll 0 false 0;
    Join; Join; Join]), _, _.
  split; [vm_compute; reflexivity|]. split; reflexivity.
Qed.
Print Assumptions C73_missed_refuted.
