(** C72: waiting inside the pool. *)
From Coq Require Import List Bool Arith.
From stdpp Require Import list.
From Verif.PoolWait Require Import Model Spec Trace Ends Final.

(** Example: one pool thread; a task submits a task and awaits it, which does the same. Two threads are added. *)
Definition ex_join : list label :=
  [Poll 0 false 0; Poll 0 false 0; Client; Exec (C 0); Step (C 0) false; Step (C 0) false; Poll 0 false 0;
   Exec (T 0); Step (T 0) false; Step (T 0) false; Await (T 0) (Some 1);
   Step (T 0) false; Step (T 0) false; Step (T 0) false; Step (T 0) false; Poll 1 false 0;
   Exec (T 1); Step (T 1) false; Step (T 1) false; Await (T 1) (Some 2);
   Step (T 1) false; Step (T 1) false; Step (T 1) false; Step (T 1) false; Step (T 1) false;
   Poll 2 false 0; End 2; Resume (T 1); Poll 2 false 0; Poll 2 false 0; End 1; Resume (T 0); Poll 1 false 0; Poll 1 false 0;
   End 0; Poll 0 false 0; Poll 0 false 0].
Definition ex_join_trace : list event :=
  [Pushed None 0; Started 0; Pushed (Some 0) 1; Awaits (Some 0) (Some 1); Started 1; Pushed (Some 1) 2;
   Awaits (Some 1) (Some 2); Started 2; Ended 2; Ended 1; Ended 0].
Definition ex_join_end : st := St [[]] [Wait false; Wait false; Wait false] [true; true; true] [User] 3 3 [0; 1; 2].
Lemma ex_join_run : run 9 (init 1) ex_join = Some (ex_join_end, ex_join_trace).
Proof. vm_compute. reflexivity. Qed.
Lemma ex_join_hyp : structured ex_join_trace /\ at_rest 9 ex_join_end /\ Missed ∉ ex_join_trace /\ Full ∉ ex_join_trace.
Proof.
  split; [apply structb_ok; vm_compute; reflexivity|]. split; [apply restb_ok; vm_compute; reflexivity|].
  split; apply (bool_decide_eq_true_1 _); vm_compute; reflexivity.
Qed.

(** What was queued when somebody awaited has been started when the pool comes to rest: as long as no try_pop misses it and the
    limit of threads is not reached. *)
Theorem C72_taken_partial : forall m c ls s tr, 0 < c -> run m (init c) ls = Some (s, tr) -> Missed ∉ tr -> Full ∉ tr -> at_rest m s ->
  forall tr1 x o tr2 x' t, tr = tr1 ++ Awaits x o :: tr2 -> Pushed x' t ∈ tr1 -> Started t ∈ tr.
Proof. intros m c ls s tr Hc Hr Hm Hf Hrest tr1 x o tr2 x' t He Ht. eapply taken; eauto. exists tr1, x, o, tr2, x'. auto. Qed.
Print Assumptions C72_taken_partial.

(** Tasks that await only tasks they have submitted: when the pool comes to rest all tasks have ended. *)
Theorem C72_join_partial : forall m c ls s tr, 0 < c -> run m (init c) ls = Some (s, tr) -> Missed ∉ tr -> Full ∉ tr -> structured tr -> at_rest m s ->
  forall x t, Pushed x t ∈ tr -> Ended t ∈ tr.
Proof. exact joined. Qed.
Print Assumptions C72_join_partial.

(** It does come to rest: without new calls the threads take a bounded number of steps. *)
Theorem C72_ends : forall m c ls s tr, 0 < c -> c <= m -> run m (init c) ls = Some (s, tr) ->
  exists b, forall ls' s' tr', Forall internal ls' -> run m s ls' = Some (s', tr') -> length ls' <= b.
Proof. exact ends. Qed.
Print Assumptions C72_ends.

(** A task submitted after the await, onto the queue of the thread that waits: it is never started and the awaiting task waits
    for ever, though the thread that was added sleeps. No try_pop fails, the limit is not reached. *)
Theorem C72_late_refuted : exists ls s tr, run 9 (init 1) ls = Some (s, tr) /\ at_rest 9 s /\ Missed ∉ tr /\ Full ∉ tr /\
  tr = [Pushed None 0; Started 0; Awaits (Some 0) (Some 1); Pushed None 1] /\ thr s !! 1 = Some (Wait false).
Proof.
  eexists [Poll 0 false 0; Poll 0 false 0; Client; Exec (C 0); Step (C 0) false; Step (C 0) false; Poll 0 false 0;
    Await (T 0) (Some 1); Step (T 0) false; Step (T 0) false; Step (T 0) false; Step (T 0) false; Poll 1 false 0; Poll 1 false 0;
    Exec (C 0); Step (C 0) false; Step (C 0) false], _, _.
  split; [vm_compute; reflexivity|]. split; [apply restb_ok; vm_compute; reflexivity|].
  split; [apply (bool_decide_eq_true_1 _); vm_compute; reflexivity|]. split; [apply (bool_decide_eq_true_1 _); vm_compute; reflexivity|].
  split; reflexivity.
Qed.
Print Assumptions C72_late_refuted.

(** The thread that was added finds the mutex of the queue held: it goes to sleep, the task submitted before is never started. *)
Theorem C72_missed_refuted : exists ls s tr, run 9 (init 1) ls = Some (s, tr) /\ at_rest 9 s /\ structured tr /\ Full ∉ tr /\
  tr = [Pushed None 0; Started 0; Pushed (Some 0) 1; Awaits (Some 0) (Some 1); Missed] /\ thr s !! 1 = Some (Wait false).
Proof.
  eexists [Poll 0 false 0; Poll 0 false 0; Client; Exec (C 0); Step (C 0) false; Step (C 0) false; Poll 0 false 0;
    Exec (T 0); Step (T 0) false; Step (T 0) false; Await (T 0) (Some 1); Step (T 0) false; Step (T 0) false; Step (T 0) false; Step (T 0) false;
    Poll 1 true 0; Poll 1 false 0], _, _.
  split; [vm_compute; reflexivity|]. split; [apply restb_ok; vm_compute; reflexivity|]. split; [apply structb_ok; vm_compute; reflexivity|].
  split; [apply (bool_decide_eq_true_1 _); vm_compute; reflexivity|]. split; reflexivity.
Qed.
Print Assumptions C72_missed_refuted.

(** One pool thread, hence a limit of nine: nine tasks, each of which submits and awaits the next. The tenth is never started. *)
Definition nest (k : nat) : list label :=
  [Exec (T k); Step (T k) false; Step (T k) false; Await (T k) (Some (S k))] ++ replicate (4 + k) (Step (T k) false) ++
  (if k =? 8 then [] else [Poll (S k) false 0]).
Theorem C72_limit_refuted : exists ls s tr, run 9 (init 1) ls = Some (s, tr) /\ at_rest 9 s /\ structured tr /\ Missed ∉ tr /\
  Pushed (Some 8) 9 ∈ tr /\ Awaits (Some 8) (Some 9) ∈ tr /\ Started 9 ∉ tr.
Proof.
  eexists ([Poll 0 false 0; Poll 0 false 0; Client; Exec (C 0); Step (C 0) false; Step (C 0) false; Poll 0 false 0] ++ concat (map nest (seq 0 9))), _, _.
  split; [vm_compute; reflexivity|]. split; [apply restb_ok; vm_compute; reflexivity|]. split; [apply structb_ok; vm_compute; reflexivity|].
  split; [apply (bool_decide_eq_true_1 _); vm_compute; reflexivity|]. split; [apply (bool_decide_eq_true_1 _); vm_compute; reflexivity|].
  split; apply (bool_decide_eq_true_1 _); vm_compute; reflexivity.
Qed.
Print Assumptions C72_limit_refuted.
