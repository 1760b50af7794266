(** C75: in which order the portable pool starts tasks of different priorities. [init c m] is a pool of c threads that may add
    m more. *)
From Coq Require Import ZArith List Lia.
From stdpp Require Import list.
From Verif.Executor Require Import Queue QueueSpec Pool PoolProof PrioSpec PoolPrio.

(** Every execution is made of c queues: each task has one of them, and the tasks of a queue, whichever threads take them,
    are started in order of priority and first come, first served within a priority. *)
Theorem C75_queues c m ls s tr : 0 < c -> priorities_ok ls -> run (init c m) ls = Some (s, tr) ->
  (Z.of_nat (length (pushes tr)) <= 2 ^ 62)%Z ->
  exists home, (forall t, home t < c) /\ forall j, j < c -> in_order (prio ls) home j tr.
Proof. exact (queues_in_order c m ls s tr). Qed.

(** So a pool of one thread, with any number of added threads, starts all tasks in that order. *)
Theorem C75_one_partial m ls s tr : priorities_ok ls -> run (init 1 m) ls = Some (s, tr) ->
  (Z.of_nat (length (pushes tr)) <= 2 ^ 62)%Z -> in_order (prio ls) (fun _ => 0) 0 tr /\ started (fun _ => 0) 0 tr = starts tr.
Proof. exact (one_in_order m ls s tr). Qed.

(** A pool of two does not: while task 1, of high priority, waits in the queue of a busy thread, any number of tasks of low
    priority are submitted, started by the other thread, and done. *)
Theorem C75_refuted n : exists ls s tr, run (init 2 0) ls = Some (s, tr) /\
  tr = [Pushed 0; Started 0; Pushed 1] ++ (seq 2 n ≫= fun t => [Pushed t; Started t; Ended t]) /\
  prio ls 1 = 0 /\ (forall t, 2 <= t < 2 + n -> prio ls t = 2).
Proof. exact (starved n). Qed.

(** A pool of one thread and one added: of low, medium, high, submitted in this order while the first thread is busy, high is
    started first (by the added thread), then medium, then low. *)
Definition C75_labels : list label :=
  [Execute 1 0; Call 0 false; Call 0 false; Worker 0 false 0; AddThread;
   Execute 2 0; Call 0 false; Call 0 false; Execute 1 0; Call 0 false; Call 0 false; Execute 0 0; Call 0 false; Call 0 false;
   Expand 0 false 2; Worker 0 false 0; Worker 0 false 1; Expand 0 false 0; Expand 0 false 0].
Example C75_ex : exists s tr, run (init 1 1) C75_labels = Some (s, tr) /\ priorities_ok C75_labels /\
  (Z.of_nat (length (pushes tr)) <= 2 ^ 62)%Z /\ starts tr = [0; 3; 2; 1].
Proof.
  eexists _, _. split; [vm_compute; reflexivity|]. split; [repeat constructor|]. split; [vm_compute; discriminate|reflexivity].
Qed.
(** [in_order] does not hold of everything: the trace of the refutation, as if of one queue, is not in order. *)
Example C75_ex_not : ~ in_order (prio (prelude ++ low_tasks 1)) (fun _ => 0) 0
  [Pushed 0; Started 0; Pushed 1; Pushed 2; Started 2; Ended 2].
Proof.
  intros [l H]. vm_compute in H.
  repeat match goal with H : serves _ (_ :: _) _ _ |- _ => inversion H; clear H; subst end.
  match goal with H : takes _ 2 _ |- _ => destruct H as (m1 & p & m2 & E & _ & H1 & H2) end.
  match goal with H : takes _ 0 _ |- _ => destruct H as (k1 & p' & k2 & E' & -> & _ & _) end.
  assert (k1 = [] /\ k2 = []) as [-> ->] by (destruct k1 as [|? [|]]; simplify_eq; auto).
  simpl in E. destruct m1 as [|x [|y [|z m1]]]; simpl in E; try discriminate E.
  injection E as <- <- <-. assert (2 < 0) by (apply (H1 (0, 1)); by left). lia.
Qed.

Print Assumptions C75_queues.
Print Assumptions C75_one_partial.
Print Assumptions C75_refuted.
