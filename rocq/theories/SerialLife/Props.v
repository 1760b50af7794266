(** Properties of the lifetime of a serial queue and of its tasks: C69, C70. *)
From Coq Require Import List Bool Arith Lia Permutation.
From stdpp Require Import list.
From Verif.SerialLife Require Import Model Spec Proof Final.

Definition ends_in (r : option (st * list event)) (f : st -> list event -> Prop) : Prop :=
  match r with Some (s, tr) => f s tr | None => False end.
(** the queue object is destroyed while its only task waits; the task enqueues another one *)
Definition ex_life : list label := [Enqueue true; Submit; DropH; Begin; Work 0; Enqueue false; Work 0; Work 0; Work 0; Begin; Work 1; Work 0; Work 1; Work 1; Work 0; Work 0; Work 0].
Example ex_life_run : ends_in (run single init ex_life) (fun s tr =>
  tr = [Enqueued 0; Started 0; Enqueued 1; Ended 0; Started 1; Destroyed 0; Ended 1; Destroyed 1; Freed] /\ rest s /\ handles s = 0 /\ drops tr = []).
Proof. by vm_compute. Qed.
Definition ex_all : list label := [Enqueue true; Enqueue false; Submit; DropH; Begin; Work 0; Work 0; Enqueue false; Work 0; Work 0; Work 0; Work 0; Work 0; Work 0; Work 0; Work 0; Begin; Work 0; Work 0; Work 0; Work 0; Work 0; Work 0].
Example ex_all_run : ends_in (run all init ex_all) (fun s tr =>
  tr = [Enqueued 0; Enqueued 1; Started 0; Enqueued 2; Ended 0; Destroyed 0; Started 1; Ended 1; Destroyed 1; Started 2; Ended 2; Destroyed 2; Freed] /\ rest s /\ handles s = 0).
Proof. by vm_compute. Qed.
(** the executor destroys a job *)
Definition ex_drop : list label := [Enqueue false; Submit; DropJob; Enqueue false].
Example ex_drop_run : ends_in (run single init ex_drop) (fun s tr => rest s /\ handles s = 1 /\ drops tr = [tt] /\ enqs tr = [0; 1] /\ starts tr = [] /\
  ends_in (run single s [DropH]) (fun s' tr' => tr' = [Destroyed 0; Destroyed 1; Freed])).
Proof. by vm_compute. Qed.

(** ** C69: the queue exists as long as anything may use it, tasks are executed in order and destroyed once, and the queue is destroyed
    with the last reference *)
Theorem C69_safe m ls s tr : run m init ls = Some (s, tr) -> bad s = false.
Proof. exact (safe m ls s tr). Qed.
Theorem C69_order m ls s tr : run m init ls = Some (s, tr) -> starts tr `prefix_of` enqs tr /\ NoDup (enqs tr) /\ (starts tr = ends tr \/ exists i, starts tr = ends tr ++ [i]).
Proof. exact (fifo m ls s tr). Qed.
Theorem C69_once m ls s tr : run m init ls = Some (s, tr) -> NoDup (dead tr) /\ (forall i, i ∈ dead tr -> i ∈ enqs tr) /\
  (forall i, i ∈ dead tr -> i ∈ starts tr -> i ∈ ends tr).
Proof. exact (dead_once m ls s tr). Qed.
Theorem C69_gone m ls s tr : run m init ls = Some (s, tr) -> frees tr <> [] -> handles s = 0 /\ rest s /\ frees tr = [tt] /\ dead tr ≡ₚ enqs tr /\ starts tr = ends tr.
Proof. exact (gone m ls s tr). Qed.
Theorem C69_last m ls s tr tr1 tr2 : run m init ls = Some (s, tr) -> tr = tr1 ++ Freed :: tr2 -> tr2 = [].
Proof. exact (freed_last m ls s tr tr1 tr2). Qed.
(** missing: an executor that destroys a job; refuted below *)
Theorem C69_done_partial m ls s tr : run m init ls = Some (s, tr) -> rest s -> drops tr = [] ->
  starts tr = enqs tr /\ ends tr = enqs tr /\ dead tr ≡ₚ enqs tr /\ (handles s = 0 -> frees tr = [tt]).
Proof. exact (finished m ls s tr). Qed.
Theorem C69_ends m ls s tr : run m init ls = Some (s, tr) -> Acc (fun s' s => exists l ev, inner l = true /\ step m s l = Some (s', ev)) s.
Proof. exact (ends_always m ls s tr). Qed.
Theorem C69_rest m s : rest s <-> forall l, inner l = true -> step m s l = None.
Proof. exact (rest_iff m s). Qed.
(** once the executor has destroyed a job of the queue, nothing is ever executed *)
Theorem C69_drop m ls s tr ls' s' tr' : run m init ls = Some (s, tr) -> drops tr <> [] -> run m s ls' = Some (s', tr') -> starts tr' = [].
Proof. exact (after_drop m ls s tr ls' s' tr'). Qed.
Theorem C69_drop_refuted m : exists ls s tr, run m init ls = Some (s, tr) /\ rest s /\ drops tr = [tt] /\ enqs tr = [0; 1] /\ starts tr = [] /\ dead tr = [].
Proof. eexists ex_drop, _, _. split; [destruct m; vm_compute; reflexivity|]. destruct m; split_and!; done. Qed.
(** the tasks left behind are destroyed with the queue, if none of them holds it *)
Theorem C69_discarded m ls s tr : run m init ls = Some (s, tr) -> rest s -> handles s = 0 -> Forall (fun t => snd t = false) (queue s) -> frees tr = [tt] /\ dead tr ≡ₚ enqs tr.
Proof. exact (discarded m ls s tr). Qed.
Theorem C69_cycle_refuted m : exists ls s tr, run m init ls = Some (s, tr) /\ rest s /\ handles s = 0 /\ enqs tr = [0] /\ dead tr = [] /\ frees tr = [] /\ forall l, step m s l = None.
Proof.
  eexists [Enqueue true; Submit; DropJob; DropH], _, _. split; [destruct m; vm_compute; reflexivity|]. split_and!; try done. intros [[]| | | | | |[]]; done.
Qed.
Print Assumptions C69_safe.
Print Assumptions C69_order.
Print Assumptions C69_once.
Print Assumptions C69_gone.
Print Assumptions C69_last.
Print Assumptions C69_done_partial.
Print Assumptions C69_ends.
Print Assumptions C69_rest.
Print Assumptions C69_drop.
Print Assumptions C69_drop_refuted.
Print Assumptions C69_discarded.
Print Assumptions C69_cycle_refuted.

(** ** C70: what a task holds is destroyed before the next task starts: in mode all; in mode single, not *)
Theorem C70_all_partial ls s tr tr1 j tr2 : run all init ls = Some (s, tr) -> tr = tr1 ++ Started j :: tr2 -> starts tr1 = dead tr1.
Proof. exact (one_at_a_time ls s tr tr1 j tr2). Qed.
Theorem C70_single_refuted : exists ls s tr tr1 j tr2 i, run single init ls = Some (s, tr) /\ tr = tr1 ++ Started j :: tr2 /\ i ∈ starts tr1 /\ i ∉ dead tr1 /\ i ∈ dead tr2.
Proof.
  eexists ex_life, _, _, [Enqueued 0; Started 0; Enqueued 1; Ended 0], 1, [Destroyed 0; Ended 1; Destroyed 1; Freed], 0. split; [vm_compute; reflexivity|].
  split; [done|]. split; [left|]. split; [inversion 1|left].
Qed.
Print Assumptions C70_all_partial.
Print Assumptions C70_single_refuted.
