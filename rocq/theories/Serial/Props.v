(** C26, C27: the serial queue. *)
From stdpp Require Import list.
From Verif.Serial Require Import Model Proof.

(** Between the starts of two tasks the first one has ended, in every execution, in both modes. *)
Theorem C26_no_overlap m ls s es i es1 es2 es3 j : run m init ls = Some (s, es) ->
  es = es1 ++ Started i :: es2 ++ Started j :: es3 -> Ended i ∈ es2.
Proof. exact (exclusion m ls s es i es1 es2 es3 j). Qed.
(** In the state: the queue has at most one job anywhere, be it about to be submitted, held by the executor or running. *)
Theorem C26_one_job m ls s es : run m init ls = Some (s, es) -> calling s + jobs s + length (workers s) <= 1.
Proof. exact (workers_le_1 m ls s es). Qed.

(** FIFO and at most once: the tasks started are an initial part of the tasks enqueued (all distinct), in that order. *)
Theorem C27_fifo m ls s es : run m init ls = Some (s, es) -> enqs es = seq 0 (next s) /\ starts es `prefix_of` enqs es.
Proof. exact (fifo m ls s es). Qed.
(** Nothing is stranded. *)
Theorem C27_none_stranded m ls s es : run m init ls = Some (s, es) -> calling s = 0 -> jobs s = 0 -> workers s = [] ->
  starts es = enqs es /\ ends es = enqs es.
Proof. exact (none_stranded m ls s es). Qed.
(** With an unfinished task there is a step to take (a job to submit, to start, or to continue, or a task to finish), *)
Theorem C27_progress m ls s es : run m init ls = Some (s, es) -> ends es <> enqs es ->
  exists l s' e, l <> Enqueue /\ step m s l = Some (s', e).
Proof. exact (progress m ls s es). Qed.
(** ... and only boundedly many can be taken without a new enqueue. *)
Theorem C27_bounded m ls1 s1 es1 ls2 s2 es2 : run m init ls1 = Some (s1, es1) -> Forall (fun l => l <> Enqueue) ls2 ->
  run m s1 ls2 = Some (s2, es2) -> length ls2 <= 6 * (length (enqs es1) - length (ends es1)) + 5.
Proof. exact (bounded_final m ls1 s1 es1 ls2 s2 es2). Qed.
(** single() never pops an empty queue. *)
Theorem C27_no_ub m ls s es : run m init ls = Some (s, es) -> Ub ∉ workers s.
Proof. exact (no_ub m ls s es). Qed.

(** Two tasks, a third enqueued while the first runs, and a fourth in the window between the last task and empty(). *)
Definition C26_labels : list label :=
  [Enqueue; Enqueue; Submit; Begin; Work 0; Work 0; Enqueue; Work 0].
Example C26_ex_all : exists s, run all init C26_labels =
  Some (s, [Enqueued 0; Enqueued 1; Started 0; Enqueued 2; Ended 0]) /\ queue s = [2] /\ workers s = [Local [1]].
Proof. eexists. split; [vm_compute; reflexivity|]. vm_compute. auto. Qed.
Example C26_ex_single : exists s, run single init (C26_labels ++ [Work 0; Begin; Work 0]) =
  Some (s, [Enqueued 0; Enqueued 1; Started 0; Ended 0; Enqueued 2; Started 1]) /\ queue s = [2].
Proof. eexists. split; [vm_compute; reflexivity|]. vm_compute. auto. Qed.
Example C27_ex_quiet : exists s es, run all init [Enqueue; Enqueue; Submit; Begin; Work 0; Work 0; Work 0; Work 0; Work 0; Enqueue;
    Work 0; Work 0; Begin; Work 0; Work 0; Work 0; Work 0] = Some (s, es) /\
  calling s = 0 /\ jobs s = 0 /\ workers s = [] /\ enqs es = [0; 1; 2] /\ ends es = [0; 1; 2].
Proof. do 2 eexists. split; [vm_compute; reflexivity|]. vm_compute. auto. Qed.

Print Assumptions C26_no_overlap.
Print Assumptions C26_one_job.
Print Assumptions C27_fifo.
Print Assumptions C27_none_stranded.
Print Assumptions C27_progress.
Print Assumptions C27_bounded.
Print Assumptions C27_no_ub.
