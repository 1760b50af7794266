(** C79: the sizes of the portable pool. [m]: STLAB_TASK_POOL_MAXIMUM(), 0 if there is none; [h]:
    std::thread::hardware_concurrency(). *)
From Coq Require Import ZArith Bool.
From Verif.Executor Require Import Sizes SizesProof.
Local Open Scope Z_scope.

(** At least one thread, each with its queue; room for further ones; an odd number of threads at most; not more than the
    machine has, nor than the maximum; and, if there is no maximum, one less than the machine has, and at most more than four
    times as many as it has. *)
Theorem C79_sizes m h p : 0 <= m < 2 ^ 32 -> 0 <= h < 2 ^ 30 -> pool m h = Some p ->
  1 <= queues p /\ threads p = queues p /\ 0 < waiters p /\ threads p + waiters p < 2 ^ 32 /\
  (threads p + waiters p) mod 2 = 1 /\ (0 < h -> threads p <= h) /\ (0 < m -> threads p <= m) /\
  (m = 0 -> 1 < h -> threads p = h - 1 /\ 4 * h < threads p + waiters p).
Proof. exact (pool_sizes m h p). Qed.
(** Undefined behaviour exactly if there is a maximum and the number of cores is not known. *)
Theorem C79_defined m h : pool m h = None <-> 0 < m /\ h < 1.
Proof. exact (pool_defined m h). Qed.
(** The standard lets hardware_concurrency() return 0. *)
Theorem C79_unknown_refuted : exists m h, 0 <= h < 2 ^ 32 /\ pool m h = None.
Proof. exists 4, 0. split; [split; [discriminate|reflexivity]|vm_compute; reflexivity]. Qed.
(** README.md:80 says that the maximum is the maximum number of threads in the pool, and that without one the pool has
    hardware_concurrency() threads. With STLAB_TASK_POOL_MAXIMUM=1 there can be nine threads that execute tasks (if tasks
    await), and without a maximum there is one less than said, or more. *)
Theorem C79_maximum_refuted : exists h p, pool 1 h = Some p /\ threads p + waiters p = 9.
Proof. exists 8. eexists. split; [vm_compute; reflexivity|]. reflexivity. Qed.
Theorem C79_default_refuted : exists h p, pool 0 h = Some p /\ threads p < h < threads p + waiters p.
Proof. exists 8. eexists. split; [vm_compute; reflexivity|]. split; reflexivity. Qed.
Example C79_ex : pool 0 8 = Some (Sizes 7 7 26) /\ pool 4 8 = Some (Sizes 3 3 14) /\ pool 0 0 = Some (Sizes 1 1 8).
Proof. repeat split; vm_compute; reflexivity. Qed.

Print Assumptions C79_sizes.
Print Assumptions C79_defined.
Print Assumptions C79_unknown_refuted.
Print Assumptions C79_maximum_refuted.
Print Assumptions C79_default_refuted.
