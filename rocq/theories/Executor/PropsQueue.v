(** C23: the task queue of the portable pool. *)
From Coq Require Import ZArith List.
From stdpp Require Import list.
From Verif.Executor Require Import Queue QueueSpec QueueProof.

(** Whatever element a conforming heap implementation puts at the front, the results of the pops are those of the
    stable priority queue of QueueSpec.v, while at most 2^62 tasks have been pushed. *)
Theorem C23_priority_fifo {A} (os : list (qop A)) q out : valid os -> (Z.of_nat (length (pushed os)) <= 2 ^ 62)%Z ->
  qrun nq0 os = Some (q, out) -> exists l, serves [] os out l /\ l.*2 = (items q).*2.
Proof. exact (qrun_spec os q out). Qed.
(** Nothing is lost or duplicated. *)
Theorem C23_conservation {A} (os : list (qop A)) q out : valid os -> (Z.of_nat (length (pushed os)) <= 2 ^ 62)%Z ->
  qrun nq0 os = Some (q, out) -> pushed os ≡ₚ out ++ (items q).*2.
Proof. exact (conserve os q out). Qed.
(** A pop from a queue that is not empty succeeds. *)
Theorem C23_pop_enabled {A} (q : nq A) : is_empty q = false -> exists k r, pop_at k q = Some r.
Proof. exact (pop_enabled q). Qed.
(** The bound is exact: with 2^62 + 1 pushes a medium-priority task overtakes a high-priority one. *)
Theorem C23_bound_tight : exists (os : list (qop nat)) q out, valid os /\
  Z.of_nat (length (pushed os)) = (2 ^ 62 + 1)%Z /\ qrun nq0 os = Some (q, out) /\ ~ exists l, serves [] os out l.
Proof. exact tight. Qed.

(** Three priorities, interleaved: of [2] and [0; 3] the earliest high one goes first. *)
Definition C23_ops : list (qop nat) := [Push 1 2; Push 0 0; Push 0 3; Pop 1; Push 2 7; Pop 1; Pop 0].
Example C23_ex : valid C23_ops /\ (Z.of_nat (length (pushed C23_ops)) <= 2 ^ 62)%Z /\
  exists q, qrun nq0 C23_ops = Some (q, [0; 3; 2]) /\ (items q).*2 = [7].
Proof.
  split; [repeat constructor|split; [vm_compute; discriminate|]]. eexists. split; [vm_compute; reflexivity|]. reflexivity.
Qed.
(** ... and no other choice of the front element is allowed. *)
Example C23_ex_forced : qrun nq0 [Push 1 2; Push 0 0; Push 0 3; Pop 2] = None /\ qrun nq0 [Push 1 2; Push 0 0; Push 0 3; Pop 0] = None.
Proof. split; reflexivity. Qed.

Print Assumptions C23_priority_fifo.
Print Assumptions C23_conservation.
Print Assumptions C23_pop_enabled.
Print Assumptions C23_bound_tight.
