(** C21: task<> manages the callables stored in it. *)
From stdpp Require Import gmap.
From Verif.Task Require Import Model Spec Proof.

(** No history without self-move-assignment or self-swap reaches undefined behaviour, and afterwards every task
    that holds function v invokes v and tests true, every empty one throws and tests false, and the task objects are
    those that should exist. One moved from tests true and invokes the moved-from function if that was stored inline; else
    it tests false and invoking it is undefined (it does not throw). *)
Theorem C21_behaviour {V} (os : list (op V)) : history ∅ os -> exists s, run init os = Ok s /\
  (forall t, arun ∅ os !! t = None <-> tasks s !! t = None) /\
  (forall t c, arun ∅ os !! t = Some c -> match c with
    | Empty => invoke t s = Ok Threw /\ to_bool t s = Ok false
    | Holds _ v => invoke t s = Ok (Called v) /\ to_bool t s = Ok true
    | Moved true => invoke t s = Ok CalledMoved /\ to_bool t s = Ok true
    | Moved false => invoke t s = UB /\ to_bool t s = Ok false end).
Proof. exact (history_ok os). Qed.

(** No callable object is destroyed twice; a destroyed one is no longer alive; one not yet destroyed belongs to a live
    task; and when all tasks are gone every callable ever constructed has been destroyed exactly once. *)
Theorem C21_lifetime {V} (os : list (op V)) s : history ∅ os -> run init os = Ok s -> NoDup (dead s) /\
  (forall o, o ∈ dead s -> objs s !! o = None /\ o < nobj s) /\
  (forall o, o < nobj s -> o ∉ dead s -> exists t x, tasks s !! t = Some x /\ own x = Some o) /\
  (arun ∅ os = ∅ -> dead s ≡ₚ seq 0 (nobj s)).
Proof. exact (lifetime os s). Qed.

(** The excluded histories are undefined behaviour, always. *)
Theorem C21_self_move_assign_is_ub {V} (os : list (op V)) s t b v : history ∅ os -> run init os = Ok s ->
  arun ∅ os !! t = Some (Holds b v) -> assign t t s = UB.
Proof. exact (self_assign_ub os s t b v). Qed.
Theorem C21_self_swap_is_ub {V} (os : list (op V)) s t b v : history ∅ os -> run init os = Ok s ->
  arun ∅ os !! t = Some (Holds b v) -> swap t t s = UB.
Proof. exact (self_swap_ub os s t b v). Qed.

Definition C21_ops : list (op nat) :=
  [Ctor 0 true 10; Ctor 1 false 20; CtorMove 2 0; Swap 1 2; Assign 0 1; AssignFn 2 false 30; CtorEmpty 3; AssignNull 1;
   Destroy 0; Destroy 1; Destroy 2; Destroy 3].
Example C21_ex : history ∅ C21_ops /\ (arun ∅ C21_ops !! 0) = None /\
  exists s, run init C21_ops = Ok s /\ dead s = [2; 0; 1; 3; 4; 5] /\ nobj s = 6.
Proof.
  split; [|split].
  - vm_compute. repeat split; eauto; try discriminate.
  - vm_compute. reflexivity.
  - eexists. split; [vm_compute; reflexivity|]. auto.
Qed.
Example C21_ex_self : history ∅ [Ctor 0 true 10] /\ exists s, run init [Ctor 0 true 10] = Ok s /\ assign 0 0 s = UB.
Proof. split; [vm_compute; auto|]. eexists. split; [vm_compute; reflexivity|]. vm_compute. reflexivity. Qed.

Print Assumptions C21_behaviour.
Print Assumptions C21_lifetime.
Print Assumptions C21_self_move_assign_is_ub.
Print Assumptions C21_self_swap_is_ub.
