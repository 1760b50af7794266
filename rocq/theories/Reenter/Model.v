(** Model of what cancelling the arguments of when_all and when_any sets off while the context's mutex is held:
    /repo/include/stlab/concurrency/future.hpp, when_all_shared::failure (1087-1099), attach_when_arg_ (1216-1231),
    single_trigger (1423-1440), attach_tasks (1503-1518); the destruction of a state and of what its task owns (promise,
    576-581; packaged_task, 656-662); the continuations of a state that becomes ready (386-398, 1638-1648).

    One call, with arguments 0, 1, ...; its contexts and their critical sections are those of Verif.When. New here is that the
    mutex is a state of its own, and that resetting a hold destroys the argument's task, if it has not been started and
    nothing else keeps it, with the promises that the task owns. Such a promise may be that of another argument: that argument
    becomes ready, with the exception broken_promise, and its continuation is handed to the executor of the call, in the same
    thread, which holds the mutex. An immediate executor executes it there and then.

    Simplified: what a task owns is given as the list of the arguments whose promises are broken, in order, when the task is
    destroyed (including what those promises' own tasks own in turn). The call of _f is counted; what it executes is not
    modelled (it is called after the mutex has been released, except in when_any_shared<S, void>::failure, 1157-1167, where all
    arguments have arrived by then). The result is not dropped. *)
From Coq Require Import List Bool NArith.
From stdpp Require Import list.
From Verif.When Require Import Model.

(** an argument and its hold; future.hpp:1068, 1479 *)
Inductive slot :=
  | Absent (o : option outcome)   (** not attached yet; perhaps ready *)
  | Held                          (** attached, and not ready *)
  | Queued (o : outcome)          (** ready, its continuation handed to an executor that has not executed it yet *)
  | Done                          (** its continuation has been started *)
  | Cut.                          (** its hold has been reset before that *)

(** the context; future.hpp:1064-1071, 1102-1112, 1150-1155, 1475-1480 *)
Record st := St {
  slots : list slot;              (** _holds *)
  own : list (list nat);          (** of each argument: the promises that its task, not started, owns *)
  con : ctx;                      (** the other members *)
  locked : bool;                  (** _guard *)
  calls : nat                     (** calls of _f *)
}.
(** when_all, when_any with n arguments before the first is attached; future.hpp:1255-1258, 1273-1277, 1529-1532 *)
Definition st0 (n : nat) (own : list (list nat)) : st := St (replicate n (Absent None)) own (ctx0 n) false 0.

Inductive res :=
  | Fine (s : st)
  | Stuck (k : nat)               (** the continuation of argument k locks the mutex that its own thread holds: std::mutex::lock, undefined *)
  | Fuel.

(** what each of l does, one after the other, until one of them does not return; the loops 1092-1093, 1430-1432, 395-397 *)
Fixpoint each (f : st -> nat -> res) (l : list nat) (s : st) : res :=
  match l with
  | [] => Fine s
  | k :: l => match f s k with Fine s => each f l s | r => r end
  end.
(** updates *)
Definition put (k : nat) (x : slot) (s : st) : st := St (<[k := x]> (slots s)) (own s) (con s) (locked s) (calls s).
Definition disown (k : nat) (s : st) : st := St (slots s) (<[k := []]> (own s)) (con s) (locked s) (calls s).
Definition take (s : st) : st := St (slots s) (own s) (con s) true (calls s).

(** whether the critical section resets the holds; future.hpp:1091, 1429 *)
Definition resets (v : variant) (o : outcome) (c : ctx) : bool :=
  match v, o with
  | PackAll, Exc _ => match exc c with None => true | Some _ => false end
  | RangeAll, Exc _ | RangeAny, Val _ => negb (single c)
  | _, _ => false
  end.
(** which, in order; future.hpp:1092, 1430-1431 *)
Definition targets (v : variant) (i n : nat) : list nat :=
  match v with PackAll => seq 0 n | _ => filter (fun j => j <> i) (seq 0 n) end.

(** broken_promise, future.hpp:579, 660 *)
Definition broken : outcome := Exc 0.
(** the promise of argument k is destroyed; ~promise, 576-581, ~packaged_task, 656-662, _set_exception, 386-398. [run] is what
    an immediate executor does with the continuation. A state without its hold is gone: the promise has expired *)
Definition break (run : st -> nat -> outcome -> res) (imm : bool) (s : st) (k : nat) : res :=
  match slots s !! k with
  | Some Held => if imm then run (put k Done s) k broken else Fine (put k (Queued broken) s)
  | Some (Absent None) => Fine (put k (Absent (Some broken)) s)
  | _ => Fine s
  end.
(** h.reset(), future.hpp:1093, 1431. Of an argument that has arrived nothing is left that a reset would change *)
Definition reset (run : st -> nat -> outcome -> res) (imm : bool) (s : st) (j : nat) : res :=
  match slots s !! j with
  | Some Held => each (break run imm) (own s !!! j) (disown j (put j Cut s))
  | Some (Queued _) => Fine (put j Cut s)
  | _ => Fine s
  end.
(** the continuation of argument i, its slot being Done: failure and done of the contexts, future.hpp:1074-1099, 1114-1138,
    1157-1180, 1424-1472, 1491-1498 *)
Fixpoint enter (fuel : nat) (v : variant) (imm : bool) (s : st) (i : nat) (o : outcome) : res :=
  match fuel with
  | 0 => Fuel
  | S fuel =>
    if locked s then Stuck i                                                            (* lock{_guard} *)
    else
      match (if resets v o (con s) then each (reset (enter fuel v imm) imm) (targets v i (length (slots s))) (take s)
             else Fine (take s)) with
      | Fine s =>
        let '(c, run) := arrive v i o (con s) in
        Fine (St (slots s) (own s) c false (if run then S (calls s) else calls s))      (* unlock; if (run) _f() *)
      | r => r
      end
  end.
Definition enough := 2.

(** what may happen, in any thread, and in any order *)
Inductive label :=
  | Attach (i : nat)              (** the calling thread attaches argument i; future.hpp:1218-1230, 1505-1517 *)
  | Start (i : nat)               (** the task of argument i is started: it is not destroyed with its hold any more, 671-676 *)
  | Ready (i : nat) (o : outcome) (** argument i becomes ready, by its own task or promise; 386-398, 1638-1655 *)
  | Exec (i : nat).               (** the executor executes the continuation of argument i *)

(** imm: the executor of the call is immediate_executor *)
Definition step (v : variant) (imm : bool) (s : st) (l : label) : res :=
  match l with
  | Attach i =>                                                                         (* recover, 344-362 *)
    match slots s !! i with
    | Some (Absent None) => Fine (put i Held s)
    | Some (Absent (Some o)) => if imm then enter enough v imm (put i Done s) i o else Fine (put i (Queued o) s)
    | _ => Fine s
    end
  | Start i => Fine (disown i s)
  | Ready i o =>
    match slots s !! i with
    | Some Held => if imm then enter enough v imm (disown i (put i Done s)) i o else Fine (disown i (put i (Queued o) s))
    | Some (Absent None) => Fine (disown i (put i (Absent (Some o)) s))
    | _ => Fine s
    end
  | Exec i =>
    match slots s !! i with
    | Some (Queued o) => enter enough v imm (put i Done s) i o
    | _ => Fine s                                                                       (* packaged_task: expired, 672 *)
    end
  end.
Fixpoint run (v : variant) (imm : bool) (s : st) (ls : list label) : res :=
  match ls with
  | [] => Fine s
  | l :: ls => match step v imm s l with Fine s => run v imm s ls | r => r end
  end.
