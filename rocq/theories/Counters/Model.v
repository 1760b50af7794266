(** Model of annotate and annotate_counters::wait, /repo/include/stlab/test/model.hpp:30-50, 66-78: one annotate object made by
    the explicit constructor, its copies (of copies) in any threads, and one call of wait(n) by another thread.

    Steps: an increment of a counter; the notification that follows the increment of _dtor in the destructor (72-73: two steps,
    with no mutex held); in the waiting thread, the evaluation of the predicate with the mutex held, the atomic release of the
    mutex and beginning of waiting, and the return from waiting (notified, or spuriously). The counters are destroyed by the
    thread that waits when wait has returned; using them afterwards is the event [Ub].

    Simplified: the three loads of remaining() are one step. The counters do not wrap. Not modelled: the effect of
    invoke_waiting on the pool (Verif.PoolWait); several calls of wait. *)
From Coq Require Import List Bool Arith.
From stdpp Require Import list.

(** the thread that waits; model.hpp:45-50 *)
Inductive wpc :=
  | Check                   (** 48: with the mutex, about to evaluate the predicate *)
  | Ready                   (** 48: it was false; about to wait *)
  | Blocked                 (** 48: waiting *)
  | Woken                   (** 48: about to take the mutex again *)
  | Out.                    (** 50: wait has returned *)
(** annotate_counters, model.hpp:30-41, and the threads *)
Record st := St {
  made : nat;               (** _copy_ctor + _move_ctor, 32-33 *)
  gone : nat;               (** _dtor, 31 *)
  notes : nat;              (** how many destructors are between 72 and 73 *)
  waiter : wpc;
  dead : bool               (** the counters have been destroyed *)
}.
(** what is observable; model.hpp:45-50, 66-78 *)
Inductive event := Made | Gone | Noted | Checked (b : bool) | Blocks | Returned | Ub.
(** atomic steps, model.hpp:45-50, 66-78 *)
Inductive label :=
  | Copy                    (** 77-78: copy or move of some annotate *)
  | Dtor                    (** 72 *)
  | Note                    (** 73 *)
  | Wait                    (** a step of the thread that waits *)
  | Spurious                (** a spurious wake-up *)
  | Free.                   (** the counters are destroyed after wait has returned *)

(** remaining(), model.hpp:43: how many annotate objects there are *)
Definition remaining (s : st) : nat := made s + 1 - gone s.
(** model.hpp:48 *)
Definition set_w (w : wpc) (s : st) : st := St (made s) (gone s) (notes s) w (dead s).
(** one step, for wait(n), model.hpp:45-50, 66-78 *)
Definition step (n : nat) (s : st) (l : label) : option (st * list event) :=
  match l with
  | Copy => if remaining s =? 0 then None
            else if dead s then Some (s, [Ub])
            else Some (St (S (made s)) (gone s) (notes s) (waiter s) (dead s), [Made])
  | Dtor => if remaining s =? 0 then None
            else if dead s then Some (s, [Ub])
            else Some (St (made s) (S (gone s)) (S (notes s)) (waiter s) (dead s), [Gone])
  | Note => match notes s with
            | 0 => None
            | S k => if dead s then Some (s, [Ub])
                     else Some (St (made s) (gone s) k (match waiter s with Blocked => Woken | w => w end) (dead s), [Noted])
            end
  | Wait => match waiter s with
            | Check => if remaining s =? n then Some (set_w Out s, [Checked true; Returned]) else Some (set_w Ready s, [Checked false])
            | Ready => Some (set_w Blocked s, [Blocks])
            | Blocked => None
            | Woken => Some (set_w Check s, [])
            | Out => None
            end
  | Spurious => match waiter s with Blocked => Some (set_w Woken s, []) | _ => None end
  | Free => match waiter s with
            | Out => if dead s then None else Some (St (made s) (gone s) (notes s) Out true, [])
            | _ => None
            end
  end.
(** annotate_counters and annotate, model.hpp:30-41, 68, and its k copies, 77-78; wait is being called, 45-47 *)
Definition init (k : nat) : st := St k 0 0 Check false.
(** executions: any sequence of steps *)
Fixpoint run (n : nat) (s : st) (ls : list label) : option (st * list event) :=
  match ls with
  | [] => Some (s, [])
  | l :: ls => match step n s l with
               | None => None
               | Some (s1, e1) => match run n s1 ls with None => None | Some (s2, e2) => Some (s2, e1 ++ e2) end
               end
  end.
