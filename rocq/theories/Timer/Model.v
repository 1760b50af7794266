(** Model of the portable system timer, /repo/include/stlab/concurrency/system_timer.hpp:209-281.

    A labelled transition system. The critical sections of _timed_queue_mutex are atomic steps; so is
    re-acquiring the mutex after a wait together with the tests made before it is released again. The
    condition variable has one waiter (the timer thread), which carries a [notified] flag: a wait ends
    when notified, when wait_until's time is reached, or spuriously at any time. The clock is a step of
    its own, and time points are unbounded integers (no overflow of the clock's representation).
    std::push_heap/pop_heap (243, 278) are represented by the standard's contract: front() is an element
    than which no other is earlier -- *which* of several equally early ones is left open ([Check]'s index).
    The payload type [A] stands for the task. *)
From Coq Require Import ZArith List Bool.
From stdpp Require Import list.
Open Scope Z_scope.

Section model.
Context {A : Type}.

Record entry := Entry { due : Z; ident : nat; payload : A }.  (** element_t 210; the number is ghost *)

(** where the timer thread (timed_queue_run 229-250) is *)
Inductive pc :=
  | Top                                    (** before lock_t lock, 233 *)
  | WaitEmpty (notified : bool)            (** in _condition.wait, 236 *)
  | WaitUntil (w : Z) (notified : bool)    (** in _condition.wait_until, 240 *)
  | Running (e : entry)                    (** task(), 248, mutex not held *)
  | Exited                                 (** returned, 237 or 241 *)
  | Ub.                                    (** front() of an empty queue *)

(** system_timer, system_timer.hpp:209-228, with the clock, a ghost number for the tasks and the thread *)
Record st := St {
  now : Z; next : nat; queue : list entry; stop : bool; thr : pc
}.

(** atomic steps, system_timer.hpp:229-280 *)
Inductive label :=
  | Tick (n : nat)                         (** the clock advances *)
  | Submit (d : Z) (a : A)                 (** operator()(duration, f), 272-280 *)
  | Check (spurious : bool) (k : nat)      (** the timer thread acquires the mutex, and evaluates 235-245 *)
  | Finish                                 (** the running task returns *)
  | StopSet                                (** ~system_timer 257-261 *)
  | StopNotify.                            (** 262 *)

(** what is observable of the timer, system_timer.hpp:229-280 *)
Inductive event :=
  | Submitted (i : nat) (d t : Z)          (** task i was submitted at t, due at d *)
  | Started (i : nat) (t : Z)
  | Finished (i : nat)
  | Stopped
  | ThreadEnded.

(** system_timer.hpp:262, 280 *)
Definition notify (p : pc) : pc :=         (** _condition.notify_one *)
  match p with WaitEmpty _ => WaitEmpty true | WaitUntil w _ => WaitUntil w true | p => p end.

(** the order of the heap, system_timer.hpp:210-222, 243 *)
Definition minimal (d : Z) (q : list entry) : bool := forallb (fun e => d <=? due e) q.

(** 235-245, under the mutex. The queue is known to be non-empty after line 237. *)
Definition evaluate (s : st) (k : nat) : option (st * list event) :=
  if stop s then Some (St (now s) (next s) (queue s) true Exited, [ThreadEnded])
  else match queue s with
       | [] => match thr s with
               | WaitUntil _ _ => Some (St (now s) (next s) [] false Ub, [])
               | _ => Some (St (now s) (next s) [] false (WaitEmpty false), [])
               end
       | q => match q !! k with
              | None => None
              | Some e =>
                if minimal (due e) q then
                  if now s <? due e then Some (St (now s) (next s) q false (WaitUntil (due e) false), [])
                  else Some (St (now s) (next s) (take k q ++ drop (S k) q) false (Running e), [Started (ident e) (now s)])
                else None
              end
       end.

(** system_timer.hpp:229-280, one step *)
Definition step (s : st) (l : label) : option (st * list event) :=
  match l with
  | Tick n => Some (St (now s + Z.of_nat n) (next s) (queue s) (stop s) (thr s), [])
  | Submit d a =>
    let e := Entry (now s + d) (next s) a in
    Some (St (now s) (S (next s)) (queue s ++ [e]) (stop s) (notify (thr s)), [Submitted (next s) (now s + d) (now s)])
  | Check spurious k =>
    match thr s with
    | Top => evaluate s k
    | WaitEmpty n => if n || spurious then evaluate s k else None
    | WaitUntil w n => if n || spurious || (w <=? now s) then evaluate s k else None
    | _ => None
    end
  | Finish => match thr s with
              | Running e => Some (St (now s) (next s) (queue s) (stop s) Top, [Finished (ident e)])
              | _ => None
              end
  | StopSet => if stop s then None else Some (St (now s) (next s) (queue s) true (thr s), [Stopped])
  | StopNotify => if stop s then Some (St (now s) (next s) (queue s) true (notify (thr s)), []) else None
  end.

(** executions: any sequence of steps (system_timer.hpp:209-281) *)
Fixpoint run (s : st) (ls : list label) : option (st * list event) :=
  match ls with
  | [] => Some (s, [])
  | l :: ls => match step s l with
               | None => None
               | Some (s1, e1) => match run s1 ls with None => None | Some (s2, e2) => Some (s2, e1 ++ e2) end
               end
  end.

(** system_timer(), 253-255: the thread starts with an empty queue *)
Definition init (t : Z) : st := St t 0 [] false Top.
End model.
Arguments entry : clear implicits.
Arguments pc : clear implicits.
Arguments st : clear implicits.
Arguments label : clear implicits.
