(** stlab::scope (scope.hpp): a function is called while an object of type T exists, for T a lock guard of a mutex.

    Programs are what several threads execute; between calls of [scope] they do things that are not interpreted. What a
    function does after a call of [scope] depends on the outcome, also if it is an exception (which may be caught). *)
From Coq Require Import List.
From stdpp Require Import list.

(** how a function ends: with a result or an exception; scope.hpp:34 *)
Inductive outcome := Value (v : nat) | Thrown (e : nat).
(** what is left of a function: it ends; does something; calls scope<T>(m, f), scope.hpp:43-55; if [x] is Some e the
    constructor of T throws e, 28 *)
Inductive cmd :=
  | End (r : outcome)
  | Do (a : nat) (c : cmd)
  | Scope (m : nat) (x : option nat) (f : cmd) (k : outcome -> cmd).
(** a thread: the function being executed, and for each call of scope in progress the mutex of [scoped] (scope.hpp:28, 52) and
    what the caller does next; innermost first *)
Record thread := Thread { now : cmd; frames : list (nat * (outcome -> cmd)) }.
(** all threads; mutexes are held by the lock guards in the frames (scope.hpp:28-34, 51-55) *)
Notation sys := (list thread).
(** the constructor of [scoped] returns, scope.hpp:28, 52; something is done; the destructor of [scoped] has run, 35, 54 *)
Inductive event := Enter (m : nat) | Did (a : nat) | Leave (m : nat).

(** the mutex is locked: some [scoped] has locked it (scope.hpp:28, 52) *)
Definition locked (s : sys) (m : nat) : bool :=
  existsb (fun t => existsb (fun f => f.1 =? m) (frames t)) s.

(** one step of a thread, scope.hpp:27-35, 51-55; None if it has ended or must wait for the mutex *)
Definition thread_step (s : sys) (t : thread) : option (thread * list event) :=
  match now t with
  | Do a c => Some (Thread c (frames t), [Did a])
  | Scope m None f k => if locked s m then None else Some (Thread f ((m, k) :: frames t), [Enter m])
  | Scope m (Some e) f k => Some (Thread (k (Thrown e)) (frames t), [])        (* nothing was constructed: no destructor *)
  | End r => match frames t with
             | [] => None
             | (m, k) :: fs => Some (Thread (k r) fs, [Leave m])                 (* 34-35: the result, then ~T *)
             end
  end.
(** thread i makes a step; scope.hpp:27-55 *)
Definition step (s : sys) (i : nat) : option (sys * list (nat * event)) :=
  match s !! i with
  | None => None
  | Some t => match thread_step s t with
              | None => None
              | Some (t', e) => Some (<[i := t']> s, map (pair i) e)
              end
  end.
(** executions: threads take turns in any order (scope.hpp:27-55) *)
Fixpoint run (s : sys) (is : list nat) : option (sys * list (nat * event)) :=
  match is with
  | [] => Some (s, [])
  | i :: is => match step s i with
               | None => None
               | Some (s1, e1) => match run s1 is with None => None | Some (s2, e2) => Some (s2, e1 ++ e2) end
               end
  end.
(** threads that have yet to begin; none is within a call of scope (scope.hpp:27-55) *)
Definition init (cs : list cmd) : sys := map (fun c => Thread c []) cs.
