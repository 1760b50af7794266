(** Model of the reports of a progress_tracker: /repo/include/stlab/concurrency/progress.hpp:18-41 (tracker_server with the
    function _signal) and 75-80 (tracker_client::operator()).

    Any number of threads. The operations on the atomic counters are steps; the two arguments of _signal are read one after the
    other, in the order the compiler has chosen (the standard leaves it open), here: any, for each call. The beginning and the
    end of a call of _signal are steps.

    Simplified: what happens to the tracked functions enters by its effect on _task_number (Verif.Progress, C53, has the
    details). _done_tasks does not wrap: there are fewer than 2^64 invocations. Not modelled: a _signal that throws (then the
    result of the tracked function is lost: 76-79). *)
From Coq Require Import List Bool Arith ZArith.
From stdpp Require Import list.

(** where a thread in task_done is, progress.hpp:27-32 *)
Inductive pc :=
  | Args (n : option Z) (d : option nat)  (** 30: about to call _signal; steps(), completed() have been read, or not *)
  | Call.                                 (** 30: in _signal *)
(** progress.hpp:19-20, and the threads; an invocation is numbered by its increment of _done_tasks *)
Record st := St {
  steps : Z;                              (** _task_number *)
  completed : nat;                        (** _done_tasks *)
  calls : list (nat * pc)
}.
(** what is observable of a progress_tracker, progress.hpp:18-41, 75-80 *)
Inductive event :=
  | Added | Gone                          (** a tracked function is made, 36, or destroyed, 34 *)
  | Done (i : nat)                        (** an invocation has returned and is counted, 28; it is number i *)
  | Report (i : nat) (n : Z) (d : nat)    (** _signal is called for invocation i with n steps, d of them completed *)
  | Reported (i : nat).                   (** and has returned *)
(** atomic steps: progress.hpp:36, 34, 28; a read of an argument, the call, its end, 30 *)
Inductive label := Add | Drop | Finish | ReadSteps (k : nat) | ReadCompleted (k : nat) | Signal (k : nat) | End (k : nat).

(** std::size_t, progress.hpp:19-20 *)
Definition wrap (x : Z) : Z := (x mod 2 ^ 64)%Z.
(** the thread goes on, progress.hpp:27-32 *)
Definition put (k i : nat) (p : pc) (s : st) : st := St (steps s) (completed s) (<[k := (i, p)]> (calls s)).
(** one step, progress.hpp:27-40 *)
Definition step (s : st) (l : label) : option (st * list event) :=
  match l with
  | Add => Some (St (wrap (steps s + 1)) (completed s) (calls s), [Added])
  | Drop => Some (St (wrap (steps s - 1)) (completed s) (calls s), [Gone])
  | Finish => Some (St (steps s) (S (completed s)) (calls s ++ [(completed s, Args None None)]), [Done (completed s)])
  | ReadSteps k =>
    match calls s !! k with Some (i, Args None d) => Some (put k i (Args (Some (steps s)) d) s, []) | _ => None end
  | ReadCompleted k =>
    match calls s !! k with Some (i, Args n None) => Some (put k i (Args n (Some (completed s))) s, []) | _ => None end
  | Signal k =>
    match calls s !! k with Some (i, Args (Some n) (Some d)) => Some (put k i Call s, [Report i n d]) | _ => None end
  | End k =>
    match calls s !! k with Some (i, Call) => Some (St (steps s) (completed s) (delete k (calls s)), [Reported i]) | _ => None end
  end.
(** progress_tracker(f), progress.hpp:90-91 *)
Definition init : st := St 0 0 [].
(** executions: any sequence of steps *)
Fixpoint run (s : st) (ls : list label) : option (st * list event) :=
  match ls with
  | [] => Some (s, [])
  | l :: ls => match step s l with
               | None => None
               | Some (s1, e1) => match run s1 ls with None => None | Some (s2, e2) => Some (s2, e1 ++ e2) end
               end
  end.
