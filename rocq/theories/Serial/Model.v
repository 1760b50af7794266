(** Model of /repo/include/stlab/concurrency/serial_queue.hpp:39-137 (schedule_mode, serial_instance_t).

    A labelled transition system. The scopes under _m are atomic steps. Any number of threads enqueue; the
    underlying executor holds the jobs given to it and starts each at most once, at any time, on any thread
    (an executor that runs its job inside the call is the schedule in which [Begin] follows at once).
    Tasks are numbered in the order in which their enqueue scopes take the mutex. A task may itself enqueue:
    [Enqueue] is enabled at any time. The lifetime of the instance (shared_from_this in every job) is not
    represented: an instance outlives the jobs that hold it. *)
From stdpp Require Import list.

Inductive mode := single | all.                       (** serial_queue.hpp:38 *)

(** where a running job is; serial_queue.hpp:77-97 *)
Inductive pc :=
  | Begun                                             (** all() 77 / single() 89: about to take the mutex *)
  | Local (l : list nat)                              (** 82, between tasks: what is left of local_queue; [] for single *)
  | Run (i : nat) (l : list nat)                      (** 83 / 94, executing task i *)
  | Resubmit                                          (** 86 / 96, empty() returned false, _executor not yet called *)
  | Ub.                                               (** front() of an empty deque, 58 *)

(** serial_instance_t, serial_queue.hpp:46-55, with the jobs that refer to it *)
Record st := St {
  next : nat;                                         (** ghost: number of tasks enqueued so far *)
  queue : list nat;                                   (** _queue 53 *)
  running : bool;                                     (** _running 52 *)
  calling : nat;                                      (** enqueue calls between 128 and 131 that saw running = false *)
  jobs : nat;                                         (** jobs given to _executor and not started *)
  workers : list pc                                   (** jobs being executed *)
}.

(** atomic steps: serial_queue.hpp:118-128, 130-132, 102, 77-97 *)
Inductive label := Enqueue | Submit | Begin | Work (k : nat).
(** what is observable of the tasks, serial_queue.hpp:77-133 *)
Inductive event := Enqueued (i : nat) | Started (i : nat) | Ended (i : nat).

(** job k goes on, serial_queue.hpp:77-97 *)
Definition set_w (k : nat) (p : pc) (s : st) : st :=
  St (next s) (queue s) (running s) (calling s) (jobs s) (<[k := p]> (workers s)).
(** job k ends, serial_queue.hpp:77-97 *)
Definition del_w (k : nat) (s : st) : st :=
  St (next s) (queue s) (running s) (calling s) (jobs s) (take k (workers s) ++ drop (S k) (workers s)).
(** update of the state (the assignments in serial_queue.hpp:46-137) *)
Definition set_q (q : list nat) (s : st) : st :=
  St (next s) q (running s) (calling s) (jobs s) (workers s).

(** one step of job k; serial_queue.hpp:63-97 *)
Definition work (m : mode) (s : st) (k : nat) : option (st * list event) :=
  match workers s !! k with
  | None => None
  | Some Begun =>
    match m with
    | all => Some (set_w k (Local (queue s)) (set_q [] s), [])                           (* 80 *)
    | single => match queue s with                                                       (* 92 *)
                | [] => Some (set_w k Ub s, [])
                | i :: q => Some (set_w k (Run i []) (set_q q s), [Started i])
                end
    end
  | Some (Local (i :: l)) => Some (set_w k (Run i l) s, [Started i])                     (* 82-83 *)
  | Some (Run i l) => Some (set_w k (Local l) s, [Ended i])
  | Some (Local []) =>                                                                   (* empty(), 63-75 *)
    match queue s with
    | [] => Some (del_w k (St (next s) [] false (calling s) (jobs s) (workers s)), [])
    | _ => Some (set_w k Resubmit s, [])
    end
  | Some Resubmit =>                                                                     (* 86 / 96 *)
    Some (del_w k (St (next s) (queue s) (running s) (calling s) (S (jobs s)) (workers s)), [])
  | Some Ub => None
  end.

(** serial_queue.hpp:63-133 *)
Definition step (m : mode) (s : st) (l : label) : option (st * list event) :=
  match l with
  | Enqueue =>                                                                           (* 119-128 *)
    Some (St (S (next s)) (queue s ++ [next s]) true (if running s then calling s else S (calling s)) (jobs s) (workers s),
          [Enqueued (next s)])
  | Submit =>                                                                            (* 130-132 *)
    match calling s with
    | 0 => None
    | S c => Some (St (next s) (queue s) (running s) c (S (jobs s)) (workers s), [])
    end
  | Begin =>                                                                             (* the executor starts a job; 102 *)
    match jobs s with
    | 0 => None
    | S j => Some (St (next s) (queue s) (running s) (calling s) j (workers s ++ [Begun]), [])
    end
  | Work k => work m s k
  end.

(** executions: any sequence of steps (serial_queue.hpp:46-137) *)
Fixpoint run (m : mode) (s : st) (ls : list label) : option (st * list event) :=
  match ls with
  | [] => Some (s, [])
  | l :: ls => match step m s l with
               | None => None
               | Some (s1, e1) => match run m s1 ls with None => None | Some (s2, e2) => Some (s2, e1 ++ e2) end
               end
  end.
(** a new instance, serial_queue.hpp:135-136 *)
Definition init : st := St 0 [] false 0 0 [].
