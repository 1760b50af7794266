(** Model of the lifetime of a serial queue and of its tasks: /repo/include/stlab/concurrency/serial_queue.hpp:47-160.

    Like Verif.Serial, but with the references that keep the instance alive (shared_from_this in every job, _impl in the
    queue and in every executor obtained from it), the destruction of each task, tasks that hold an executor of the queue
    themselves, and an underlying executor that may destroy a job without executing it. The scopes under _m are atomic steps;
    so is the destruction of a task, and the release of a reference.

    Simplified: a call of an executor holds a reference of its own (the caller must keep the executor alive meanwhile, and
    does so by this reference); an executor is called by somebody who holds one, or by a task that does, while it executes. *)
From Coq Require Import List Bool Arith.
From stdpp Require Import list.

Inductive mode := single | all.                       (** serial_queue.hpp:38 *)
(** number, and whether the callable holds an executor of this queue; task<void() noexcept>, serial_queue.hpp:48 *)
Definition task : Type := nat * bool.
(** where a job is that the executor executes; serial_queue.hpp:77-97 *)
Inductive pc :=
  | Begun                                             (** all() 77, single() 89: about to take the mutex *)
  | Local (l : list task)                             (** all: 82; what is left of local_queue *)
  | Run (t : task) (l : list task)                    (** 83, 94: executing t *)
  | Kill (t : task) (l : list task)                   (** all: 83, the temporary is about to be destroyed *)
  | After (t : task)                                  (** single: 96; f is still there *)
  | Resubmit (o : option task)                        (** 86, 96: empty() returned false, _executor not yet called *)
  | Leave (o : option task).                          (** about to leave all() or single(): f is destroyed, then the job and its _this *)
(** serial_instance_t, serial_queue.hpp:46-55, with what refers to it, 86, 96, 131, 146-157 *)
Record st := St {
  next : nat;                                         (** ghost: number of tasks enqueued so far *)
  queue : list task;                                  (** _queue, 53; kept as it was when the instance is destroyed *)
  running : bool;                                     (** _running, 52 *)
  handles : nat;                                      (** serial_queue_t objects and executors outside of tasks *)
  refs : nat;                                         (** use count of the instance *)
  calling : nat;                                      (** enqueue calls between 128 and 131 that saw running = false *)
  jobs : nat;                                         (** jobs given to _executor and not started *)
  workers : list pc;
  freed : bool;                                       (** the instance is destroyed *)
  bad : bool                                          (** undefined behaviour: the instance used when destroyed, or front() of an empty deque *)
}.
(** atomic steps: serial_queue.hpp:118-133, 77-102, copies and destruction of 145-159 *)
Inductive label := Enqueue (c : bool) | CopyH | DropH | Submit | Begin | DropJob | Work (k : nat).
(** what is observable of the tasks and the instance, serial_queue.hpp:46-159 *)
Inductive event := Enqueued (i : nat) | Started (i : nat) | Ended (i : nat) | Destroyed (i : nat) | JobDropped | Freed.

(** update of the state (the assignments in serial_queue.hpp:46-137) *)
Definition set_q (q : list task) (b : bool) (s : st) : st :=
  St (next s) q b (handles s) (refs s) (calling s) (jobs s) (workers s) (freed s) (bad s).
(** update of the state (the assignments in serial_queue.hpp:46-137) *)
Definition set_next (n : nat) (s : st) : st :=
  St n (queue s) (running s) (handles s) (refs s) (calling s) (jobs s) (workers s) (freed s) (bad s).
(** update of the state (the assignments in serial_queue.hpp:46-137) *)
Definition set_h (h : nat) (s : st) : st :=
  St (next s) (queue s) (running s) h (refs s) (calling s) (jobs s) (workers s) (freed s) (bad s).
(** update of the state (the assignments in serial_queue.hpp:46-137) *)
Definition set_r (r : nat) (f : bool) (s : st) : st :=
  St (next s) (queue s) (running s) (handles s) r (calling s) (jobs s) (workers s) f (bad s).
(** update of the state (the assignments in serial_queue.hpp:46-137) *)
Definition set_c (c j : nat) (s : st) : st :=
  St (next s) (queue s) (running s) (handles s) (refs s) c j (workers s) (freed s) (bad s).
(** update of the state (the assignments in serial_queue.hpp:46-137) *)
Definition set_ws (w : list pc) (s : st) : st :=
  St (next s) (queue s) (running s) (handles s) (refs s) (calling s) (jobs s) w (freed s) (bad s).
(** model of undefined behaviour, serial_queue.hpp:57-61, 86, 96 *)
Definition wrong (s : st) : st :=
  St (next s) (queue s) (running s) (handles s) (refs s) (calling s) (jobs s) (workers s) (freed s) true.
(** a use of a member of the instance; serial_queue.hpp:63-133 *)
Definition touch (s : st) : st := if freed s then wrong s else s.
(** copy of a shared_ptr: serial_queue.hpp:86, 96, 131, 155 *)
Definition retain (s : st) : st := set_r (S (refs s)) (freed s) s.
(** ~serial_instance_t: _queue is destroyed; serial_queue.hpp:46-55 *)
Definition burn (q : list task) : list event := map (fun t => Destroyed (fst t)) q ++ [Freed].
(** ~shared_ptr: with the last one the instance is destroyed, and the tasks in _queue. (Such a task holds no executor of this
    queue, or this would not be the last reference: SerialLife.Proof.); serial_queue.hpp:86, 96, 131, 146, 155 *)
Definition release (s : st) : st * list event :=
  match refs s with
  | 0 => (wrong s, [])
  | 1 => (set_r 0 true s, burn (queue s))
  | S n => (set_r n (freed s) s, [])
  end.
(** ~task; serial_queue.hpp:83, 90-97 *)
Definition kill (t : task) (s : st) : st * list event :=
  if snd t then let (s', ev) := release s in (s', Destroyed (fst t) :: ev) else (s, [Destroyed (fst t)]).
(** job k goes on, serial_queue.hpp:77-97 *)
Definition put (k : nat) (p : pc) (s : st) : st := set_ws (<[k := p]> (workers s)) s.
(** the task being executed has an executor of the queue, serial_queue.hpp:154-159 *)
Definition from_task (p : pc) : bool := match p with Run t _ => snd t | _ => false end.
(** somebody can call an executor of this queue; serial_queue.hpp:154-159 *)
Definition can_call (s : st) : bool := (0 <? handles s) || existsb from_task (workers s).
(** empty(), 63-75, at the end of all() and single() *)
Definition at_end (k : nat) (o : option task) (s : st) : st :=
  match queue s with
  | [] => put k (Leave o) (set_q [] false s)
  | _ => put k (Resubmit o) s
  end.
(** one step of job k, which is at p; serial_queue.hpp:63-97 *)
Definition work (m : mode) (s : st) (k : nat) (p : pc) : st * list event :=
  match p with
  | Begun =>
    let s := touch s in
    match m with
    | all => (put k (Local (queue s)) (set_q [] (running s) s), [])                          (* 80 *)
    | single => match queue s with                                                          (* 92 *)
                | [] => (wrong s, [])
                | t :: q => (put k (Run t []) (set_q q (running s) s), [Started (fst t)])
                end
    end
  | Local (t :: l) => (put k (Run t l) s, [Started (fst t)])                                (* 82-83 *)
  | Run t l => (put k (match m with all => Kill t l | single => After t end) s, [Ended (fst t)])
  | Kill t l => kill t (put k (Local l) s)                                                  (* 83 *)
  | Local [] => (at_end k None (touch s), [])                                               (* 86 *)
  | After t => (at_end k (Some t) (touch s), [])                                            (* 96 *)
  | Resubmit o => (put k (Leave o) (set_c (calling s) (S (jobs s)) (retain (touch s))), []) (* 86, 96 *)
  | Leave (Some t) => kill t (put k (Leave None) s)                                         (* 97 *)
  | Leave None => release (set_ws (delete k (workers s)) s)                                 (* the executor destroys the job *)
  end.
(** serial_queue.hpp:63-159 *)
Definition step (m : mode) (s : st) (l : label) : option (st * list event) :=
  match l with
  | Enqueue c =>                                                                            (* 119-128 *)
    if negb (can_call s) then None else
    let s := touch s in
    let s := if c then retain s else s in
    let s := if running s then s else retain (set_c (S (calling s)) (jobs s) s) in
    Some (set_q (queue s ++ [(next s, c)]) true (set_next (S (next s)) s), [Enqueued (next s)])
  | CopyH => if negb (can_call s) then None else Some (set_h (S (handles s)) (retain s), [])
  | DropH => match handles s with 0 => None | S h => Some (release (set_h h s)) end
  | Submit =>                                                                               (* 130-132 *)
    match calling s with
    | 0 => None
    | S c => Some (release (set_c c (S (jobs s)) (retain (touch s))))
    end
  | Begin =>                                                                                (* the executor starts a job *)
    match jobs s with 0 => None | S j => Some (set_ws (workers s ++ [Begun]) (set_c (calling s) j s), []) end
  | DropJob =>                                                                              (* the executor destroys a job *)
    match jobs s with
    | 0 => None
    | S j => let (s', ev) := release (set_c (calling s) j s) in Some (s', JobDropped :: ev)
    end
  | Work k => match workers s !! k with None => None | Some p => Some (work m s k p) end
  end.
(** serial_queue_t's constructor, 147-150 *)
Definition init : st := St 0 [] false 1 1 0 0 [] false false.
(** executions: any sequence of steps (serial_queue.hpp:46-137) *)
Fixpoint run (m : mode) (s : st) (ls : list label) : option (st * list event) :=
  match ls with
  | [] => Some (s, [])
  | l :: ls => match step m s l with
               | None => None
               | Some (s1, e1) => match run m s1 ls with None => None | Some (s2, e2) => Some (s2, e1 ++ e2) end
               end
  end.
