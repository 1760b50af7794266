(** Model of the accesses to the value of a shared state by futures that share it, in several threads:
    /repo/include/stlab/concurrency/future.hpp:221-223 (unique_usage), 405-420 (get_ready, get_ready_r), 843-845 (the members of
    future), for copyable values.

    The shared state is ready; whoever has a future has seen that (_ready is set and read with sequential consistency), so that
    the initialisation of the value happens before all that follows. Futures are copied, handed to other threads through
    something that synchronises (a queue with a mutex, as that of the executors), read, consumed (get_ready() of an rvalue) and
    destroyed. Which thread does what is part of the execution. Consuming is two steps: 845 reads use_count() and calls
    get_ready_r, which copies or moves the value.

    The standard does not let use_count() synchronise with anything (it is a relaxed load); the decrement in the destructor of a
    shared_ptr does (acquire and release). [acq] is [false] for the code as it is; [true] is the code with an acquire fence
    after a use_count() that is 1 (there is no such code; it says what is missing).

    Simplified: the loads of use_count() give the last value. Not modelled: the promise and continuations as further owners (they
    do not touch the value when it has been set); get_try, which locks a mutex before it reads. *)
From Coq Require Import List Bool Arith.
From stdpp Require Import gmap.

(** a future, future.hpp:740-850 *)
Inductive loc :=
  | At (t : nat)                (** in thread t *)
  | Got (t : nat) (u : bool)    (** 845: in thread t, which has read use_count() and found that it is 1, or not *)
  | Flight (m : nat).           (** on its way to a thread; m is the number of the message *)
(** the futures that share the state; their number is use_count() (future.hpp:222) *)
Record st := St { futures : gmap nat loc; msgs : nat }.
(** what the threads do; future.hpp:221-223, 405-420, 740-850 *)
Inductive event :=
  | Copied (t : nat)
  | Sent (t m : nat) | Received (t m : nat)
  | Loaded (t : nat) (acq : bool)   (** use_count() is read *)
  | Read (t : nat)                  (** the value is read: copied, or given as const& *)
  | Moved (t : nat)                 (** the value is moved from *)
  | Destroyed (t : nat).
(** atomic steps; future.hpp:221-223, 405-420, 740-850 *)
Inductive label :=
  | Copy (h h' : nat)               (** h'(h) *)
  | Send (h : nat) | Recv (h t : nat)
  | Get (h : nat)                   (** h.get_ready(), 843 *)
  | Load (h : nat)                  (** std::move(h).get_ready(), 845: unique_usage *)
  | Take (h : nat)                  (** 845, 413-420 *)
  | Destroy (h : nat).

(** one step, future.hpp:221-223, 405-420, 740-850 *)
Definition step (acq : bool) (s : st) (l : label) : option (st * list event) :=
  match l with
  | Copy h h' =>
    match futures s !! h, futures s !! h' with
    | Some (At t), None => Some (St (<[h' := At t]> (futures s)) (msgs s), [Copied t])
    | _, _ => None
    end
  | Send h =>
    match futures s !! h with
    | Some (At t) => Some (St (<[h := Flight (msgs s)]> (futures s)) (S (msgs s)), [Sent t (msgs s)])
    | _ => None
    end
  | Recv h t =>
    match futures s !! h with
    | Some (Flight m) => Some (St (<[h := At t]> (futures s)) (msgs s), [Received t m])
    | _ => None
    end
  | Get h => match futures s !! h with Some (At t) => Some (s, [Read t]) | _ => None end
  | Load h =>
    match futures s !! h with
    | Some (At t) => let u := size (futures s) =? 1 in                            (* 222 *)
                     Some (St (<[h := Got t u]> (futures s)) (msgs s), [Loaded t (acq && u)])
    | _ => None
    end
  | Take h =>
    match futures s !! h with
    | Some (Got t u) => Some (St (<[h := At t]> (futures s)) (msgs s), [if u then Moved t else Read t])   (* 414, 419 *)
    | _ => None
    end
  | Destroy h => match futures s !! h with Some (At t) => Some (St (delete h (futures s)) (msgs s), [Destroyed t]) | _ => None end
  end.
(** one future, in thread 0: what package and the like return (future.hpp:1000-1040) *)
Definition init : st := St {[0 := At 0]} 0.
(** executions: any sequence of steps *)
Fixpoint run (acq : bool) (s : st) (ls : list label) : option (st * list event) :=
  match ls with
  | [] => Some (s, [])
  | l :: ls => match step acq s l with
               | None => None
               | Some (s1, e1) => match run acq s1 ls with None => None | Some (s2, e2) => Some (s2, e1 ++ e2) end
               end
  end.
