(** Model of notification_queue, /repo/include/stlab/concurrency/default_executor.hpp:221-314: its data and the
    bodies of its critical sections. (What surrounds them -- try_lock, waiting, notification -- is in Pool.v.)

    std::push_heap/pop_heap (253, 299, 310) by the standard's contract: front() is an element whose _priority
    is not greater than any other's. [items] therefore lists the elements in no particular order (here: of
    insertion), and [pop_at] takes any element with a least key. std::size_t is 64 bits and wraps. *)
From Coq Require Import ZArith List Bool.
From stdpp Require Import list.
Local Open Scope Z_scope.

Section queue.
Context {A : Type}.
(** notification_queue, default_executor.hpp:239-242 *)
Record nq := NQ {
  items : list (Z * A);     (** _q, 239: (_priority, _task) *)
  count : Z;                (** _count, 240 *)
  done : bool;              (** _done, 241 *)
  waiting : bool            (** _waiting, 242 *)
}.
(** a new notification_queue, default_executor.hpp:239-242 *)
Definition nq0 : nq := NQ [] 0 false false.

(** 244-247 *)
Definition merge (p : nat) (c : Z) : Z := Z.lor (Z.shiftl (Z.of_nat p) 62 mod 2 ^ 64) c.

(** 298-299 / 309-310 *)
Definition push (p : nat) (a : A) (q : nq) : nq :=
  NQ (items q ++ [(merge p (count q), a)]) ((count q + 1) mod 2 ^ 64) (done q) (waiting q).

(** pop_not_empty, 250-255, where the k-th element is at the front of the heap *)
Definition pop_at (k : nat) (q : nq) : option (A * nq) :=
  match items q !! k with
  | None => None
  | Some (key, a) =>
    if forallb (fun x => key <=? x.1) (items q)
    then Some (a, NQ (take k (items q) ++ drop (S k) (items q)) (count q) (done q) (waiting q))
    else None
  end.
(** _q.empty(), default_executor.hpp:260, 278 *)
Definition is_empty (q : nq) : bool := match items q with [] => true | _ => false end.
(** update of the state (the assignments in default_executor.hpp:239-242) *)
Definition set_done (b : bool) (q : nq) : nq := NQ (items q) (count q) b (waiting q).
(** update of the state (the assignments in default_executor.hpp:239-242) *)
Definition set_waiting (b : bool) (q : nq) : nq := NQ (items q) (count q) (done q) b.

(** ** sequences of successful pushes and pops on one queue; default_executor.hpp:250-255, 298-310 *)
Inductive qop := Push (p : nat) (a : A) | Pop (k : nat).
(** default_executor.hpp:250-255, 298-310: the tasks popped, in order *)
Fixpoint qrun (q : nq) (os : list qop) : option (nq * list A) :=
  match os with
  | [] => Some (q, [])
  | Push p a :: os => qrun (push p a q) os
  | Pop k :: os => match pop_at k q with
                   | None => None
                   | Some (a, q) => match qrun q os with None => None | Some (q, l) => Some (q, a :: l) end
                   end
  end.
End queue.
Arguments nq : clear implicits.
Arguments qop : clear implicits.
