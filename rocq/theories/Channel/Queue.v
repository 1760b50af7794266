(** Model of the queue strategies: /repo/include/stlab/concurrency/channel.hpp, 400-582. One queue per port (sender index).
    The tuple algorithms used by them are those of Verif.Tuple (C54). *)
From Coq Require Import List Bool ZArith.
From stdpp Require Import list.

(** a message: std::variant<T, std::exception_ptr>; channel.hpp:402-405 *)
Inductive msg := Val (v : nat) | Err (e : nat).
(** default_queue_strategy, zip_with, round_robin and unordered: channel.hpp:402, 430, 478, 532 *)
Inductive strategy := Default | Zip | RoundRobin | Unordered.
(** _queue, _index, _popped_index; the last two are used by round_robin and unordered only; channel.hpp:402-405, 430-436, 478-486, 532-540 *)
Record qst := Q { qs : list (list msg); qi : nat; qp : nat }.

(** empty() of a deque, channel.hpp:408, 439, 489, 543 *)
Definition nilb {A} (l : list A) : bool := match l with [] => true | _ => false end.
(** tuple_find (tuple_algorithm.hpp 36-50, 114-120): the first index satisfying the predicate, the size if there is none *)
Fixpoint find_i {A} (f : A -> bool) (l : list A) : nat :=
  match l with [] => 0 | a :: l => if f a then 0 else S (find_i f l) end.

(** channel.hpp 408 (default), 439-441 (zip), 489-491 (round robin, get_i with default true), 543-545 (unordered) *)
Definition q_empty (st : strategy) (q : qst) : bool :=
  match st with
  | Default => match qs q !! 0 with Some c => nilb c | None => true end
  | Zip => negb (find_i nilb (qs q) =? length (qs q))
  | RoundRobin => match qs q !! qi q with Some c => nilb c | None => true end
  | Unordered => find_i (fun c => negb (nilb c)) (qs q) =? length (qs q)
  end.
(** the head of a std::deque: None, undefined behaviour, if it is empty; channel.hpp:410, 443-451, 493-496, 547-552 *)
Definition port_head (q : qst) (p : nat) : option msg := match qs q !! p with Some (m :: _) => Some m | _ => None end.
(** front: 410, 443-451, 493-496, 547-552. The message, and the strategy's new index. *)
Definition q_front (st : strategy) (q : qst) : option (list msg * qst) :=
  match st with
  | Default => match port_head q 0 with Some m => Some ([m], q) | None => None end
  | Zip => match mapM head (qs q) with Some ms => Some (ms, q) | None => None end
  | RoundRobin => match port_head q (qi q) with Some m => Some ([m], q) | None => None end
  | Unordered =>
    let i := find_i (fun c => negb (nilb c)) (qs q) in
    match port_head q i with Some m => Some ([m], Q (qs q) i (qp q)) | None => None end
  end.
(** pop_front: 412, 453-455, 498-503, 554-557 *)
Definition q_pop (st : strategy) (q : qst) : qst :=
  match st with
  | Default => Q (alter tail 0 (qs q)) (qi q) (qp q)
  | Zip => Q (map tail (qs q)) (qi q) (qp q)
  | RoundRobin => Q (alter tail (qi q) (qs q)) (if S (qi q) =? length (qs q) then 0 else S (qi q)) (qi q)
  | Unordered => Q (alter tail (qi q) (qs q)) (qi q) (qi q)
  end.
(** std::numeric_limits<std::size_t>::max(), channel.hpp:512, 566, 634 *)
Definition size_max : Z := 2 ^ 64 - 1.
(** size: 414, 457-462, 505-516, 559-571. A queue has fewer than 2^64 elements. *)
Definition q_sizes (st : strategy) (q : qst) : list Z :=
  match st with
  | Default | Zip => map (fun c => Z.of_nat (length c)) (qs q)
  | RoundRobin | Unordered => imap (fun i c => if i =? qp q then Z.of_nat (length c) else size_max) (qs q)
  end.
(** append: 421-424, 469-472, 523-526, 578-581 *)
Definition q_append (p : nat) (m : msg) (q : qst) : qst := Q (alter (fun c => c ++ [m]) p (qs q)) (qi q) (qp q).
(** a new strategy object, channel.hpp:402-405, 430-436, 478-486, 532-540 *)
Definition q_new (ports : nat) : qst := Q (replicate ports []) 0 0.
