(** Model of senders and receivers as values: /repo/include/stlab/concurrency/channel.hpp, receiver (1450-1507), sender (1553-1604,
    1622-1668), and the counters of processes that they keep up to date: _sender_count (596-608), _receiver_count (778-803).

    Any number of variables of type sender, or of type receiver (a run is about one of the two), and of processes. A sender refers
    to its process weakly: the process may be destroyed at any time. A receiver keeps its process alive. What a process does when a
    counter becomes 0 is in Channel; here it is the event [Zero].

    std::weak_ptr and std::shared_ptr enter by contract: what has been moved from is empty; assigning a moved pointer to itself changes
    nothing. Each operation is one step: whoever copies or destroys an object has it, so that the counter does not become 0
    meanwhile. Left out: senders that cannot be copied are senders nobody copies; results of type void, of which receivers are not
    counted (779, 784). The assertions that forbid assigning an object to itself (1486, 1584) are taken as given. *)
From Coq Require Import List Bool Arith.
From stdpp Require Import list.

(** sender or receiver; channel.hpp:1450, 1554 *)
Inductive kind := Snd | Rcv.
(** the two members; of senders, [rdy] is false; channel.hpp:1453-1454, 1556 *)
Record obj := Obj { ptr : option nat; rdy : bool }.
(** [objs]: the variables, None if destroyed; [cnt]: for each process _sender_count, or _receiver_count; [gone]: the processes that
    have been destroyed; channel.hpp:752-753 *)
Record st := St { objs : list (option obj); cnt : list nat; gone : list nat }.
(** nothing there; channel.hpp:752-753 *)
Definition st0 : st := St [] [] [].
(** what is seen; channel.hpp:600, 791 *)
Inductive ev :=
  | Zero (p : nat)   (** the counter becomes 0: the process is told that nobody sends any more, or starts *)
  | Under (p : nat). (** the counter was 0 before: the assertion (599, 790) fails, or it wraps *)

(** lock, of a sender's pointer; that of a receiver keeps the process; channel.hpp:1572, 1576 *)
Definition lock (s : st) (p : option nat) : option nat :=
  match p with Some p => if decide (p ∈ gone s) then None else Some p | None => None end.
(** add_sender, add_receiver; channel.hpp:596, 778-781 *)
Definition add (s : st) (p : option nat) : st :=
  match lock s p with Some p => St (objs s) (alter S p (cnt s)) (gone s) | None => s end.
(** remove_sender, remove_receiver; channel.hpp:598-608, 783-803 *)
Definition remove (s : st) (p : option nat) : st * list ev :=
  match lock s p with
  | Some p => (St (objs s) (alter pred p (cnt s)) (gone s), match cnt s !! p with Some 1 => [Zero p] | Some 0 => [Under p] | _ => [] end)
  | None => (s, [])
  end.
(** changing a variable; making one; channel.hpp:1472-1490, 1569-1588 *)
Definition put (i : nat) (o : option obj) (s : st) : st := St (<[i := o]> (objs s)) (cnt s) (gone s).
Definition push (o : obj) (s : st) : st := St (objs s ++ [Some o]) (cnt s) (gone s).

(** the operations; channel.hpp:1450-1604 *)
Inductive label :=
  | LNew (n : nat)          (** a process with n senders (764, 774), or a receiver (765, 775); 1271 *)
  | LDefault                (** 1472, 1569 *)
  | LCopy (i : nat)         (** 1478-1480, 1575-1577 *)
  | LMove (i : nat)         (** 1482, 1579 *)
  | LCopyAssign (i j : nat) (** 1484-1488, 1582-1586: a copy is made and moved *)
  | LMoveAssign (i j : nat) (** 1490, 1588 *)
  | LSwap (i j : nat)       (** 1497, 1590 *)
  | LDestroy (i : nat)      (** 1474-1476, 1571-1573 *)
  | LClose (i : nat)        (** a sender's close; 1600-1604 *)
  | LReady (i : nat)        (** a receiver's set_ready; 1492-1495 *)
  | LDie (p : nat).         (** the last reference to a process is gone; 1556 *)

(** the object at i, if it is not destroyed; channel.hpp:1450, 1554 *)
Definition at_ (s : st) (i : nat) : option obj := match objs s !! i with Some (Some o) => Some o | _ => None end.
(** the defaulted move constructor: the pointer is moved, the bool copied; channel.hpp:1482, 1579 *)
Definition moved (o : obj) : obj := Obj None (rdy o).
(** the defaulted move assignment, to i from j; channel.hpp:1490, 1588 *)
Definition massign (i j : nat) (s : st) : st :=
  match at_ s i, at_ s j with
  | Some _, Some y => if i =? j then s else put i (Some y) (put j (Some (moved y)) s)
  | _, _ => s
  end.

(** one operation; channel.hpp:1450-1604 *)
Definition step (k : kind) (s : st) (l : label) : option (st * list ev) :=
  match l with
  | LNew n =>
    let p := length (cnt s) in
    match k with
    | Snd => Some (St (objs s ++ replicate n (Some (Obj (Some p) false))) (cnt s ++ [n]) (gone s), [])
    | Rcv => Some (St (objs s ++ [Some (Obj (Some p) false)]) (cnt s ++ [1]) (gone s), [])
    end
  | LDefault => Some (push (Obj None false) s, [])
  | LCopy i => match at_ s i with Some x => Some (push x (add s (ptr x)), []) | None => None end
  | LMove i => match at_ s i with Some x => Some (push x (put i (Some (moved x)) s), []) | None => None end
  | LCopyAssign i j =>
    match at_ s i, at_ s j with
    | Some _, Some y => if i =? j then None else
      (* the temporary is last; it is destroyed when it has been moved from, which does nothing *)
      let s1 := push y (add s (ptr y)) in
      let t := length (objs s) in
      Some (put t None (massign i t s1), [])
    | _, _ => None
    end
  | LMoveAssign i j => match at_ s i, at_ s j with Some _, Some _ => Some (massign i j s, []) | _, _ => None end
  | LSwap i j =>
    (* std::swap: tmp = move(x), x = move(y), y = move(tmp); *)
    match at_ s i, at_ s j with
    | Some x, Some _ =>
      let t := length (objs s) in
      Some (put t None (massign j t (massign i j (push x (put i (Some (moved x)) s)))), [])
    | _, _ => None
    end
  | LDestroy i =>
    match at_ s i with
    | Some x => let '(s1, e) := if rdy x then (s, []) else remove s (ptr x) in Some (put i None s1, e)
    | None => None
    end
  | LClose i =>
    match k, at_ s i with
    | Snd, Some x => let '(s1, e) := remove s (ptr x) in Some (put i (Some (Obj None false)) s1, e)
    | _, _ => None
    end
  | LReady i =>
    match k, at_ s i with
    | Rcv, Some x => let '(s1, e) := if rdy x then (s, []) else remove s (ptr x) in Some (put i (Some (Obj (ptr x) true)) s1, e)
    | _, _ => None
    end
  | LDie p => match k with
    | Snd => if decide (p < length (cnt s)) then Some (St (objs s) (cnt s) (p :: gone s), []) else None
    | Rcv => None
    end
  end.
(** operator==; channel.hpp:1500-1502 (the pointers are equal), 1594-1596 (what they lock is equal) *)
Definition same (k : kind) (s : st) (x y : obj) : bool :=
  match k with
  | Snd => bool_decide (lock s (ptr x) = lock s (ptr y))
  | Rcv => bool_decide (ptr x = ptr y)
  end.
(** any sequence of operations; channel.hpp:1450-1604 *)
Fixpoint run (k : kind) (s : st) (ls : list label) : option (st * list ev) :=
  match ls with
  | [] => Some (s, [])
  | l :: ls => match step k s l with
    | Some (s1, e) => match run k s1 ls with Some (s2, t) => Some (s2, e ++ t) | None => None end
    | None => None
    end
  end.
