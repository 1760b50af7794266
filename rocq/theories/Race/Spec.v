(** Happens-before and data races, in terms of events (C++ [intro.races]). *)
From Coq Require Import List Bool Arith.
From stdpp Require Import list relations.
From Verif.Race Require Import Model.

Definition thread (e : event) : nat :=
  match e with Copied t | Sent t _ | Received t _ | Loaded t _ | Read t | Moved t | Destroyed t => t end.
(** x synchronises with the later y: a message is received; the decrement of a reference count releases, later decrements and
    acquiring loads acquire *)
Definition sync (x y : event) : Prop :=
  match x, y with
  | Sent _ m, Received _ m' => m = m'
  | Destroyed _, Destroyed _ => True
  | Destroyed _, Loaded _ true => True
  | _, _ => False
  end.
(** events a and b (positions in the trace) are ordered by the program, or by synchronisation *)
Definition hb1 (tr : list event) (a b : nat) : Prop :=
  a < b /\ exists x y, tr !! a = Some x /\ tr !! b = Some y /\ (thread x = thread y \/ sync x y).
(** a happens before b *)
Definition hb (tr : list event) : nat -> nat -> Prop := tc (hb1 tr).

Definition access (e : event) : Prop := match e with Read _ | Moved _ => True | _ => False end.
Definition writes (e : event) : Prop := match e with Moved _ => True | _ => False end.
(** two accesses to the value, one of them modifying it, neither before the other *)
Definition race (tr : list event) : Prop :=
  exists a b x y, a < b /\ tr !! a = Some x /\ tr !! b = Some y /\ access x /\ access y /\ (writes x \/ writes y) /\ ~ hb tr a b.
(** whoever has destroyed a future has, by other means, synchronised with those who consume one later *)
Definition drops_seen (tr : list event) : Prop :=
  forall a b t t', a < b -> tr !! a = Some (Destroyed t) -> tr !! b = Some (Moved t') -> hb tr a b.
