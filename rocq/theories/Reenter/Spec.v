(** What C85 says. *)
From stdpp Require Import list.
From Verif.When Require Import Model.
From Verif.Reenter Require Import Model.

(** Two arguments are waited for, j before k, and the task of j, not started, owns the promise of k. *)
Definition forward (s : st) : Prop := exists j k, slots s !! j = Some Held /\ k ∈ own s !!! j /\ slots s !! k = Some Held /\ j < k.
(** A task owns promises of earlier arguments only. *)
Definition ordered (s : st) : Prop := forall j k, k ∈ own s !!! j -> k <= j.
(** argument j is still waited for, or its continuation is still to be executed *)
Definition waiting (s : st) (j : nat) : Prop := slots s !! j = Some Held \/ exists o, slots s !! j = Some (Queued o).
(** The outcome o of an argument decides the result: of when_all an exception, of when_any a value; when_any of a pack waits on. *)
Definition decides (v : variant) (o : outcome) : bool :=
  match v, o with PackAll, Exc _ | RangeAll, Exc _ | RangeAny, Val _ => true | _, _ => false end.
(** nothing has decided it before *)
Definition undecided (v : variant) (s : st) : bool := match v with PackAll => match exc (con s) with None => true | Some _ => false end | _ => negb (single (con s)) end.
