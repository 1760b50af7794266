(** What the user of a future of a move-only value sees: readings of the trace. *)
From Coq Require Import List Bool Arith.
From stdpp Require Import list.
From Verif.Unique Require Import Model.

(** the continuations of which it has been settled what becomes of them: called, canceled by destroying their result, or
    destroyed by the executor *)
Definition fates (tr : list event) : list nat :=
  flat_map (fun e => match e with Started n | Canceled n | Dropped n => [n] | _ => [] end) tr.
Definition started (tr : list event) : list nat := flat_map (fun e => match e with Started n => [n] | _ => [] end) tr.
Definition attached (tr : list event) : list nat := flat_map (fun e => match e with Attached _ n => [n] | _ => [] end) tr.
Definition resolved (tr : list event) : list outcome := flat_map (fun e => match e with Resolved o => [o] | _ => [] end) tr.
Definition gone (tr : list event) : list unit := flat_map (fun e => match e with Gone => [tt] | _ => [] end) tr.
Definition kept (tr : list event) : list unit := flat_map (fun e => match e with Kept => [tt] | _ => [] end) tr.
(** what was read of the future, by get_try and on behalf of continuations, in order *)
Definition reads (tr : list event) : list got :=
  flat_map (fun e => match e with Got Nothing => [] | Got g | GotThen _ g => [g] | _ => [] end) tr.

(** the first to read a value has it, all others what is left of it; an exception is thrown every time *)
Fixpoint given (o : outcome) (m : nat) : list got :=
  match o, m with
  | _, 0 => []
  | Value v, S m => Slot (Full v) :: repeat (Slot Hollow) m
  | Error e, S m => Thrown e :: given o m
  end.
Definition intact (o : outcome) : got := match o with Value v => Slot (Full v) | Error e => Thrown e end.

(** nothing of the library is under way *)
Definition rest (s : st) : Prop := rcl s = None /\ ccl s = None /\ jobs s = [].
