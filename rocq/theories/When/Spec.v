(** What when_all and when_any have to deliver, as a function of the order in which the arguments arrive. *)
From Coq Require Import List Bool.
From stdpp Require Import list.
From Verif.When Require Import Model.

Definition arrivals (tr : list event) : list (nat * outcome) :=
  omap (fun e => match e with Arrived i o => Some (i, o) | _ => None end) tr.
Definition results (tr : list event) : list result := omap (fun e => match e with Result r => Some r | _ => None end) tr.

Fixpoint first_exc (arr : list (nat * outcome)) : option nat :=
  match arr with [] => None | (_, Exc e) :: _ => Some e | _ :: arr => first_exc arr end.
Fixpoint first_val (arr : list (nat * outcome)) : option (nat * nat) :=
  match arr with [] => None | (i, Val x) :: _ => Some (i, x) | _ :: arr => first_val arr end.
(** the value that argument i has arrived with *)
Fixpoint value_of (arr : list (nat * outcome)) (i : nat) : option nat :=
  match arr with [] => None | (j, Val x) :: arr => if j =? i then Some x else value_of arr i | _ :: arr => value_of arr i end.

(** all values in the order of the arguments (not of arrival), without the void ones; or the first failure *)
Definition spec_all (n : nat) (vd : nat -> bool) (arr : list (nat * outcome)) : option result :=
  match first_exc arr with
  | Some e => Some (RExc e)
  | None => if length arr =? n
            then Some (RCall (omap (fun i => if vd i then None else value_of arr i) (seq 0 n)) None)
            else None
  end.
(** the first value with its index; or, all having failed, the last failure *)
Definition spec_any (n : nat) (void : bool) (arr : list (nat * outcome)) : option result :=
  match first_val arr with
  | Some (i, x) => Some (RCall (if void then [] else [x]) (Some i))
  | None => if length arr =? n then match last arr with Some (_, Exc e) => Some (RExc e) | _ => None end else None
  end.
Definition spec (v : variant) (n : nat) (vd : nat -> bool) (arr : list (nat * outcome)) : option result :=
  match v with
  | PackAll | RangeAll => spec_all n vd arr
  | PackAny => spec_any n false arr
  | PackAnyVoid => spec_any n true arr
  | RangeAny => spec_any n (vd 0) arr
  end.

(** nothing is going on: all arguments attached, no continuation between its start and its end, no call of _f *)
Definition at_rest (s : st) : Prop :=
  att s = None /\ trig s = [] /\ body s = None /\ forall c, c ∈ conts s -> match c with Begun _ | Lock _ => False | _ => True end.
