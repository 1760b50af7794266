(** What C89 and C90 say. *)
From stdpp Require Import list.
From Verif.Handles Require Import Model.

#[global] Instance ev_dec : EqDecision ev.
Proof. solve_decision. Defined.
(** Those who count: the senders that refer to p; the receivers that refer to p and are not ready. *)
Definition counts (p : nat) (o : option obj) : bool :=
  match o with Some (Obj (Some q) false) => bool_decide (q = p) | _ => false end.
Definition holders (p : nat) (s : st) : nat := length (filter (λ o, counts p o = true) (objs s)).

(** The operations that miscount: assigning to one that counts; copying a receiver that is ready. *)
Definition miscounts (p : nat) (s : st) (l : label) : nat :=
  let over i j := match objs s !! i with Some o => if counts p o && negb (Nat.eqb i j) then 1 else 0 | None => 0 end in
  let ready i := match objs s !! i with Some (Some (Obj (Some q) true)) => if decide (q = p) then 1 else 0 | _ => 0 end in
  match l with
  | LCopy i => ready i
  | LMoveAssign i j => over i j
  | LCopyAssign i j => over i j + ready j
  | _ => 0
  end.
Fixpoint lost (k : kind) (p : nat) (s : st) (ls : list label) : nat :=
  match ls with
  | [] => 0
  | l :: ls => miscounts p s l + match step k s l with Some (s1, _) => lost k p s1 ls | None => 0 end
  end.

(** What the operations are for: the values of the variables there were, and those of the new ones. *)
Definition emptied (o : option obj) : option obj := match o with Some x => Some (Obj None (rdy x)) | None => None end.
Definition after (l : label) (old : nat -> option obj) (n : nat) : option obj :=
  match l with
  | LMove i => if decide (n = i) then emptied (old i) else old n
  | LCopyAssign i j => if decide (n = i) then old j else old n
  | LMoveAssign i j => if decide (n = i) then old j else if decide (n = j) then emptied (old j) else old n
  | LSwap i j => if decide (n = i) then old j else if decide (n = j) then old i else old n
  | LDestroy i => if decide (n = i) then None else old n
  | LClose i => if decide (n = i) then Some (Obj None false) else old n
  | LReady i => if decide (n = i) then match old i with Some x => Some (Obj (ptr x) true) | None => None end else old n
  | LNew _ | LDefault | LCopy _ | LDie _ => old n
  end.
Definition made (k : kind) (l : label) (old : nat -> option obj) (fresh : nat) : list (option obj) :=
  match l with
  | LNew n => replicate (match k with Snd => n | Rcv => 1 end) (Some (Obj (Some fresh) false))
  | LDefault => [Some (Obj None false)]
  | LCopy i | LMove i => [old i]
  | _ => []
  end.
