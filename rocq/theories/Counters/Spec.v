(** What C77 says, in terms of events. *)
From Coq Require Import List Bool Arith ZArith.
From stdpp Require Import list.
From Verif.Counters Require Import Model.

(** how many annotate objects there are, if there are k + 1 at first *)
Fixpoint change (tr : list event) : Z :=
  match tr with [] => 0 | Made :: tr => 1 + change tr | Gone :: tr => change tr - 1 | _ :: tr => change tr end%Z.
Definition live (k : nat) (tr : list event) : Z := (Z.of_nat k + 1 + change tr)%Z.
(** a notification comes when wait has found that it has to wait but does not wait yet *)
Definition gap (tr : list event) : Prop :=
  exists a b c, tr = a ++ Checked false :: b ++ Blocks :: c /\ Noted ∈ b /\ Blocks ∉ b.
(** the last change of the number of objects, if any, was a destruction *)
Definition last_gone (tr : list event) : Prop := forall a b, tr = a ++ Made :: b -> Gone ∈ b.
(** nothing is going on: no destructor has still to notify, and the thread that waits cannot go on *)
Definition at_rest (n : nat) (s : st) : Prop := step n s Note = None /\ step n s Wait = None.
