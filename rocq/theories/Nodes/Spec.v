(** What chains of nodes are. *)
From stdpp Require Import gmap list.
From Verif.Nodes Require Import Model.

(** [a, b) is a valid range, and its nodes are l *)
Fixpoint chain (h : links) (a : nat) (l : list nat) (b : nat) : Prop :=
  match l with
  | [] => a = b
  | x :: l => a = x /\ exists y, nxt h !! x = Some y /\ chain h y l b
  end.
(** so that each of its nodes also knows the one before; that of a is p *)
Fixpoint chain2 (h : links) (p a : nat) (l : list nat) (b : nat) : Prop :=
  prv h !! a = Some p /\
  match l with
  | [] => a = b
  | x :: l => a = x /\ exists y, nxt h !! x = Some y /\ chain2 h x y l b
  end.
