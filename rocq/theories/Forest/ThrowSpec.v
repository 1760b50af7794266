(** The beginning of a forest. *)
From stdpp Require Import gmap list.
From Verif.Forest Require Import Model Spec.

Section spec.
Context {V : Type}.

(** The first [k] nodes in preorder, each below the parent it had. *)
Fixpoint tcut (t : tree V) (k : nat) : list (tree V) :=
  match t, k with
  | _, O => []
  | Node n v cs, S k =>
      [Node n v ((fix go (l : list (tree V)) (k : nat) : list (tree V) :=
          match l with [] => [] | t :: r => tcut t k ++ go r (k - tcount t) end) cs k)]
  end.
Fixpoint fcut (l : list (tree V)) (k : nat) : list (tree V) :=
  match l with [] => [] | t :: r => tcut t k ++ fcut r (k - tcount t) end.

(** [h'] is [h] with [lost] in addition. *)
Definition with_lost (h h' : heap V) (lost : list nat) : Prop :=
  NoDup lost /\ (forall m, m ∈ lost -> h !! m = None /\ is_Some (h' !! m)) /\
  (forall m, m ∉ lost -> h' !! m = h !! m).

End spec.
