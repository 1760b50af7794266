(** What it means for a forest object over a heap to represent a list of trees. *)
From stdpp Require Import gmap list.
From Coq Require Import ZArith.
From Verif.Forest Require Import Model Spec.

Notation L n := (Iter n leading).
Notation T n := (Iter n trailing).

(** Bracket words: the leading edge of a node opens, its trailing edge closes. *)
Inductive bal : list iter -> Prop :=
| bal_nil : bal []
| bal_node n s w : bal s -> bal w -> bal (L n :: s ++ T n :: w).

Definition wnodes (w : list iter) : list nat := map it_node w.

Section rep.
Context {V : Type}.
Implicit Types (h : heap V) (f g : fobj) (l k : list (tree V)).

(** The link and the value stored at a node. *)
Definition lk h (n : nat) (e : edge) (d : dir) : option nat := (fun c => link c e d) <$> h !! n.
Definition dt h (n : nat) : option (option V) := c_data <$> h !! n.

(** The positions [x] and [y] are doubly linked to each other. *)
Definition nxt h (x y : iter) : Prop :=
  lk h (it_node x) (it_edge x) next_s = Some (it_node y) /\
  lk h (it_node y) (it_edge y) prior_s = Some (it_node x).

Fixpoint chain h (l : list iter) : Prop :=
  match l with
  | [] => True
  | x :: l' => match l' with [] => True | y :: _ => nxt h x y end /\ chain h l'
  end.

(** The word [w] between the two edges of the sentinel [t]. *)
Definition ring (t : nat) (w : list iter) : list iter := L t :: w ++ [T t].

(** The links starting at the sentinel [t] spell the bracket word [w] and close up. *)
Record WRep h (t : nat) (w : list iter) : Prop := {
  wr_chain : chain h (ring t w);
  wr_wrap : nxt h (T t) (L t);
  wr_bal : bal w;
  wr_nodup : NoDup (ring t w);
  wr_data : forall n, n ∈ wnodes w -> exists v, dt h n = Some (Some v);
  wr_tail : dt h t = Some None }.

(** The first position of [b], or the end of the forest with sentinel [t]. *)
Definition firstp (t : nat) (b : list iter) : iter :=
  match b with [] => T t | x :: _ => x end.

(** The cached size is either the sentinel 0 or right. *)
Definition SizeOk f (w : list iter) : Prop :=
  f_size f = 0%Z \/ (2 * f_size f = Z.of_nat (length w))%Z.

(** [Rep h f l]: the object [f] over the heap [h] represents the forest [l]: the links spell
    the bracket word of [l], every node holds its value, the cached size is 0 or right. *)
Record Rep h f l : Prop := {
  rep_word : WRep h (f_tail f) (fword l);
  rep_vals : forall n v, (n, v) ∈ fpre l -> dt h n = Some (Some v);
  rep_size : SizeOk f (fword l) }.

(** The heap cells that belong to a forest object. *)
Definition fp f l : list nat := f_tail f :: fnodes l.
Definition fdisj f l g k : Prop := forall n, n ∈ fp f l -> n ∈ fp g k -> False.

(** Removing every node that satisfies [P]; its children take its place. *)
Section prune.
Context (P : nat -> Prop) `{forall n, Decision (P n)}.
Fixpoint tprune (t : tree V) : list (tree V) :=
  match t with
  | Node n v cs => if decide (P n) then concat (map tprune cs) else [Node n v (concat (map tprune cs))]
  end.
Definition prune l := concat (map tprune l).
End prune.

(** [eff h h' A B]: going from [h] to [h'], the cells [A] are replaced by the cells [B]; new
    cells were dead, dropped cells are dead, everything else is unchanged. *)
Record eff h h' (A B : list nat) : Prop := {
  eff_frame : forall m, m ∉ A -> m ∉ B -> h' !! m = h !! m;
  eff_new : forall m, m ∈ B -> m ∈ A \/ h !! m = None;
  eff_old : forall m, m ∈ A -> m ∈ B \/ h' !! m = None }.

(** What is assumed of [operator new]: it returns an address that is not in use. *)
Definition good_alloc (al : allocator V) : Prop := forall h, h !! al h = None.

(** The position of a tree's root. *)
Definition root_of (t : tree V) : iter := match t with Node n _ _ => L n end.

End rep.

(** Both edges of the node [n] occur in [r]. *)
Definition both (r : list iter) (n : nat) : Prop := L n ∈ r /\ T n ∈ r.
Global Instance both_dec (r : list iter) n : Decision (both r n).
Proof. unfold both. apply _. Defined.
Global Typeclasses Opaque both.
