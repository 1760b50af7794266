(** Specification side of the forest: rose trees, independent of the pointer code.

    A forest is a list of trees; a tree node carries the node's identity (its address, which
    iterators denote), its value and its children. *)
From stdpp Require Import gmap list.
From Coq Require Import ZArith.
From Verif.Forest Require Import Model.

Inductive tree (V : Type) := Node (n : nat) (v : V) (cs : list (tree V)).
Arguments Node {V} n v cs.

Section spec.
Context {V : Type}.
Implicit Types (f l : list (tree V)).

(** The full order of a tree: leading edge, the children in order, trailing edge. *)
Fixpoint tword (t : tree V) : list iter :=
  match t with
  | Node n _ cs => Iter n leading :: concat (map tword cs) ++ [Iter n trailing]
  end.
Definition fword (f : list (tree V)) : list iter := concat (map tword f).

(** Number of nodes. *)
Fixpoint tcount (t : tree V) : nat :=
  match t with Node _ _ cs => S (sum_list (map tcount cs)) end.
Definition fcount (f : list (tree V)) : nat := sum_list (map tcount f).

(** Preorder and postorder listings of (identity, value). *)
Fixpoint tpre (t : tree V) : list (nat * V) :=
  match t with Node n v cs => (n, v) :: concat (map tpre cs) end.
Definition fpre f := concat (map tpre f).
Fixpoint tpost (t : tree V) : list (nat * V) :=
  match t with Node n v cs => concat (map tpost cs) ++ [(n, v)] end.
Definition fpost f := concat (map tpost f).

(** The identities of the nodes of a forest. *)
Definition fnodes f : list nat := map fst (fpre f).

(** Tree contexts (innermost frame first): [plug C l] is the forest that has the sibling list [l]
    at the place described by [C]; the empty context is the top level. *)
Definition frame : Type := list (tree V) * nat * V * list (tree V).
Fixpoint plug (C : list frame) (l : list (tree V)) : list (tree V) :=
  match C with
  | [] => l
  | (a, n, v, b) :: C => plug C (a ++ Node n v l :: b)
  end.

(** The node whose child list is the hole of [C]; [t] stands for the forest's sentinel. *)
Definition hole_owner (t : nat) (C : list frame) : nat :=
  match C with [] => t | (_, n, _, _) :: _ => n end.

(** The iterator that designates the gap before the siblings [r] in the hole of [C]: the leading
    edge of the first of them, or the trailing edge of the owner. *)
Definition gap (t : nat) (C : list frame) (r : list (tree V)) : iter :=
  match r with
  | Node n _ _ :: _ => Iter n leading
  | [] => Iter (hole_owner t C) trailing
  end.

(** The value structure of a forest, forgetting identities. *)
Inductive vtree := VNode (v : V) (cs : list vtree).
Fixpoint strip (t : tree V) : vtree :=
  match t with Node _ v cs => VNode v (map strip cs) end.

End spec.
Arguments vtree V : clear implicits.

(** The shape of a forest, forgetting identities and values. *)
Inductive shape := SNode (cs : list shape).
Fixpoint tshape {V} (t : tree V) : shape :=
  match t with Node _ _ cs => SNode (map tshape cs) end.
Definition fshape {V} (f : list (tree V)) : list shape := map tshape f.

(** A client loop over a range: the positions visited by [for (; x != last; x = next(x))]. *)
Fixpoint walk {A} `{EqDecision A} (next : A -> res A) (fuel : nat) (x last : A) : res (list A) :=
  if decide (x = last) then Ok []
  else match fuel with
       | O => OOF
       | S fuel => let! y := next x in let! r := walk next fuel y last in Ok (x :: r)
       end.

(** The same when the iterator type [A] compares by a key. *)
Fixpoint walk_on {A B} `{EqDecision B} (key : A -> B) (next : A -> res A) (fuel : nat) (x : A) (last : B)
  : res (list A) :=
  if decide (key x = last) then Ok []
  else match fuel with
       | O => OOF
       | S fuel => let! y := next x in let! r := walk_on key next fuel y last in Ok (x :: r)
       end.

(** A client loop over a range backwards: [while (x != first) { --x; visit(x); }]. *)
Fixpoint rwalk_on {A B} `{EqDecision B} (key : A -> B) (prev : A -> res A) (fuel : nat) (x : A) (first : B)
  : res (list A) :=
  if decide (key x = first) then Ok []
  else match fuel with
       | O => OOF
       | S fuel => let! y := prev x in let! r := rwalk_on key prev fuel y first in Ok (y :: r)
       end.

(** An arbitrary mixture of ++ ([true]) and -- ([false]), on iterators and on indices [0..n]. *)
Fixpoint run_moves {A} (next prev : A -> res A) (ms : list bool) (x : A) : res A :=
  match ms with
  | [] => Ok x
  | b :: ms => let! y := (if b : bool then next x else prev x) in run_moves next prev ms y
  end.
Fixpoint track (n : nat) (ms : list bool) (i : nat) : option nat :=
  match ms with
  | [] => Some i
  | true :: ms => if decide (i < n) then track n ms (S i) else None
  | false :: ms => if decide (0 < i) then track n ms (i - 1) else None
  end.

(** Two forests have the same structure, corresponding values being related by [R]. *)
Inductive sim {V W} (R : V -> W -> Prop) : list (tree V) -> list (tree W) -> Prop :=
  | sim_nil : sim R [] []
  | sim_cons n v cs l m w ds k : R v w -> sim R cs ds -> sim R l k ->
      sim R (Node n v cs :: l) (Node m w ds :: k).

(** The full order with nesting depths, the roots being at depth [d]. *)
Fixpoint tdepths {V} (d : Z) (t : tree V) : list (iter * Z) :=
  match t with
  | Node n _ cs => (Iter n leading, d) :: concat (map (tdepths (d + 1)) cs) ++ [(Iter n trailing, d)]
  end.
Definition fdepths {V} (d : Z) (l : list (tree V)) : list (iter * Z) := concat (map (tdepths d) l).

(** The forest without the subtrees whose root's value fails [p]. *)
Fixpoint tkeep {V} (p : V -> bool) (t : tree V) : list (tree V) :=
  match t with
  | Node n v cs => if p v then [Node n v (concat (map (tkeep p) cs))] else []
  end.
Definition fkeep {V} (p : V -> bool) (l : list (tree V)) : list (tree V) := concat (map (tkeep p) l).

(** The values of a forest in full order, [None] standing for a trailing edge. *)
Fixpoint ttok {V} (t : tree V) : list (option V) :=
  match t with Node _ v cs => Some v :: concat (map ttok cs) ++ [None] end.
Definition ftok {V} (l : list (tree V)) : list (option V) := concat (map ttok l).

(** The mirror image of a forest. *)
Fixpoint tmirror {V} (t : tree V) : tree V :=
  match t with Node n v cs => Node n v (rev (map tmirror cs)) end.
Definition fmirror {V} (l : list (tree V)) : list (tree V) := rev (map tmirror l).
