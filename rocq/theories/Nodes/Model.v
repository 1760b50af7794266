(** Model of the node algorithms, for any type of nodes: /repo/include/stlab/iterator/set_next.hpp and
    /repo/include/stlab/algorithm/reverse.hpp, 25-69.

    A node iterator is the number of a node. What the specialisation of set_next_fn (set_next.hpp:23-24) does is its
    contract: for forward nodes, it changes the successor of one node; for bidirectional ones, also the predecessor of the
    other. A node without successor (or predecessor) must not be asked for it: None is undefined behaviour. *)
From stdpp Require Import gmap list.

(** the links of all nodes; set_next.hpp:23-31 *)
Record links := Links { nxt : gmap nat nat; prv : gmap nat nat }.
(** set_next of forward nodes; set_next.hpp:28-31 *)
Definition set_next (x y : nat) (h : links) : links := Links (<[x := y]> (nxt h)) (prv h).
(** set_next of bidirectional nodes; set_next.hpp:28-31, with forest.hpp:747-757 as the example *)
Definition set_next2 (x y : nat) (h : links) : links := Links (<[x := y]> (nxt h)) (<[y := x]> (prv h)).

(** splice_node_range; set_next.hpp:35-40. [set]: set_next of the kind of nodes *)
Definition splice_node_range (set : nat -> nat -> links -> links) (location first last : nat) (h : links) : option links :=
  match nxt h !! location with
  | None => None
  | Some successor => Some (set last successor (set location first h))
  end.
(** skip_next_node; set_next.hpp:42-45 *)
Definition skip_next_node (set : nat -> nat -> links -> links) (location : nat) (h : links) : option links :=
  match nxt h !! location with
  | None => None
  | Some n => match nxt h !! n with None => None | Some m => Some (set location m h) end
  end.
(** skip_node; set_next.hpp:47-50 *)
Definition skip_node (location : nat) (h : links) : option links :=
  match prv h !! location, nxt h !! location with
  | Some p, Some n => Some (set_next2 p n h)
  | _, _ => None
  end.

(** the outcome of a loop: reverse.hpp:33-41 *)
Inductive res := Done (r : nat) (h : links) | Ub | Fuel.
(** reverse_append; reverse.hpp:32-41, as written: `I prior(end)` *)
Fixpoint reverse_append (set : nat -> nat -> links -> links) (fuel : nat) (first last end_ : nat) (h : links) : res :=
  if decide (first = last) then Done end_ h
  else match fuel with
       | O => Fuel
       | S fuel =>
         let prior := end_ in                                   (* 35 *)
         match nxt h !! first with                              (* 36 *)
         | None => Ub
         | Some first' => reverse_append set fuel first' last prior (set prior end_ h)   (* 37-38 *)
         end
       end.
(** reverse_nodes; reverse.hpp:56-58 *)
Definition reverse_nodes (set : nat -> nat -> links -> links) (fuel : nat) (first last : nat) (h : links) : res :=
  reverse_append set fuel first last last h.
