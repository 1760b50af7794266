(** Copying elements that may throw (/repo/include/stlab/forest.hpp).

    Definitions only. The number [k] is that of the element constructions (the copy into the
    parameter of [insert], its move into the node, and the allocation, forest.hpp:864-865) that succeed
    before one throws; the one that throws has changed nothing. The result [None] is the exception. *)
From stdpp Require Import gmap list.
From Coq Require Import ZArith.
From Verif.Forest Require Import Model.

Section throw.
Context {V : Type}.

(** forest.hpp:1036-1043 insert(pos, first, last): there is no handler, what was inserted stays. *)
Fixpoint insert_range_t (fuel : nat) (al : allocator V) (k : nat) (h : heap V) (f : fobj) (pos first last : iter)
  : res (heap V * fobj * option iter) :=
  if decide (first = last) then Ok (h, f, Some pos)
  else match fuel with
       | O => OOF
       | S fuel =>
           if is_leading first then
             let! v := deref h first in
             match k with
             | O => Ok (h, f, None)
             | S k =>
                 let! '(h1, f1, pos1) := insert al h f pos v in
                 let! first' := increment h1 first in
                 let! pos' := increment h1 pos1 in
                 insert_range_t fuel al k h1 f1 pos' first' last
             end
           else
             let! first' := increment h first in
             let! pos' := increment h pos in
             insert_range_t fuel al k h f pos' first' last
       end.

(** forest.hpp:798-800 forest(const forest&): not a delegating constructor, so that [~forest()] is not
    called when its body throws: only the members, among them the sentinel (908), are destroyed. *)
Definition copy_forest_t (fuel : nat) (al : allocator V) (k : nat) (h : heap V) (x : fobj)
  : res (heap V * option fobj) :=
  let '(h0, f) := new_forest al h in
  let! b := f_begin h0 x in
  let! '(h1, f1, r) := insert_range_t fuel al k h0 f (f_end f) b (f_end x) in
  match r with
  | Some _ => Ok (h1, Some f1)
  | None => Ok (delete (f_tail f1) h1, None)
  end.

(** forest.hpp:802-806 operator=(const forest&): the flag tells whether it returned. *)
Definition copy_assign_t (fuel : nat) (al : allocator V) (k : nat) (h : heap V) (f x : fobj)
  : res (heap V * fobj * bool) :=
  let! _ := assert_ (bool_decide (f_tail f <> f_tail x)) in
  let! '(h1, c) := copy_forest_t fuel al k h x in
  match c with
  | None => Ok (h1, f, false)
  | Some c =>
      let! '(h2, f1, c1) := move_assign fuel al h1 f c false in
      let! h3 := destroy_forest fuel h2 c1 in
      Ok (h3, f1, true)
  end.

End throw.
