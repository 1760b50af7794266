(** Programs over any number of forests: the modelled operations as commands on a world. *)
From stdpp Require Import gmap list.
From Coq Require Import ZArith.
From Verif.Forest Require Import Model.

Section world.
Context {V : Type}.

(** The live heap and the forest objects that exist, by name. *)
Record world := World { w_heap : heap V; w_objs : gmap nat fobj }.

(** One command; names denote forest objects, positions are iterators. *)
Inductive op :=
  | ONew (x : nat)                                       (* forest()                forest.hpp:795 *)
  | ODestroy (x : nat)                                   (* ~forest()               forest.hpp:796 *)
  | OCopy (x y : nat)                                    (* forest x(y)             798-800 *)
  | OMove (x y : nat)                                    (* forest x(std::move(y))  801 *)
  | OCopyAssign (x y : nat)                              (* x = y                   802-806 *)
  | OMoveAssign (x y : nat)                              (* x = std::move(y)        808-813 *)
  | OSwap (x y : nat)                                    (* x.swap(y)               815 *)
  | OSize (x : nat)                                      (* x.size()                954-963 *)
  | OClear (x : nat)                                     (* x.clear()               856-859 *)
  | OInsert (x : nat) (pos : iter) (v : V)               (* x.insert(pos, v)        864-873 *)
  | OErase (x : nat) (pos : iter)                        (* x.erase(pos)            990-1014 *)
  | OEraseRange (x : nat) (first last : iter)            (* x.erase(first, last)    968-985 *)
  | OSplice (x y : nat) (pos first last : iter) (count : Z)
                                                         (* x.splice(pos, y, first, last, count) 1048-1081 *)
  | OSpliceAll (x y : nat) (pos : iter)                  (* x.splice(pos, y)        1019-1022 *)
  | OSpliceOne (x y : nat) (pos i : iter)                (* x.splice(pos, y, i)     1027-1031 *)
  | OInsertParent (x : nat) (first last : iter) (v : V)  (* x.insert_parent(...)    1086-1092 *)
  | OInsertRange (x y : nat) (pos first last : iter).    (* x.insert(pos, f, l)     1036-1043 *)

Definition obj (w : world) (x : nat) : res fobj :=
  match w_objs w !! x with Some f => Ok f | None => UB end.
Definition put1 (w : world) (h : heap V) (x : nat) (f : fobj) : world :=
  World h (<[x := f]> (w_objs w)).
Definition put2 (w : world) (h : heap V) (x : nat) (f : fobj) (y : nat) (g : fobj) : world :=
  World h (<[x := f]> (<[y := g]> (w_objs w))).

(** The loops of the code visit each live node at most twice; this is enough fuel. *)
Definition wfuel (w : world) : nat := 2 * base.size (w_heap w) + 2.

Definition exec (al : allocator V) (w : world) (o : op) : res world :=
  let h := w_heap w in
  let fuel := wfuel w in
  match o with
  | ONew x =>
      let '(h', f) := new_forest al h in Ok (put1 w h' x f)
  | ODestroy x =>
      let! f := obj w x in
      let! h' := destroy_forest fuel h f in Ok (World h' (delete x (w_objs w)))
  | OCopy x y =>
      let! g := obj w y in
      let! '(h', f) := copy_forest fuel al h g in Ok (put1 w h' x f)
  | OMove x y =>
      let! g := obj w y in
      let! '(h', f, g') := move_forest fuel al h g in Ok (put2 w h' x f y g')
  | OCopyAssign x y =>
      let! f := obj w x in let! g := obj w y in
      let! '(h', f') := copy_assign fuel al h f g in Ok (put1 w h' x f')
  | OMoveAssign x y =>
      let! f := obj w x in let! g := obj w y in
      let! '(h', f', g') := move_assign fuel al h f g (bool_decide (x = y)) in
      Ok (put2 w h' x f' y g')
  | OSwap x y =>
      let! f := obj w x in let! g := obj w y in
      let! '(h', f', g') := swap_forest fuel al h f g in Ok (put2 w h' x f' y g')
  | OSize x =>
      let! f := obj w x in
      let! '(f', _) := size fuel h f in Ok (put1 w h x f')
  | OClear x =>
      let! f := obj w x in
      let! '(h', f') := clear fuel h f in Ok (put1 w h' x f')
  | OInsert x pos v =>
      let! f := obj w x in
      let! '(h', f', _) := insert al h f pos v in Ok (put1 w h' x f')
  | OErase x pos =>
      let! f := obj w x in
      let! '(h', f', _) := erase h f pos in Ok (put1 w h' x f')
  | OEraseRange x first last =>
      let! f := obj w x in
      let! '(h', f', _) := erase_range fuel h f first last in Ok (put1 w h' x f')
  | OSplice x y pos first last count =>
      let! f := obj w x in let! g := obj w y in
      let! '(h', f', g', _) := splice h f g (bool_decide (x = y)) pos first last count in
      Ok (put2 w h' x f' y g')
  | OSpliceAll x y pos =>
      let! f := obj w x in let! g := obj w y in
      let! '(h', f', g', _) := splice_all fuel h f g pos in Ok (put2 w h' x f' y g')
  | OSpliceOne x y pos i =>
      let! f := obj w x in let! g := obj w y in
      let! '(h', f', g', _) := splice_one h f g (bool_decide (x = y)) pos i in
      Ok (put2 w h' x f' y g')
  | OInsertParent x first last v =>
      let! f := obj w x in
      let! '(h', f', _) := insert_parent al h f first last v in Ok (put1 w h' x f')
  | OInsertRange x y pos first last =>
      let! f := obj w x in let! _ := obj w y in
      let! '(h', f', _) := insert_range fuel al h f pos first last in Ok (put1 w h' x f')
  end.

Fixpoint exec_all (al : allocator V) (w : world) (os : list op) : res world :=
  match os with
  | [] => Ok w
  | o :: os => let! w' := exec al w o in exec_all al w' os
  end.

Definition world0 : world := World ∅ ∅.

End world.
Arguments world V : clear implicits.
Arguments op V : clear implicits.
