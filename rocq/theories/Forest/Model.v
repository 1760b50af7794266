(** Executable model of the pointer-level code of stlab::forest
    (/repo/include/stlab/forest.hpp, /repo/include/stlab/algorithm/reverse.hpp,
    /repo/include/stlab/forest_algorithms.hpp).

    Definitions only; every definition cites the lines it transcribes.
    Undefined behaviour (access to a dead node, reading the value of the sentinel,
    deleting the sentinel, failed assert) is the explicit outcome [UB]; a loop that
    exhausts its fuel yields [OOF].

    Simplifications: a node is a [cell] with four links and an optional value
    (the sentinel [_tail] is a node_base without value); addresses are natural numbers;
    [_size] is an unbounded integer [Z] (so an underflow would be visible as a negative
    number); const_iterator and iterator have identical code (forest.hpp:550-640 and
    645-735) and are one function here. *)
From stdpp Require Import gmap list.
From Coq Require Import ZArith.

Notation addr := nat (only parsing).

(** forest.hpp:32 [enum class forest_edge : bool { trailing, leading }]. *)
Inductive edge := trailing | leading.

(** forest.hpp:515 [enum next_prior_t { prior_s, next_s }]. *)
Inductive dir := prior_s | next_s.

Global Instance edge_eq_dec : EqDecision edge.
Proof. solve_decision. Defined.
Global Instance dir_eq_dec : EqDecision dir.
Proof. solve_decision. Defined.

(** forest.hpp:636-637 the two fields of forest_iterator. *)
Record iter := Iter { it_node : addr; it_edge : edge }.
Global Instance iter_eq_dec : EqDecision iter.
Proof. solve_decision. Defined.

(** Outcomes. of any member function of forest.hpp:519-1141: UB undefined behaviour or a failed assert, OOF the model out of fuel (the theorems exclude it) *)
Inductive res (A : Type) := Ok (a : A) | UB | OOF.
Arguments Ok {A} a.
Arguments UB {A}.
Arguments OOF {A}.

(** one statement after the other, as in the bodies of forest.hpp:519-1141 *)
Definition rbind {A B} (m : res A) (k : A -> res B) : res B :=
  match m with Ok a => k a | UB => UB | OOF => OOF end.

Notation "'let!' x ':=' m 'in' k" := (rbind m (fun x => k))
  (at level 200, x name, m at level 100, k at level 200).
Notation "'let!' ' p ':=' m 'in' k" := (rbind m (fun p => k))
  (at level 200, p strict pattern, m at level 100, k at level 200).

(** [assert] as undefined behaviour when violated. as in forest.hpp:838-884, 990-1014 *)
Definition assert_ (b : bool) : res unit := if b then Ok tt else UB.

(** forest.hpp:39 constexpr pivot. *)
Definition pivot_edge (e : edge) : edge :=
  match e with trailing => leading | leading => trailing end.

(** forest.hpp:41-50 pivot / pivot_of on iterators. *)
Definition pivot_of (i : iter) : iter := Iter (it_node i) (pivot_edge (it_edge i)).

(** forest.hpp:53-63 leading_of / trailing_of. *)
Definition leading_of (i : iter) : iter := Iter (it_node i) leading.
(** forest.hpp:53-63 trailing_of. *)
Definition trailing_of (i : iter) : iter := Iter (it_node i) trailing.

(** forest.hpp:67-79 is_leading / is_trailing. *)
Definition is_leading (i : iter) : bool :=
  match it_edge i with leading => true | trailing => false end.
(** forest.hpp:67-79 is_trailing. *)
Definition is_trailing (i : iter) : bool :=
  match it_edge i with leading => false | trailing => true end.

Section forest.
Context {V : Type}.

(** forest.hpp:514-545 node_base::_nodes (a 2x2 array indexed by edge and direction) and
    node::_data.  The sentinel has no [_data]. *)
Record cell := Cell {
  c_tp : addr;  (* _nodes[trailing][prior_s] *)
  c_tn : addr;  (* _nodes[trailing][next_s]  *)
  c_lp : addr;  (* _nodes[leading][prior_s]  *)
  c_ln : addr;  (* _nodes[leading][next_s]   *)
  c_data : option V }.

(** forest.hpp:520-526 node_base::link (read). *)
Definition link (c : cell) (e : edge) (d : dir) : addr :=
  match e, d with
  | trailing, prior_s => c_tp c
  | trailing, next_s => c_tn c
  | leading, prior_s => c_lp c
  | leading, next_s => c_ln c
  end.

(** forest.hpp:520-522 node_base::link (write through the returned reference). *)
Definition upd_link (c : cell) (e : edge) (d : dir) (a : addr) : cell :=
  match e, d with
  | trailing, prior_s => Cell a (c_tn c) (c_lp c) (c_ln c) (c_data c)
  | trailing, next_s => Cell (c_tp c) a (c_lp c) (c_ln c) (c_data c)
  | leading, prior_s => Cell (c_tp c) (c_tn c) a (c_ln c) (c_data c)
  | leading, next_s => Cell (c_tp c) (c_tn c) (c_lp c) a (c_data c)
  end.

(** The live nodes. *)
Local Notation heap := (gmap nat cell).

(** [_node->], forest.hpp:608-637: undefined if the node is not live *)
Definition load (h : heap) (n : addr) : res cell :=
  match h !! n with Some c => Ok c | None => UB end.

(** forest.hpp:520-526 node_base::link (read) of a node. *)
Definition get_link (h : heap) (n : addr) (e : edge) (d : dir) : res addr :=
  let! c := load h n in Ok (link c e d).

(** forest.hpp:520-522 node_base::link (write) of a node. *)
Definition put_link (h : heap) (n : addr) (e : edge) (d : dir) (a : addr) : res heap :=
  let! c := load h n in Ok (<[n := upd_link c e d a]> h).

(** forest.hpp:530-532 node_base() : all four links point to the node itself. *)
Definition fresh_cell (n : addr) (d : option V) : cell := Cell n n n n d.

(** [new node_t(x)]: the allocator [al] returns some address that is not live. as at forest.hpp:865 *)
Definition allocator := heap -> addr.
(** [new node_t(x)], forest.hpp:865, 535-542 *)
Definition new_node (al : allocator) (h : heap) (d : option V) : heap * addr :=
  let n := al h in (<[n := fresh_cell n d]> h, n).

(** [delete p]: freeing something that is not a live heap node is undefined. as at forest.hpp:1011 *)
Definition delete_node (h : heap) (n : addr) : res heap :=
  let! c := load h n in
  match c_data c with Some _ => Ok (delete n h) | None => UB end.

(** forest.hpp:608 dereference. *)
Definition deref (h : heap) (i : iter) : res V :=
  let! c := load h (it_node i) in
  match c_data c with Some v => Ok v | None => UB end.

(** forest.hpp:610-619 forest_iterator::increment. *)
Definition increment (h : heap) (i : iter) : res iter :=
  let! nx := get_link h (it_node i) (it_edge i) next_s in
  match it_edge i with
  | leading => Ok (Iter nx (if decide (nx = it_node i) then trailing else leading))
  | trailing =>
      let! lp := get_link h nx leading prior_s in
      Ok (Iter nx (if decide (lp = it_node i) then leading else trailing))
  end.

(** forest.hpp:621-630 forest_iterator::decrement. *)
Definition decrement (h : heap) (i : iter) : res iter :=
  let! nx := get_link h (it_node i) (it_edge i) prior_s in
  match it_edge i with
  | leading =>
      let! tn := get_link h nx trailing next_s in
      Ok (Iter nx (if decide (tn = it_node i) then trailing else leading))
  | trailing => Ok (Iter nx (if decide (nx = it_node i) then leading else trailing))
  end.

(** forest.hpp:748-755 set_next_fn<forest_iterator>. *)
Definition set_next (h : heap) (x y : iter) : res heap :=
  let! h1 := put_link h (it_node x) (it_edge x) next_s (it_node y) in
  put_link h1 (it_node y) (it_edge y) prior_s (it_node x).

(** forest.hpp:85-90 find_parent. *)
Fixpoint find_parent (fuel : nat) (h : heap) (i : iter) : res iter :=
  match fuel with
  | O => OOF
  | S fuel =>
      let! j := increment h (trailing_of i) in
      if is_trailing j then Ok j else find_parent fuel h j
  end.

(** forest.hpp:95-97 has_children. *)
Definition has_children (h : heap) (i : iter) : res bool :=
  let! j := increment h (leading_of i) in
  Ok (bool_decide (it_node i <> it_node j)).

(** forest.hpp:147-154 child_iterator::increment / decrement (a child_iterator is its base). *)
Definition child_increment (h : heap) (i : iter) : res iter := increment h (pivot_of i).
(** forest.hpp:150-154 child_iterator::decrement. *)
Definition child_decrement (h : heap) (i : iter) : res iter :=
  let! j := decrement h i in Ok (pivot_of j).

(** forest.hpp:941-945 set_next_fn<child_iterator>. *)
Definition child_set_next (h : heap) (x y : iter) : res heap := set_next h (pivot_of x) y.

(** forest.hpp:161-173 find_edge / find_edge_reverse. *)
Fixpoint find_edge (fuel : nat) (h : heap) (x : iter) (e : edge) : res iter :=
  if decide (it_edge x = e) then Ok x
  else match fuel with
       | O => OOF
       | S fuel => let! y := increment h x in find_edge fuel h y e
       end.
(** forest.hpp:161-173 find_edge_reverse. *)
Fixpoint find_edge_reverse (fuel : nat) (h : heap) (x : iter) (e : edge) : res iter :=
  if decide (it_edge x = e) then Ok x
  else match fuel with
       | O => OOF
       | S fuel => let! y := decrement h x in find_edge_reverse fuel h y e
       end.

(** forest.hpp:223-225 edge_iterator::increment / decrement (an edge_iterator is its base). *)
Definition edge_increment (fuel : nat) (h : heap) (e : edge) (x : iter) : res iter :=
  let! y := increment h x in find_edge fuel h y e.
(** forest.hpp:223-225 edge_iterator::decrement. *)
Definition edge_decrement (fuel : nat) (h : heap) (e : edge) (x : iter) : res iter :=
  let! y := decrement h x in find_edge_reverse fuel h y e.

(** forest.hpp:908-909 the forest object: its sentinel and the cached size. *)
Record fobj := FObj { f_tail : addr; f_size : Z }.
(** assignment to _size, forest.hpp:909 *)
Definition with_size (f : fobj) (s : Z) : fobj := FObj (f_tail f) s.

(** forest.hpp:825-831 root / begin / end. *)
Definition f_root (f : fobj) : iter := Iter (f_tail f) leading.
(** forest.hpp:825-831 end. *)
Definition f_end (f : fobj) : iter := Iter (f_tail f) trailing.
(** forest.hpp:825-831 begin. *)
Definition f_begin (h : heap) (f : fobj) : res iter := increment h (f_root f).

(** forest.hpp:820 empty. *)
Definition f_empty (h : heap) (f : fobj) : res bool :=
  let! b := f_begin h f in Ok (bool_decide (b = f_end f)).

(** forest.hpp:819 size_valid. *)
Definition size_valid (h : heap) (f : fobj) : res bool :=
  if decide (f_size f <> 0%Z) then Ok true else f_empty h f.

(** std::distance over edge_iterators, used by size() (forest.hpp:959); [fe] is the fuel of
    the edge search of each step. *)
Fixpoint edge_distance (fe fuel : nat) (h : heap) (e : edge) (x last : iter) : res Z :=
  if decide (x = last) then Ok 0%Z
  else match fuel with
       | O => OOF
       | S fuel =>
           let! y := edge_increment fe h e x in
           let! d := edge_distance fe fuel h e y last in Ok (1 + d)%Z
       end.

(** forest.hpp:954-963 size (updates the mutable cache). *)
Definition size (fuel : nat) (h : heap) (f : fobj) : res (fobj * Z) :=
  let! v := size_valid h f in
  if (v : bool) then Ok (f, f_size f)
  else
    let! b := f_begin h f in
    let! first := find_edge fuel h b leading in
    let! last := find_edge fuel h (f_end f) leading in
    let! d := edge_distance fuel fuel h leading first last in
    Ok (with_size f d, d).

(** forest.hpp:838-853 front / back. *)
Definition front (h : heap) (f : fobj) : res V :=
  let! e := f_empty h f in
  let! _ := assert_ (negb e) in
  let! b := f_begin h f in deref h b.
(** forest.hpp:838-853 back. *)
Definition back (h : heap) (f : fobj) : res V :=
  let! e := f_empty h f in
  let! _ := assert_ (negb e) in
  let! b := decrement h (f_end f) in deref h b.

(** forest.hpp:864-873 insert(position, x). *)
Definition insert (al : allocator) (h : heap) (f : fobj) (pos : iter) (x : V)
  : res (heap * fobj * iter) :=
  let '(h0, n) := new_node al h (Some x) in
  let result := Iter n leading in
  let! v := size_valid h0 f in
  let f' := if v : bool then with_size f (f_size f + 1)%Z else f in
  let! p := decrement h0 pos in
  let! h1 := set_next h0 p result in
  let! q := increment h1 result in
  let! h2 := set_next h1 q pos in
  Ok (h2, f', result).

(** forest.hpp:990-1014 erase(position). *)
Definition erase (h : heap) (f : fobj) (pos : iter) : res (heap * fobj * iter) :=
  let! v := size_valid h f in
  let f' := if v : bool then with_size f (f_size f - 1)%Z else f in
  let! leading_prior := decrement h (leading_of pos) in
  let! leading_next := increment h (leading_of pos) in
  let! trailing_prior := decrement h (trailing_of pos) in
  let! trailing_next := increment h (trailing_of pos) in
  let! hc := has_children h pos in
  let! h1 := (if hc : bool then
                let! ha := set_next h leading_prior leading_next in
                set_next ha trailing_prior trailing_next
              else set_next h leading_prior trailing_next) in
  let! h2 := delete_node h1 (it_node pos) in
  let! r := (if is_leading pos then increment h2 leading_prior else Ok trailing_next) in
  Ok (h2, f', r).

(** forest.hpp:968-985 erase(first, last); [depth] is [stack_depth]. *)
Fixpoint erase_loop (fuel : nat) (h : heap) (f : fobj) (pos last : iter) (depth : Z)
  : res (heap * fobj) :=
  if decide (pos = last) then Ok (h, f)
  else match fuel with
       | O => OOF
       | S fuel =>
           match it_edge pos with
           | leading =>
               let! pos' := increment h pos in
               erase_loop fuel h f pos' last (depth + 1)%Z
           | trailing =>
               let! '(h', f', pos') :=
                 (if decide (depth > 0)%Z then erase h f pos
                  else let! p := increment h pos in Ok (h, f, p)) in
               erase_loop fuel h' f' pos' last (Z.max 0 (depth - 1))
           end
       end.
(** forest.hpp:968-985 erase(first, last). *)
Definition erase_range (fuel : nat) (h : heap) (f : fobj) (first last : iter)
  : res (heap * fobj * iter) :=
  let! '(h', f') := erase_loop fuel h f first last 0%Z in Ok (h', f', last).

(** forest.hpp:856-859 clear (with its assert). *)
Definition clear (fuel : nat) (h : heap) (f : fobj) : res (heap * fobj) :=
  let! b := f_begin h f in
  let! '(h', f', _) := erase_range fuel h f b (f_end f) in
  let! e := f_empty h' f' in
  let! _ := assert_ e in
  Ok (h', f').

(** forest.hpp:875-884 push_front / push_back / pop_front / pop_back. *)
Definition push_front (al : allocator) (h : heap) (f : fobj) (x : V) : res (heap * fobj) :=
  let! b := f_begin h f in
  let! '(h', f', _) := insert al h f b x in Ok (h', f').
(** forest.hpp:875-884 push_back. *)
Definition push_back (al : allocator) (h : heap) (f : fobj) (x : V) : res (heap * fobj) :=
  let! '(h', f', _) := insert al h f (f_end f) x in Ok (h', f').
(** forest.hpp:875-884 pop_front. *)
Definition pop_front (h : heap) (f : fobj) : res (heap * fobj) :=
  let! e := f_empty h f in
  let! _ := assert_ (negb e) in
  let! b := f_begin h f in
  let! '(h', f', _) := erase h f b in Ok (h', f').
(** forest.hpp:875-884 pop_back. *)
Definition pop_back (h : heap) (f : fobj) : res (heap * fobj) :=
  let! e := f_empty h f in
  let! _ := assert_ (negb e) in
  let! b := decrement h (f_end f) in
  let! '(h', f', _) := erase h f b in Ok (h', f').

(** forest.hpp:1048-1081 splice(pos, x, first, last, count).  [f] is [*this], [g] is [x];
    [same] is [&x == this], in which case [g] is unused and returned unchanged. *)
Definition splice (h : heap) (f g : fobj) (same : bool) (pos first last : iter) (count : Z)
  : res (heap * fobj * fobj * iter) :=
  if decide (first = last) then Ok (h, f, g, pos)
  else if decide (first = pos) then Ok (h, f, g, pos)
  else
    let! '(f', g') :=
      (if same then Ok (f, g)
       else if decide (count <> 0%Z) then
         let! vf := size_valid h f in
         let! vg := size_valid h g in
         Ok (if vf : bool then with_size f (f_size f + count)%Z else f,
             if vg : bool then with_size g (f_size g - count)%Z else g)
       else Ok (with_size f 0%Z, with_size g 0%Z)) in
    let! bk := decrement h last in
    let! pf := child_decrement h first in
    let! h1 := child_set_next h pf last in
    let! pp := decrement h1 pos in
    let! h2 := set_next h1 pp first in
    let! h3 := set_next h2 bk pos in
    Ok (h3, f', g', first).

(** forest.hpp:1019-1022 splice(pos, x): the whole forest [x]. *)
Definition splice_all (fuel : nat) (h : heap) (f g : fobj) (pos : iter)
  : res (heap * fobj * fobj * iter) :=
  let! b := f_begin h g in
  let! v := size_valid h g in
  let! '(g1, c) := (if v : bool then size fuel h g else Ok (g, 0%Z)) in
  splice h f g1 false pos b (f_end g1) c.

(** forest.hpp:1027-1031 splice(pos, x, i): one node with its subtree. *)
Definition splice_one (h : heap) (f g : fobj) (same : bool) (pos i : iter)
  : res (heap * fobj * fobj * iter) :=
  let i := leading_of i in
  let! nx := child_increment h i in
  let! hc := has_children h i in
  splice h f g same pos i nx (if hc : bool then 0%Z else 1%Z).

(** forest.hpp:1086-1092 insert_parent. *)
Definition insert_parent (al : allocator) (h : heap) (f : fobj) (first last : iter) (x : V)
  : res (heap * fobj * iter) :=
  let! '(h1, f1, result) := insert al h f last x in
  if decide (first = last) then Ok (h1, f1, result)
  else
    let! '(h2, f2, _, _) := splice h1 f1 f1 true (trailing_of result) first result 0%Z in
    Ok (h2, f2, result).

(** forest.hpp:1036-1043 insert(pos, first, last): copies of the range [first,last). *)
Fixpoint insert_range (fuel : nat) (al : allocator) (h : heap) (f : fobj) (pos first last : iter)
  : res (heap * fobj * iter) :=
  if decide (first = last) then Ok (h, f, pos)
  else match fuel with
       | O => OOF
       | S fuel =>
           let! '(h1, f1, pos1) :=
             (if is_leading first then
                let! v := deref h first in insert al h f pos v
              else Ok (h, f, pos)) in
           let! first' := increment h1 first in
           let! pos' := increment h1 pos1 in
           insert_range fuel al h1 f1 pos' first' last
       end.

(** reverse.hpp:33-41 unsafe::reverse_append on child iterators, as written:
    [I prior(end)] copies [end], not [first]. *)
Fixpoint reverse_append (fuel : nat) (h : heap) (first last en : iter) : res (heap * iter) :=
  if decide (first = last) then Ok (h, en)
  else match fuel with
       | O => OOF
       | S fuel =>
           let prior := en in
           let! first' := child_increment h first in
           let! h1 := child_set_next h prior en in
           reverse_append fuel h1 first' last prior
       end.

(** reverse.hpp:56-58 unsafe::reverse_nodes. *)
Definition reverse_nodes (fuel : nat) (h : heap) (first last : iter) : res (heap * iter) :=
  reverse_append fuel h first last last.

(** forest.hpp:1097-1102 forest::reverse. *)
Definition f_reverse (fuel : nat) (h : heap) (first last : iter) : res heap :=
  let! prior := decrement h first in
  let! '(h1, first1) := reverse_nodes fuel h first last in
  set_next h1 prior first1.

(** forest.hpp:795 forest() : a fresh sentinel, size 0. *)
Definition new_forest (al : allocator) (h : heap) : heap * fobj :=
  let '(h', n) := new_node al h None in (h', FObj n 0%Z).

(** forest.hpp:796 ~forest() : clear, then the sentinel's storage disappears. *)
Definition destroy_forest (fuel : nat) (h : heap) (f : fobj) : res heap :=
  let! '(h', f') := clear fuel h f in Ok (delete (f_tail f') h').

(** forest.hpp:798-800 forest(const forest&). *)
Definition copy_forest (fuel : nat) (al : allocator) (h : heap) (x : fobj) : res (heap * fobj) :=
  let '(h0, f) := new_forest al h in
  let! b := f_begin h0 x in
  let! '(h1, f1, _) := insert_range fuel al h0 f (f_end f) b (f_end x) in
  Ok (h1, f1).

(** forest.hpp:801 forest(forest&&). Returns the new forest and the moved-from one. *)
Definition move_forest (fuel : nat) (al : allocator) (h : heap) (x : fobj)
  : res (heap * fobj * fobj) :=
  let '(h0, f) := new_forest al h in
  let! '(h1, f1, x1, _) := splice_all fuel h0 f x (f_end f) in
  Ok (h1, f1, x1).

(** forest.hpp:808-813 operator=(forest&&), including the destruction of [tmp].
    [same] is [this == &x]; then [x] is ignored and the result is returned twice. *)
Definition move_assign (fuel : nat) (al : allocator) (h : heap) (f x : fobj) (same : bool)
  : res (heap * fobj * fobj) :=
  let! '(h1, tmp, x1) := move_forest fuel al h (if same then f else x) in
  let f0 := if same then x1 else f in
  let! '(h2, f1) := clear fuel h1 f0 in
  let! '(h3, f2, tmp1, _) := splice_all fuel h2 f1 tmp (f_end f1) in
  let! h4 := destroy_forest fuel h3 tmp1 in
  Ok (h4, f2, if same then f2 else x1).

(** forest.hpp:802-806 operator=(const forest&), [this != &x] being asserted. *)
Definition copy_assign (fuel : nat) (al : allocator) (h : heap) (f x : fobj)
  : res (heap * fobj) :=
  let! _ := assert_ (bool_decide (f_tail f <> f_tail x)) in
  let! '(h1, c) := copy_forest fuel al h x in
  let! '(h2, f1, c1) := move_assign fuel al h1 f c false in
  let! h3 := destroy_forest fuel h2 c1 in
  Ok (h3, f1).

(** forest.hpp:815 swap = std::swap: tmp(move(a)); a = move(b); b = move(tmp); ~tmp. *)
Definition swap_forest (fuel : nat) (al : allocator) (h : heap) (a b : fobj)
  : res (heap * fobj * fobj) :=
  let! '(h1, tmp, a1) := move_forest fuel al h a in
  let! '(h2, a2, b1) := move_assign fuel al h1 a1 b false in
  let! '(h3, b2, tmp1) := move_assign fuel al h2 b1 tmp false in
  let! h4 := destroy_forest fuel h3 tmp1 in
  Ok (h4, a2, b2).

(** forest.hpp:918-927 operator== ([eqb] is the value type's equality). *)
Fixpoint eq_loop (fuel : nat) (eqb : V -> V -> bool) (h : heap) (first last pos : iter)
  : res bool :=
  if decide (first = last) then Ok true
  else match fuel with
       | O => OOF
       | S fuel =>
           if decide (it_edge first <> it_edge pos) then Ok false
           else
             let! same := (if is_leading first then
                             let! a := deref h first in
                             let! b := deref h pos in Ok (eqb a b)
                           else Ok true) in
             if same : bool then
               let! first' := increment h first in
               let! pos' := increment h pos in
               eq_loop fuel eqb h first' last pos'
             else Ok false
       end.
(** forest.hpp:918-927 operator==: the sizes, then the loop. *)
Definition f_eq (fuel : nat) (eqb : V -> V -> bool) (h : heap) (x y : fobj)
  : res (fobj * fobj * bool) :=
  let! '(x', sx) := size fuel h x in
  let! '(y', sy) := size fuel h y in
  if decide (sx <> sy) then Ok (x', y', false)
  else
    let! first := f_begin h x' in
    let! pos := f_begin h y' in
    let! r := eq_loop fuel eqb h first (f_end x') pos in
    Ok (x', y', r).

(** forest.hpp:1107-1116 child_begin / child_end. *)
Definition child_begin (h : heap) (x : iter) : res iter := increment h (leading_of x).
(** forest.hpp:1107-1116 child_end. *)
Definition child_end (x : iter) : iter := trailing_of x.

(** forest.hpp:1134-1141 child_adaptor. *)
Definition ca_back (h : heap) (x : iter) : res V :=
  let! i := child_decrement h (child_end x) in deref h i.
(** forest.hpp:1134-1141 front. *)
Definition ca_front (h : heap) (x : iter) : res V :=
  let! i := child_begin h x in deref h i.
(** forest.hpp:1134-1141 push_back. *)
Definition ca_push_back (al : allocator) (h : heap) (f : fobj) (x : iter) (v : V) :=
  insert al h f (child_end x) v.
(** forest.hpp:1134-1141 push_front. *)
Definition ca_push_front (al : allocator) (h : heap) (f : fobj) (x : iter) (v : V) :=
  let! b := child_begin h x in insert al h f b v.
(** [--child_end(_iterator).base()]: the full-order predecessor of the trailing edge. forest.hpp:1134-1141 *)
Definition ca_pop_back (h : heap) (f : fobj) (x : iter) :=
  let! i := decrement h (child_end x) in erase h f i.
(** forest.hpp:1134-1141 pop_front. *)
Definition ca_pop_front (h : heap) (f : fobj) (x : iter) :=
  let! i := child_begin h x in erase h f i.

(** forest.hpp:349-422 reverse_fullorder_iterator: fields [_base], [_edge]. *)
Record riter := RIter { r_base : iter; r_edge : edge }.
(** line 359 constructor from a forward iterator. *)
Definition r_make (h : heap) (x : iter) : res riter :=
  let! b := decrement h x in Ok (RIter b (pivot_edge (it_edge b))).
(** line 364 base(). *)
Definition r_base_of (h : heap) (r : riter) : res iter := increment h (r_base r).
(** lines 407-416 increment / decrement. *)
Definition r_increment (h : heap) (r : riter) : res riter :=
  let! b := decrement h (Iter (it_node (r_base r)) (pivot_edge (r_edge r))) in
  Ok (RIter b (pivot_edge (it_edge b))).
(** lines 407-416 decrement. *)
Definition r_decrement (h : heap) (r : riter) : res riter :=
  let! b := increment h (Iter (it_node (r_base r)) (pivot_edge (r_edge r))) in
  Ok (RIter b (pivot_edge (it_edge b))).

(** forest.hpp:427-498 depth_fullorder_iterator: fields [_x], [_depth]. *)
Record diter := DIter { d_x : iter; d_depth : Z }.
(** line 434 constructor; depth_range (1203-1207) makes both its ends with it. *)
Definition d_make (x : iter) : diter := DIter x 0.
(** [difference_type(size_t(old_edge) << 1) - 1]. *)
Definition depth_delta (e : edge) : Z :=
  (Z.shiftl (match e with trailing => 0 | leading => 1 end) 1 - 1)%Z.
(** lines 483-495 increment / decrement. *)
Definition d_increment (h : heap) (d : diter) : res diter :=
  let! y := increment h (d_x d) in
  Ok (DIter y (if decide (it_edge (d_x d) = it_edge y)
               then d_depth d + depth_delta (it_edge (d_x d)) else d_depth d)%Z).
(** lines 483-495 decrement. *)
Definition d_decrement (h : heap) (d : diter) : res diter :=
  let! y := decrement h (d_x d) in
  Ok (DIter y (if decide (it_edge (d_x d) = it_edge y)
               then d_depth d - depth_delta (it_edge (d_x d)) else d_depth d)%Z).

(** forest.hpp:234-344 filter_fullorder_iterator: fields [_x], [_inside]; [_first], [_last],
    [_predicate] are parameters. *)
Record flt := Flt { fl_x : iter; fl_inside : bool }.
(** lines 313-321 skip_forward. *)
Fixpoint skip_forward (fuel : nat) (h : heap) (p : V -> bool) (f l : iter) : res iter :=
  if is_leading f && negb (bool_decide (f = l)) then
    let! v := deref h f in
    if p v then Ok f
    else match fuel with
         | O => OOF
         | S fuel => let! f' := increment h (trailing_of f) in skip_forward fuel h p f' l
         end
  else Ok f.
(** lines 323-331 skip_backward. *)
Fixpoint skip_backward (fuel : nat) (h : heap) (p : V -> bool) (f l : iter) : res iter :=
  if is_trailing l && negb (bool_decide (f = l)) then
    let! v := deref h l in
    if p v then Ok l
    else match fuel with
         | O => OOF
         | S fuel => let! l' := decrement h (leading_of l) in skip_backward fuel h p f l'
         end
  else Ok l.
(** lines 244-245 constructor. *)
Definition fl_make (fuel : nat) (h : heap) (p : V -> bool) (f l : iter) : res flt :=
  let! x := skip_forward fuel h p f l in Ok (Flt x true).
(** lines 303-311 increment. *)
Definition fl_increment (fuel : nat) (h : heap) (p : V -> bool) (first last : iter) (s : flt)
  : res flt :=
  let ins := if decide (fl_x s = last) then false else fl_inside s in
  let! i := increment h (fl_x s) in
  let ins := if decide (i = first) then true else ins in
  let! j := (if ins : bool then skip_forward fuel h p i last else Ok i) in
  Ok (Flt j ins).
(** lines 333-341 decrement. *)
Definition fl_decrement (fuel : nat) (h : heap) (p : V -> bool) (first last : iter) (s : flt)
  : res flt :=
  let ins := if decide (fl_x s = first) then false else fl_inside s in
  let! i := decrement h (fl_x s) in
  let ins := if decide (i = last) then true else ins in
  let! j := (if ins : bool then skip_backward fuel h p first i else Ok i) in
  Ok (Flt j ins).

(** The operations of a full-order iterator type [A] that flatten and transcribe use:
    [++first], [first != last], [is_leading(first)] and [*first]. forest_algorithms.hpp:79-122 *)
Record iterops (A : Type) := IterOps {
  io_next : A -> res A;
  io_done : A -> bool;
  io_lead : A -> bool;
  io_get : A -> res V }.
(** forest iterators, up to [last]. forest.hpp:596-637 *)
Definition plain_ops (h : heap) (last : iter) : iterops iter :=
  IterOps iter (increment h) (fun x => bool_decide (x = last)) is_leading (deref h).
(** filter_fullorder iterators (forest.hpp:287-290 operator== compares the bases). *)
Definition filter_ops (fuel : nat) (h : heap) (p : V -> bool) (first last : iter) : iterops flt :=
  IterOps flt (fl_increment fuel h p first last) (fun x => bool_decide (fl_x x = last))
    (fun x => is_leading (fl_x x)) (fun x => deref h (fl_x x)).
(** reverse_fullorder iterators (forest.hpp:419-421 equal; 417 dereference). *)
Definition reverse_ops (h : heap) (last : riter) : iterops riter :=
  IterOps riter (r_increment h)
    (fun x => bool_decide (r_base x = r_base last) && bool_decide (r_edge x = r_edge last))
    (fun x => bool_decide (r_edge x = leading)) (fun x => deref h (r_base x)).

(** forest_algorithms.hpp:113-122 flatten: the optional values written to the output. *)
Fixpoint flatten {A} (fuel : nat) (O : iterops A) (first : A) : res (list (option V)) :=
  if io_done _ O first then Ok []
  else match fuel with
       | O => OOF
       | S fuel =>
           let! o := (if io_lead _ O first then let! v := io_get _ O first in Ok (Some v)
                      else Ok None) in
           let! first' := io_next _ O first in
           let! r := flatten fuel O first' in Ok (o :: r)
       end.

End forest.

Arguments cell V : clear implicits.
Notation heap V := (gmap nat (cell V)).
Arguments allocator V : clear implicits.
Arguments iterops V A : clear implicits.
Arguments IterOps {V A} io_next io_done io_lead io_get.
Arguments io_next {V A}. Arguments io_done {V A}. Arguments io_lead {V A}. Arguments io_get {V A}.

(** forest_algorithms.hpp:23-30 equal_shape, for two forests of possibly different value types. *)
Section shape.
Context {V W : Type}.
(** forest_algorithms.hpp:23-32 equal_shape, the loop. *)
Fixpoint shape_loop (fuel : nat) (hx : heap V) (hy : heap W) (first last pos : iter) : res bool :=
  if decide (first = last) then Ok true
  else match fuel with
       | O => OOF
       | S fuel =>
           if decide (it_edge first <> it_edge pos) then Ok false
           else
             let! first' := increment hx first in
             let! pos' := increment hy pos in
             shape_loop fuel hx hy first' last pos'
       end.
(** forest_algorithms.hpp:23-32 equal_shape. *)
Definition equal_shape (fuel : nat) (hx : heap V) (hy : heap W) (x y : fobj) : res bool :=
  let! vx := size_valid hx x in
  let! vy := (if vx : bool then size_valid hy y else Ok false) in
  let! differ := (if vx && vy then
                    let! '(_, sx) := size fuel hx x in
                    let! '(_, sy) := size fuel hy y in
                    Ok (bool_decide (sx <> sy))
                  else Ok false) in
  if differ : bool then Ok false
  else
    let! pos := f_begin hy y in
    let! first := f_begin hx x in
    shape_loop fuel hx hy first (f_end x) pos.

(** forest_algorithms.hpp:35-71 transcribe_iterator holds the container and a position [i]:
    assignment inserts at [i], trailing() moves to the trailing edge, ++ is ++i.
    81-107 transcribe(first, last, out, proj, pred), the source iterators being any full-order
    iterators over values [V]; [pred] receives the iterator ([io_lead] by default, line 100). The
    source is not changed by the insertions: it lives in a forest other than the target. *)
Fixpoint transcribe {A} (fuel : nat) (O : iterops V A) (proj : V -> W) (pred : A -> bool)
    (al : allocator W) (first : A) (h : heap W) (f : fobj) (i : iter)
  : res (heap W * fobj * iter) :=
  if io_done O first then Ok (h, f, i)
  else match fuel with
       | O => OOF
       | S fuel =>
           let! '(h1, f1, i1) :=
             (if pred first then
                let! v := io_get O first in insert al h f i (proj v)
              else Ok (h, f, trailing_of i)) in
           let! first' := io_next O first in
           let! i2 := increment h1 i1 in
           transcribe fuel O proj pred al first' h1 f1 i2
       end.
End shape.

(** A ForwardIterator over a sequence of [std::optional], as the remaining elements; reading an
    empty optional is undefined. As unflatten uses it, forest_algorithms.hpp:126-132. *)
Definition opt_ops {V} : iterops V (list (option V)) :=
  IterOps (fun l => match l with [] => UB | _ :: l => Ok l end)
    (fun l => match l with [] => true | _ => false end)
    (fun l => match l with Some _ :: _ => true | _ => false end)
    (fun l => match l with Some v :: _ => Ok v | _ => UB end).

(** forest_algorithms.hpp:73-76, 128-132: unflatten is transcribe starting at [f.begin()], with
    [proj x = *x] and [pred p = bool( *p)]. *)
Definition unflatten {V} (al : allocator V) (h : heap V) (f : fobj) (xs : list (option V))
  : res (heap V * fobj * iter) :=
  let! b := f_begin h f in
  transcribe (length xs) opt_ops (fun v => v) (io_lead opt_ops) al xs h f b.
