(** Model of /repo/include/stlab/concurrency/tuple_algorithm.hpp and of index_sequence_transform
    (/repo/include/stlab/utility.hpp:55-102).

    A std::tuple is a list of elements of one universal type [A]; the recursive templates indexed by
    I and L become functions that recurse on the distance L - I. [std::get<I>] outside the tuple does
    not compile; it is the outcome [None]. *)
From stdpp Require Import list.

Section tuple.
Context {A : Type}.
Implicit Types (t : list A).

(** tuple_find_impl<I, L>::find, 41-52, with n = L - I *)
Fixpoint tuple_find_impl (i n : nat) t (op : A -> bool) : option nat :=
  match n with
  | O => Some i
  | S n => match t !! i with
           | None => None
           | Some x => if op x then Some i else tuple_find_impl (i + 1) n t op
           end
  end.

(** tuple_find, 119-125: the empty tuple answers 1 *)
Definition tuple_find t (op : A -> bool) : option nat :=
  if length t =? 0 then Some 1 else tuple_find_impl 0 (length t) t op.

(** tuple_for_each_impl, 54-65, and tuple_for_each, 130-133; [op] may modify the element and its own
    state [S] *)
Context {St B : Type}.
(** tuple_for_each_impl, tuple_algorithm.hpp:54-65 *)
Fixpoint for_each_impl (i n : nat) (op : A -> St -> A * St) t (s : St) : option (list A * St) :=
  match n with
  | O => Some (t, s)
  | S n => match t !! i with
           | None => None
           | Some x => let '(y, s) := op x s in for_each_impl (i + 1) n op (<[i := y]> t) s
           end
  end.
(** tuple_algorithm.hpp:130-133 *)
Definition tuple_for_each (op : A -> St -> A * St) t s := for_each_impl 0 (length t) op t s.

(** get_i_impl::go, 75-90, and get_i, 139-143 *)
Fixpoint get_i_impl (i n : nat) t (index : nat) (f : A -> B) (d : B) : option B :=
  match n with
  | O => Some d
  | S n => if index =? i then f <$> t !! i else get_i_impl (i + 1) n t index f d
  end.
(** get_i, tuple_algorithm.hpp:139-143 *)
Definition get_i t index (f : A -> B) (d : B) := get_i_impl 0 (length t) t index f d.

(** void_i_impl::go, 92-108, and void_i, 148-151; [f] modifies the element *)
Fixpoint void_i_impl (i n : nat) t (index : nat) (f : A -> A) : option (list A) :=
  match n with
  | O => Some t
  | S n => if index =? i then (fun x => <[i := f x]> t) <$> t !! i else void_i_impl (i + 1) n t index f
  end.
(** void_i, tuple_algorithm.hpp:148-151 *)
Definition void_i t index (f : A -> A) := void_i_impl 0 (length t) t index f.

(** apply_impl, 159-162: the arguments passed, in order *)
Definition apply_impl t (seq : list nat) : option (list A) := mapM (fun i => t !! i) seq.

(** apply_ignore_placeholders, 226-231: all indices, in spite of its name *)
Definition apply_ignore_placeholders t : option (list A) := apply_impl t (seq 0 (length t)).

(** apply_indexed, 249-252 *)
Definition apply_indexed (s : list nat) t : option (list A) := apply_impl t s.

(** map_placeholder, 179-192, and remove_placeholder::function, 236-243: [ph] says which element
    types are placeholder or optional<placeholder> *)
Context (ph : A -> bool).
(** tuple_algorithm.hpp:179-192, 236-243 *)
Definition remove_placeholder t (index : nat) : option (list nat) :=
  (fun x => if ph x then [] else [index]) <$> t !! index.

End tuple.

(** index_sequence_transform, utility.hpp:78-102; [f n] is F<n>::type (None: does not compile) *)
Fixpoint index_sequence_transform (fuel : nat) (s : list nat) (f : nat -> option (list nat)) (index count : nat)
  : option (list nat) :=
  match fuel with
  | O => None
  | S fuel =>
    match count with
    | O => Some []
    | 1 => s !! index ≫= f
    | _ => a ← index_sequence_transform fuel s f index (count / 2);
           b ← index_sequence_transform fuel s f (index + count / 2) (count - count / 2);
           Some (a ++ b)
    end
  end.

(** all_true: two packs are the same type; traits.hpp:23-26 *)
Definition all_true (v : list bool) : bool := bool_decide (true :: v = v ++ [true]).
