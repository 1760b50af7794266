(** Model of [reverse_until] (/repo/include/stlab/algorithm/reverse.hpp:99-113).

    The underlying sequence is a list, an iterator is an index into it. Decrementing the iterator
    at index 0 or dereferencing an index outside the sequence is undefined behaviour. The template
    parameter I (any bidirectional iterator) is abstracted to indices: ++ and -- are the only
    movements used, iter_swap the only access. *)
From stdpp Require Import list.

(** outcome of a call of reverse_until, reverse.hpp:99-113: OOF is the model running out of fuel, which the theorems exclude *)
Inductive res (A : Type) := Ok (a : A) | UB | OOF.
Arguments Ok {A} a. Arguments UB {A}. Arguments OOF {A}.

(** std::iter_swap(f, l); as called at reverse.hpp:106 *)
Definition iter_swap {A} (s : list A) (i j : nat) : res (list A) :=
  match s !! i, s !! j with
  | Some x, Some y => Ok (<[j := x]> (<[i := y]> s))
  | _, _ => UB
  end.

(** reverse.hpp:103-112: while (f != m && m != l) { --l; iter_swap(f, l); ++f; } return (f, l) *)
Fixpoint reverse_until {A} (fuel : nat) (s : list A) (f m l : nat) : res (list A * nat * nat) :=
  if negb (f =? m) && negb (m =? l) then
    match fuel with
    | O => OOF
    | S fuel =>
      match l with
      | O => UB
      | S l => match iter_swap s f l with
               | Ok s => reverse_until fuel s (S f) m l
               | UB => UB | OOF => OOF
               end
      end
    end
  else Ok (s, f, l).
