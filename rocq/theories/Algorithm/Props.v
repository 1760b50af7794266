(** C20: reverse_until. *)
From stdpp Require Import list.
From Verif.Algorithm Require Import Model Proof.

(** The sequence is [p ++ x ++ y ++ q]; [f], [m], [l] delimit [x] and [y]. The result [(a, b)] leaves
    [mid = [a, b)] untouched, [Z] and [X] (equally long) have changed places, reversed. *)
Theorem C20_reverse_until {A} (p x y q : list A) fuel : Nat.min (length x) (length y) <= fuel ->
  let f := length p in let m := f + length x in let l := m + length y in
  exists X mid Z, x ++ y = X ++ mid ++ Z /\
    let a := f + length X in let b := l - length Z in
    length X = length Z /\ a <= b /\ (a = m \/ b = m) /\
    reverse_until fuel (p ++ x ++ y ++ q) f m l = Ok (p ++ rev Z ++ mid ++ rev X ++ q, a, b) /\
    length mid = b - a /\
    p ++ rev Z ++ rev mid ++ rev X ++ q = p ++ rev (x ++ y) ++ q.
Proof. exact (reverse_until_final p x y q fuel). Qed.

Example C20_ex := C20_reverse_until [9] [1; 2; 3] [4; 5] [8] 2 (le_n _).
Example C20_run : reverse_until 9 [9; 1; 2; 3; 4; 5; 8] 1 4 6 = Ok ([9; 5; 4; 3; 2; 1; 8], 3, 4).
Proof. reflexivity. Qed.

Print Assumptions C20_reverse_until.
