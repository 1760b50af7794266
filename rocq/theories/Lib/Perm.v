(** Permutations of lists of numbers by counting. *)
From Coq Require Import Permutation Lia.
From stdpp Require Import list.

Definition cnt (x : nat) (l : list nat) : nat := count_occ Nat.eq_dec l x.
Lemma cnt_app x a b : cnt x (a ++ b) = cnt x a + cnt x b.
Proof. apply count_occ_app. Qed.
Lemma cnt_cons x y l : cnt x (y :: l) = cnt x [y] + cnt x l.
Proof. apply (cnt_app x [y] l). Qed.
Lemma cnt_nil x : cnt x [] = 0.
Proof. done. Qed.
Lemma perm_cnt l1 l2 : l1 ≡ₚ l2 <-> forall x, cnt x l1 = cnt x l2.
Proof. apply (Permutation_count_occ Nat.eq_dec). Qed.
Lemma cnt_in x l : x ∈ l <-> 0 < cnt x l.
Proof. rewrite elem_of_list_In. apply (count_occ_In Nat.eq_dec). Qed.
Lemma cnt_nodup l : NoDup l <-> forall x, cnt x l <= 1.
Proof. rewrite NoDup_ListNoDup. apply (NoDup_count_occ Nat.eq_dec). Qed.
Lemma cnt_self x : cnt x [x] = 1.
Proof. unfold cnt. simpl. by destruct (Nat.eq_dec x x). Qed.

(** Proves a permutation that follows from the permutations in the context by rearrangement. *)
Ltac perm_solve :=
  rewrite ?perm_cnt in *;
  let x := fresh "x" in intros x;
  repeat match goal with H : forall y : nat, cnt y _ = cnt y _ |- _ => specialize (H x) end;
  rewrite ?cnt_app in *;
  repeat match goal with
  | |- context [cnt x (?y :: ?z :: ?l)] => rewrite (cnt_cons x y (z :: l))
  | H : context [cnt x (?y :: ?z :: ?l)] |- _ => rewrite (cnt_cons x y (z :: l)) in H
  | |- context [cnt x (?y :: ?l)] => match l with nil => fail 1 | _ => rewrite (cnt_cons x y l) end
  | H : context [cnt x (?y :: ?l)] |- _ => match l with nil => fail 1 | _ => rewrite (cnt_cons x y l) in H end
  end;
  rewrite ?cnt_app in *; rewrite ?(cnt_nil x) in *; lia.
