(** C81: insert(position, first, last) of a range of the same forest. *)
From stdpp Require Import gmap list.
From Coq Require Import ZArith Lia.
From Verif.Forest Require Import Model Spec Rep ProofWorld Example SelfProof.

Section props.
Context {V : Type}.
Implicit Types (h : heap V) (f : fobj) (a b c d s : list (tree V)) (C D : list (@frame V)).

(** The range [s] is copied to any position that is neither inside it nor its end. *)
Theorem C81_outside_partial al h f C a s b D c d fuel : good_alloc al ->
  let t := f_tail f in
  Rep h f (plug C (a ++ s ++ b)) -> plug D (c ++ d) = plug C (a ++ s ++ b) ->
  gap t D d ∉ tail (fword s ++ [gap t C b]) -> 2 * fcount s <= fuel ->
  exists h' f' s', insert_range fuel al h f (gap t D d) (gap t C (s ++ b)) (gap t C b) = Ok (h', f', gap t D d) /\
    f_tail f' = t /\ Rep h' f' (plug D (c ++ s' ++ d)) /\ map strip s' = map strip s /\
    eff h h' (fp f (plug C (a ++ s ++ b))) (fp f' (plug D (c ++ s' ++ d))).
Proof. exact (insert_range_outside al h f C a s b D c d fuel). Qed.

(** At any other position the loop does not end, whatever the forest and the range. *)
Theorem C81_inside_refuted al h f C a s b fuel x : good_alloc al -> let t := f_tail f in
  Rep h f (plug C (a ++ s ++ b)) -> s <> [] -> x ∈ tail (fword s ++ [gap t C b]) ->
  insert_range fuel al h f x (gap t C (s ++ b)) (gap t C b) = OOF.
Proof. exact (insert_range_inside al h f C a s b fuel x). Qed.

End props.

(** In the forest 10(11 12(14)) 13, the children of 10 are copied to before 10; but not after 12(14). *)
Notation Cx := [([], 1, 10, [Node 4 13 []])].
Notation t2 := (Node 2 11 []).
Notation t3 := (Node 3 12 [Node 5 14 []]).
Example C81_before_ex : exists h' f' s',
  insert_range 6 bump ex_h ex_f (Iter 1 leading) (Iter 2 leading) (Iter 1 trailing) = Ok (h', f', Iter 1 leading) /\
  f_tail f' = f_tail ex_f /\ Rep h' f' (s' ++ ex_l) /\ map strip s' = map strip [t2; t3] /\
  eff ex_h h' (fp ex_f ex_l) (fp f' (s' ++ ex_l)).
Proof.
  exact (C81_outside_partial bump ex_h ex_f Cx [] [t2; t3] [] [] [] ex_l 6 bump_good ex_rep eq_refl
    ltac:(rewrite elem_of_list_In; vm_compute; intuition discriminate) (le_n _)).
Qed.
Example C81_end_ex n : insert_range n bump ex_h ex_f (Iter 1 trailing) (Iter 2 leading) (Iter 1 trailing) = OOF.
Proof. exact (C81_inside_refuted bump ex_h ex_f Cx [] [t2; t3] [] n (T 1) bump_good ex_rep ltac:(discriminate)
  ltac:(rewrite elem_of_list_In; vm_compute; tauto)). Qed.

Print Assumptions C81_outside_partial.
Print Assumptions C81_inside_refuted.
