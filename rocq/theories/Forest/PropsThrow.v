(** C80: elements whose construction throws. *)
From stdpp Require Import gmap list.
From Coq Require Import ZArith Lia.
From Verif.Forest Require Import Model Spec Rep World WorldSpec ProofWorld ProofRefute Example Throw ThrowSpec ThrowProof ThrowRefute.

Section props.
Context {V : Type}.
Implicit Types (h : heap V) (f g : fobj) (l k s : list (tree V)) (C D : list (@frame V)).

(** [fcut s n]: the first [n] nodes in preorder, with their positions relative to each other. *)
Theorem C80_beginning l n : NoDup (fnodes l) ->
  fpre (fcut l n) = take n (fpre l) /\
  fword (fcut l n) = filter (fun x => it_node x ∈ take n (fnodes l)) (fword l).
Proof. exact (fun ND => conj (fcut_pre l n) (fcut_word l ND n)). Qed.

(** insert(pos, first, last): a forest with the elements that were constructed; the source is unchanged. *)
Theorem C80_insert_range al h f g C a s b D c d fuel n : good_alloc al ->
  Rep h g (plug C (a ++ s ++ b)) -> Rep h f (plug D (c ++ d)) -> fdisj f (plug D (c ++ d)) g (plug C (a ++ s ++ b)) ->
  2 * fcount s <= fuel ->
  let tf := f_tail f in let tg := f_tail g in
  exists h' f' s', insert_range_t fuel al n h f (gap tf D d) (gap tg C (s ++ b)) (gap tg C b)
      = Ok (h', f', if fcount s <=? n then Some (gap tf D d) else None) /\
    f_tail f' = tf /\ Rep h' f' (plug D (c ++ s' ++ d)) /\ map strip s' = map strip (fcut s n) /\
    Rep h' g (plug C (a ++ s ++ b)) /\
    eff h h' (fp f (plug D (c ++ d))) (fp f' (plug D (c ++ s' ++ d))).
Proof. exact (insert_range_t_final al h f g C a s b D c d fuel n). Qed.

(** Copy construction: every forest is unchanged, but the nodes constructed before the exception stay
    allocated, and are nobody's. *)
Theorem C80_copy_partial al h x k fuel n : good_alloc al -> Rep h x k -> 2 * fcount k <= fuel ->
  if fcount k <=? n then
    exists h' f', copy_forest_t fuel al n h x = Ok (h', Some f') /\ copy_forest fuel al h x = Ok (h', f')
  else
    exists h' lost, copy_forest_t fuel al n h x = Ok (h', None) /\ length lost = n /\ with_lost h h' lost /\
      forall g l, Rep h g l -> Rep h' g l.
Proof. exact (copy_forest_t_final al h x k fuel n). Qed.

(** Copy assignment: the target is unchanged too. *)
Theorem C80_assign_partial al h f l x k fuel n : good_alloc al -> Rep h f l -> Rep h x k -> fdisj f l x k ->
  2 * fcount k + 1 <= fuel -> 2 * fcount l <= fuel ->
  if fcount k <=? n then
    exists h' f', copy_assign_t fuel al n h f x = Ok (h', f', true) /\ copy_assign fuel al h f x = Ok (h', f')
  else
    exists h' lost, copy_assign_t fuel al n h f x = Ok (h', f, false) /\ length lost = n /\ with_lost h h' lost /\
      forall g l, Rep h g l -> Rep h' g l.
Proof. exact (copy_assign_t_final al h f l x k fuel n). Qed.

End props.

(** The second element of a forest throws: the copy of the first is leaked. *)
Theorem C80_leak_refuted : exists al (w : world nat) x f h' n m, good_alloc al /\ reach al w /\ w_objs w !! x = Some f /\
  copy_forest_t (wfuel w) al n (w_heap w) f = Ok (h', None) /\ w_heap w !! m = None /\ is_Some (h' !! m).
Proof. exact leak_witness. Qed.

(** The hypotheses are met by the forest 10(11 12(14)) 13. *)
Example C80_copy_ex : exists h' lost, copy_forest_t 10 bump 3 ex_h ex_f = Ok (h', None) /\ length lost = 3 /\
  with_lost ex_h h' lost /\ forall g l, Rep ex_h g l -> Rep h' g l.
Proof. exact (C80_copy_partial bump ex_h ex_f ex_l 10 3 bump_good ex_rep (le_n _)). Qed.
Example C80_assign_ex := C80_assign_partial bump _ _ _ _ _ 5 1 bump_good thr_rep0 thr_rep2 thr_disj (le_n _) ltac:(vm_compute; lia).
Example C80_insert_range_ex := C80_insert_range bump _ _ _ [] [] [Node 3 8 []; Node 4 9 []] [] [] [] [Node 1 7 []] 5 1 bump_good
  thr_rep2 thr_rep0 thr_disj ltac:(vm_compute; lia).
Example C80_beginning_ex : map strip (fcut ex_l 3) = [VNode 10 [VNode 11 []; VNode 12 []]].
Proof. reflexivity. Qed.

Print Assumptions C80_beginning.
Print Assumptions C80_insert_range.
Print Assumptions C80_copy_partial.
Print Assumptions C80_assign_partial.
Print Assumptions C80_leak_refuted.
