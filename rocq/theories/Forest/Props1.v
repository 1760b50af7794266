(** C01-C12: the forest's structure, its modifiers and its object operations. *)
From stdpp Require Import gmap list.
From Coq Require Import ZArith Lia.
From Verif.Forest Require Import Model Spec Rep World WorldSpec ProofTree ProofCopy ProofCopy2 ProofEdge
  ProofAlg ProofWorld ProofMisc ProofFinal ProofFinal2 Example ProofRefute.

(** [Rep h f l] (Rep.v): the object [f] over the heap [h] represents the trees [l].
    [reach al w] (WorldSpec.v): [w] is reached from the empty world by allowed commands. *)

Section props.
Context {V : Type}.
Implicit Types (h : heap V) (f g : fobj) (l r k : list (tree V)) (C D : list (@frame V)).

(** * C01 *)
Theorem C01_fullorder_traversal h f l fuel : Rep h f l -> 2 * fcount l <= fuel ->
  exists b, f_begin h f = Ok b /\ walk (increment h) fuel b (f_end f) = Ok (fword l) /\
    length (fword l) = 2 * fcount l /\ increment h (f_end f) = Ok (f_root f).
Proof. exact (traversal h f l fuel). Qed.

(** Every object of every reachable world represents some trees, uniquely. *)
Theorem C01_reachable_represents al (w : world V) x f : good_alloc al -> reach al w -> w_objs w !! x = Some f ->
  exists l, Rep (w_heap w) f l /\ forall k, Rep (w_heap w) f k -> k = l.
Proof.
  exact (fun Hal Hr Ex => let '(ex_intro _ t (ex_intro _ l (conj _ (conj R _)))) := size_reach al w x f Hal Hr Ex in
    ex_intro _ l (conj R (fun k Rk => Rep_det _ _ _ _ _ Rk R eq_refl))).
Qed.

(** * C02 *)
Theorem C02_increment_decrement_inverse h f l x : Rep h f l -> x ∈ f_root f :: fword l ++ [f_end f] ->
  exists y z, increment h x = Ok y /\ decrement h y = Ok x /\ decrement h x = Ok z /\ increment h z = Ok x.
Proof. exact (inverse h f l x). Qed.

(** * C03 *)
Theorem C03_insert al h f C l r x : Rep h f (plug C (l ++ r)) -> h !! al h = None ->
  let n := al h in
  exists h' f', insert al h f (gap (f_tail f) C r) x = Ok (h', f', Iter n leading) /\
    f_tail f' = f_tail f /\
    Rep h' f' (plug C (l ++ Node n x [] :: r)) /\
    (forall g k, Rep h g k -> fdisj f (plug C (l ++ r)) g k ->
       Rep h' g k /\ fdisj f' (plug C (l ++ Node n x [] :: r)) g k).
Proof.
  exact (fun R Hf => let '(ex_intro _ h' (ex_intro _ f' (conj E (conj Et (conj R' F))))) := insert_eff al h f C l r x R Hf in
    ex_intro _ h' (ex_intro _ f' (conj E (conj Et (conj R' (eff_others _ _ _ _ _ _ F)))))).
Qed.

(** Every position in [begin(), end()] is such a gap, in exactly one forest decomposition. *)
Theorem C03_every_position (t : nat) l x : x ∈ fword l ++ [Iter t trailing] ->
  exists C a r, l = plug C (a ++ r) /\ x = gap t C r.
Proof. exact (gap_cover t l x). Qed.

Theorem C03_push_front al h f l x : Rep h f l -> h !! al h = None ->
  exists h' f', push_front al h f x = Ok (h', f') /\ f_tail f' = f_tail f /\
    Rep h' f' (Node (al h) x [] :: l) /\ eff h h' (fp f l) (fp f' (Node (al h) x [] :: l)).
Proof. exact (push_front_spec al h f l x). Qed.

Theorem C03_push_back al h f l x : Rep h f l -> h !! al h = None ->
  exists h' f', push_back al h f x = Ok (h', f') /\ f_tail f' = f_tail f /\
    Rep h' f' (l ++ [Node (al h) x []]) /\ eff h h' (fp f l) (fp f' (l ++ [Node (al h) x []])).
Proof. exact (push_back_spec al h f l x). Qed.

(** * C04 *)
Theorem C04_erase h f C a n v cs b e : Rep h f (plug C (a ++ Node n v cs :: b)) ->
  let t := f_tail f in
  exists h' f', erase h f (Iter n e) =
      Ok (h', f', match e with leading => gap t C (cs ++ b) | trailing => gap t C b end) /\
    f_tail f' = t /\ Rep h' f' (plug C (a ++ cs ++ b)) /\ h' !! n = None /\
    (forall m, m <> n -> is_Some (h' !! m) <-> is_Some (h !! m)) /\
    (forall g k, Rep h g k -> fdisj f (plug C (a ++ Node n v cs :: b)) g k -> Rep h' g k).
Proof. exact (erase_final h f C a n v cs b e). Qed.

Theorem C04_every_node l n : n ∈ fnodes l -> exists C a v cs b, l = plug C (a ++ Node n v cs :: b).
Proof. exact (node_cover l n). Qed.

Theorem C04_pop_front h f n v cs l : Rep h f (Node n v cs :: l) ->
  exists h' f', pop_front h f = Ok (h', f') /\ f_tail f' = f_tail f /\ Rep h' f' (cs ++ l) /\ h' !! n = None /\
    eff h h' (fp f (Node n v cs :: l)) (fp f' (cs ++ l)).
Proof. exact (pop_front_spec h f n v cs l). Qed.

Theorem C04_pop_back h f n v cs l : Rep h f (l ++ [Node n v cs]) ->
  exists h' f', pop_back h f = Ok (h', f') /\ f_tail f' = f_tail f /\ Rep h' f' (l ++ cs) /\ h' !! n = None /\
    eff h h' (fp f (l ++ [Node n v cs])) (fp f' (l ++ cs)).
Proof. exact (pop_back_spec h f n v cs l). Qed.

(** * C05 *)
Theorem C05_erase_range h f l (p r q : list iter) fuel : Rep h f l -> fword l = p ++ r ++ q -> length r <= fuel ->
  let t := f_tail f in
  exists h' f' l', erase_range fuel h f (firstp t (r ++ q)) (firstp t q) = Ok (h', f', firstp t q) /\
    f_tail f' = t /\ Rep h' f' l' /\
    fword l' = filter (fun x => ~ both r (it_node x)) (fword l) /\
    fpre l' = filter (fun x => ~ both r x.1) (fpre l) /\
    (forall n, both r n -> h' !! n = None) /\
    (forall g k, Rep h g k -> fdisj f l g k -> Rep h' g k).
Proof. exact (erase_range_final h f l p r q fuel). Qed.

Theorem C05_clear h f l fuel : Rep h f l -> 2 * fcount l <= fuel ->
  exists h' f', clear fuel h f = Ok (h', f') /\ f_tail f' = f_tail f /\ Rep h' f' [] /\
    (forall n, n ∈ fnodes l -> h' !! n = None) /\
    (forall g k, Rep h g k -> fdisj f l g k -> Rep h' g k).
Proof. exact (clear_final h f l fuel). Qed.

(** * C06 *)
Theorem C06_splice h f g C a s b D c d count :
  Rep h g (plug C (a ++ s ++ b)) -> Rep h f (plug D (c ++ d)) ->
  fdisj f (plug D (c ++ d)) g (plug C (a ++ s ++ b)) -> s <> [] ->
  count = 0%Z \/ count = Z.of_nat (fcount s) ->
  let tf := f_tail f in let tg := f_tail g in
  exists h' f' g', splice h f g false (gap tf D d) (gap tg C (s ++ b)) (gap tg C b) count
      = Ok (h', f', g', gap tg C (s ++ b)) /\
    f_tail f' = tf /\ f_tail g' = tg /\
    Rep h' f' (plug D (c ++ s ++ d)) /\ Rep h' g' (plug C (a ++ b)) /\
    fdisj f' (plug D (c ++ s ++ d)) g' (plug C (a ++ b)) /\
    eff h h' (fp f (plug D (c ++ d)) ++ fp g (plug C (a ++ s ++ b)))
             (fp f' (plug D (c ++ s ++ d)) ++ fp g' (plug C (a ++ b))).
Proof. exact (splice_diff_eff h f g C a s b D c d count). Qed.

Theorem C06_splice_within h f g C a s b D c d count :
  Rep h f (plug C (a ++ s ++ b)) -> plug C (a ++ b) = plug D (c ++ d) -> s <> [] ->
  let t := f_tail f in
  exists h', splice h f g true (gap t D d) (gap t C (s ++ b)) (gap t C b) count
      = Ok (h', f, g, gap t C (s ++ b)) /\
    Rep h' f (plug D (c ++ s ++ d)) /\
    eff h h' (fp f (plug C (a ++ s ++ b))) (fp f (plug D (c ++ s ++ d))).
Proof. exact (splice_same_eff h f g C a s b D c d count). Qed.

(** An empty range, or a position equal to the range's beginning: nothing happens. *)
Theorem C06_splice_nothing h f g same pos first last count : first = last \/ first = pos ->
  splice h f g same pos first last count = Ok (h, f, g, pos).
Proof. exact (splice_nothing h f g same pos first last count). Qed.

Theorem C06_splice_all h f g k D c d fuel :
  Rep h g k -> Rep h f (plug D (c ++ d)) -> fdisj f (plug D (c ++ d)) g k ->
  2 * fcount k + 1 <= fuel ->
  let tf := f_tail f in let tg := f_tail g in
  exists h' f' g', splice_all fuel h f g (gap tf D d) = Ok (h', f', g', gap tf D (k ++ d)) /\
    f_tail f' = tf /\ f_tail g' = tg /\
    Rep h' f' (plug D (c ++ k ++ d)) /\ Rep h' g' [] /\
    fdisj f' (plug D (c ++ k ++ d)) g' [] /\
    eff h h' (fp f (plug D (c ++ d)) ++ fp g k) (fp f' (plug D (c ++ k ++ d)) ++ fp g' (@nil (tree V))).
Proof. exact (splice_all_eff h f g k D c d fuel). Qed.

Theorem C06_splice_one h f g C a n v cs b D c d e :
  Rep h g (plug C (a ++ Node n v cs :: b)) -> Rep h f (plug D (c ++ d)) ->
  fdisj f (plug D (c ++ d)) g (plug C (a ++ Node n v cs :: b)) ->
  let tf := f_tail f in let tg := f_tail g in
  exists h' f' g', splice_one h f g false (gap tf D d) (Iter n e) = Ok (h', f', g', Iter n leading) /\
    f_tail f' = tf /\ f_tail g' = tg /\
    Rep h' f' (plug D (c ++ Node n v cs :: d)) /\ Rep h' g' (plug C (a ++ b)) /\
    fdisj f' (plug D (c ++ Node n v cs :: d)) g' (plug C (a ++ b)) /\
    eff h h' (fp f (plug D (c ++ d)) ++ fp g (plug C (a ++ Node n v cs :: b)))
             (fp f' (plug D (c ++ Node n v cs :: d)) ++ fp g' (plug C (a ++ b))).
Proof. exact (splice_one_diff_eff h f g C a n v cs b D c d e). Qed.

Theorem C06_splice_one_within h f g C a n v cs b D c d e :
  Rep h f (plug C (a ++ Node n v cs :: b)) -> plug C (a ++ b) = plug D (c ++ d) ->
  let t := f_tail f in
  exists h', splice_one h f g true (gap t D d) (Iter n e) = Ok (h', f, g, Iter n leading) /\
    Rep h' f (plug D (c ++ Node n v cs :: d)) /\
    eff h h' (fp f (plug C (a ++ Node n v cs :: b))) (fp f (plug D (c ++ Node n v cs :: d))).
Proof. exact (splice_one_same_eff h f g C a n v cs b D c d e). Qed.

(** * C07 *)
Theorem C07_insert_parent al h f C a s b x :
  Rep h f (plug C (a ++ s ++ b)) -> h !! al h = None ->
  let n := al h in let t := f_tail f in
  exists h' f', insert_parent al h f (gap t C (s ++ b)) (gap t C b) x = Ok (h', f', Iter n leading) /\
    f_tail f' = t /\
    Rep h' f' (plug C (a ++ Node n x s :: b)) /\
    eff h h' (fp f (plug C (a ++ s ++ b))) (fp f' (plug C (a ++ Node n x s :: b))).
Proof. exact (insert_parent_eff al h f C a s b x). Qed.

(** * C08 *)
Theorem C08_size_after_any_history al (w : world V) x f : good_alloc al -> reach al w -> w_objs w !! x = Some f ->
  exists t l, f_tail f = t /\ Rep (w_heap w) f l /\
    (exists f', size (wfuel w) (w_heap w) f = Ok (f', Z.of_nat (fcount l))) /\
    (size_valid (w_heap w) f = Ok true -> f_size f = Z.of_nat (fcount l)).
Proof. exact (size_reach al w x f). Qed.

Theorem C08_size_preserves h f l fuel : Rep h f l -> 2 * fcount l + 1 <= fuel ->
  exists f', size fuel h f = Ok (f', Z.of_nat (fcount l)) /\ f_tail f' = f_tail f /\ Rep h f' l /\
    size_valid h f' = Ok true.
Proof. exact (size_final h f l fuel). Qed.

(** * C09 *)
Theorem C09_copy al h x k fuel : good_alloc al -> Rep h x k -> 2 * fcount k <= fuel ->
  exists h' f' k', copy_forest fuel al h x = Ok (h', f') /\ Rep h' f' k' /\ map strip k' = map strip k /\
    Rep h' x k /\ fdisj f' k' x k /\ (forall m, m ∈ fp f' k' -> h !! m = None).
Proof. exact (copy_final al h x k fuel). Qed.

Theorem C09_move al h x k fuel : good_alloc al -> Rep h x k -> 2 * fcount k + 1 <= fuel ->
  exists h' f' x', move_forest fuel al h x = Ok (h', f', x') /\ Rep h' f' k /\ Rep h' x' [] /\
    f_tail x' = f_tail x /\ f_tail f' = al h /\ fdisj f' k x' [] /\
    eff h h' (fp x k) (fp f' k ++ fp x' (@nil (tree V))).
Proof. exact (move_forest_eff al h x k fuel). Qed.

Theorem C09_copy_assign al h f l x k fuel : good_alloc al -> Rep h f l -> Rep h x k -> fdisj f l x k ->
  2 * fcount k + 1 <= fuel -> 2 * fcount l <= fuel ->
  exists h' f' k', copy_assign fuel al h f x = Ok (h', f') /\ Rep h' f' k' /\ Rep h' x k /\
    map strip k' = map strip k /\ f_tail f' = f_tail f /\ fdisj f' k' x k /\
    eff h h' (fp f l) (fp f' k').
Proof. exact (copy_assign_eff al h f l x k fuel). Qed.

Theorem C09_move_assign al h f l x k fuel : good_alloc al -> Rep h f l -> Rep h x k -> fdisj f l x k ->
  2 * fcount k + 1 <= fuel -> 2 * fcount l <= fuel ->
  exists h' f' x', move_assign fuel al h f x false = Ok (h', f', x') /\ Rep h' f' k /\ Rep h' x' [] /\
    f_tail x' = f_tail x /\ f_tail f' = f_tail f /\ fdisj f' k x' [] /\
    eff h h' (fp f l ++ fp x k) (fp f' k ++ fp x' (@nil (tree V))).
Proof. exact (move_assign_eff al h f l x k fuel). Qed.

Theorem C09_move_assign_self al h f l x fuel : good_alloc al -> Rep h f l -> 2 * fcount l + 1 <= fuel ->
  exists h' f', move_assign fuel al h f x true = Ok (h', f', f') /\ Rep h' f' l /\
    f_tail f' = f_tail f /\ eff h h' (fp f l) (fp f' l).
Proof. exact (move_assign_self_eff al h f l x fuel). Qed.

Theorem C09_swap al h f l x k fuel : good_alloc al -> Rep h f l -> Rep h x k -> fdisj f l x k ->
  2 * fcount k + 1 <= fuel -> 2 * fcount l + 1 <= fuel ->
  exists h' f' x', swap_forest fuel al h f x = Ok (h', f', x') /\ Rep h' f' k /\ Rep h' x' l /\
    f_tail f' = f_tail f /\ f_tail x' = f_tail x /\ fdisj f' k x' l /\
    eff h h' (fp f l ++ fp x k) (fp f' k ++ fp x' l).
Proof. exact (swap_forest_eff al h f l x k fuel). Qed.

(** * C10 *)
Theorem C10_equality h x l y k fuel (eqb : V -> V -> bool) : (forall a b, eqb a b = true <-> a = b) ->
  Rep h x l -> Rep h y k -> 2 * fcount l + 1 <= fuel -> 2 * fcount k + 1 <= fuel ->
  exists x' y' b, f_eq fuel eqb h x y = Ok (x', y', b) /\ Rep h x' l /\ Rep h y' k /\
    (b = true <-> map strip l = map strip k).
Proof. exact (f_eq_true h x l y k fuel eqb). Qed.

(** For any comparison of values, lawful or not. *)
Theorem C10_equality_any h x l y k fuel (eqb : V -> V -> bool) :
  Rep h x l -> Rep h y k -> 2 * fcount l + 1 <= fuel -> 2 * fcount k + 1 <= fuel ->
  exists x' y' b, f_eq fuel eqb h x y = Ok (x', y', b) /\ Rep h x' l /\ Rep h y' k /\
    (b = true <-> sim (fun v u => eqb v u = true) l k).
Proof. exact (f_eq_spec eqb h x l y k fuel). Qed.

(** * C11 *)
Theorem C11_commands_succeed al (w : world V) M o : good_alloc al -> view w M -> allowed M o ->
  exists w' M', exec al w o = Ok w' /\ sstep M o M' /\ view w' M'.
Proof. exact (exec_step al w M o). Qed.

Theorem C11_no_leak al (w : world V) : good_alloc al -> reach al w ->
  exists M, view w M /\
    (forall n, is_Some (w_heap w !! n) <-> exists x t l, M !! x = Some (t, l) /\ (n = t \/ n ∈ fnodes l)) /\
    (w_objs w = ∅ -> w_heap w = ∅).
Proof. exact (no_leak al w). Qed.

Theorem C11_view_unique (w : world V) M M' : view w M -> view w M' -> M = M'.
Proof. exact (view_det w M M'). Qed.

(** * C12 *)
Theorem C12_reverse_refuted : exists (h h' : heap nat) f (C : list (@frame nat)) (a s b : list (tree nat)) fuel,
  Rep h f (plug C (a ++ s ++ b)) /\
  f_reverse fuel h (gap (f_tail f) C (s ++ b)) (gap (f_tail f) C b) = Ok h' /\
  ~ Rep h' f (plug C (a ++ rev s ++ b)).
Proof. exact reverse_witness. Qed.

Theorem C12_reverse_drops_single_node_refuted : exists (h h' : heap nat) f n (v : nat) fuel, Rep h f [Node n v []] /\
    f_reverse fuel h (Iter n leading) (f_end f) = Ok h' /\ f_empty h' f = Ok true.
Proof. exact reverse_one_witness. Qed.

(** Only the empty range is handled correctly. *)
Theorem C12_reverse_empty_partial h f C a b fuel : Rep h f (plug C (a ++ b)) ->
  exists h', f_reverse fuel h (gap (f_tail f) C b) (gap (f_tail f) C b) = Ok h' /\ Rep h' f (plug C (a ++ b)).
Proof. exact (reverse_empty h f C a b fuel). Qed.

(** No other range is: whatever non-empty sibling range is given, the result is not the reversed forest. *)
Theorem C12_reverse_nonempty_refuted h h' f C a s b fuel : Rep h f (plug C (a ++ s ++ b)) -> s <> [] ->
  f_reverse fuel h (gap (f_tail f) C (s ++ b)) (gap (f_tail f) C b) = Ok h' ->
  ~ Rep h' f (plug C (a ++ rev s ++ b)).
Proof. exact (reverse_never h h' f C a s b fuel). Qed.

End props.

(** * The hypotheses are met by a concrete forest *)
(** [ex_h]/[ex_f] is the forest 10(11 12(14)) 13, built by running the model's own commands. *)
Notation Cx := [([], 1, 10, [Node 4 13 []])].
Notation t2 := (Node 2 11 []).
Notation t3 := (Node 3 12 [Node 5 14 []]).

Example C01_ex := C01_fullorder_traversal ex_h ex_f ex_l 10 ex_rep (le_n _).
Example C01_reach_ex := C01_reachable_represents bump (es_w 7) 2 (FObj 5 0) bump_good es_reach eq_refl.
Example C02_ex : exists y z, increment ex_h (Iter 3 trailing) = Ok y /\ decrement ex_h y = Ok (Iter 3 trailing) /\
  decrement ex_h (Iter 3 trailing) = Ok z /\ increment ex_h z = Ok (Iter 3 trailing).
Proof. apply (C02_increment_decrement_inverse ex_h ex_f ex_l _ ex_rep). apply elem_of_list_In. vm_compute. tauto. Qed.
Example C03_ex := C03_insert bump ex_h ex_f Cx [t2] [t3] 77 ex_rep eq_refl.
Example C03_front_ex := C03_push_front bump ex_h ex_f ex_l 77 ex_rep eq_refl.
Example C03_back_ex := C03_push_back bump ex_h ex_f ex_l 77 ex_rep eq_refl.
Example C04_ex := C04_erase ex_h ex_f Cx [t2] 3 12 [Node 5 14 []] [] leading ex_rep.
Example C04_front_ex := C04_pop_front ex_h ex_f 1 10 [t2; t3] [Node 4 13 []] ex_rep.
Example C04_back_ex := C04_pop_back ex_h ex_f 4 13 [] [Node 1 10 [t2; t3]] ex_rep.
(** From inside node 1 to inside node 3: node 2 goes, node 3 keeps its place. *)
Example C05_ex := C05_erase_range ex_h ex_f ex_l [L 1] [L 2; T 2; L 3]
  [L 5; T 5; T 3; T 1; L 4; T 4] 3 ex_rep eq_refl (le_n _).
Example C05_clear_ex := C05_clear ex_h ex_f ex_l 10 ex_rep (le_n _).
Example C06_ex : exists h' f' g',
  splice (w_heap (es_w 7)) (FObj 0 1) (FObj 5 0) false (Iter 0 trailing) (Iter 3 leading) (Iter 4 leading) 0 = Ok (h', f', g', Iter 3 leading) /\
  Rep h' f' [Node 1 7 []; Node 3 8 []] /\ Rep h' g' [Node 4 9 []].
Proof.
  destruct (C06_splice (w_heap (es_w 7)) (FObj 0 1) (FObj 5 0) [] [] [Node 3 8 []] [Node 4 9 []] [] [Node 1 7 []] [] 0)
    as (h' & f' & g' & E & _ & _ & R1 & R2 & _); [apply rep_check_ok; reflexivity|apply rep_check_ok; reflexivity| |discriminate|auto|].
  - intros n H1 H2. apply elem_of_list_In in H1, H2. vm_compute in H1, H2. intuition congruence.
  - exists h', f', g'. auto.
Qed.
(** Node 3 moves from the children of 1 to the end of the top level. *)
Example C06_within_ex := C06_splice_within ex_h ex_f ex_f Cx [t2] [t3] [] [] [Node 1 10 [t2]; Node 4 13 []] [] 0
  ex_rep eq_refl ltac:(discriminate).
Example C06_one_within_ex := C06_splice_one_within ex_h ex_f ex_f Cx [t2] 3 12 [Node 5 14 []] [] []
  [Node 1 10 [t2]; Node 4 13 []] [] trailing ex_rep eq_refl.
Example C07_ex := C07_insert_parent bump ex_h ex_f Cx [] [t2; t3] [] 77 ex_rep eq_refl.
Example C08_ex := C08_size_after_any_history bump (es_w 7) 2 (FObj 5 0) bump_good es_reach eq_refl.
Example C08_size_ex := C08_size_preserves ex_h ex_f ex_l 11 ex_rep (le_n _).
Example C09_copy_ex := C09_copy bump ex_h ex_f ex_l 10 bump_good ex_rep (le_n _).
Example C09_move_ex := C09_move bump ex_h ex_f ex_l 11 bump_good ex_rep (le_n _).
Lemma es_disj : fdisj (FObj 0 1) [Node 1 7 []] (FObj 5 0) [Node 3 8 []; Node 4 9 []].
Proof. intros n H1 H2. apply elem_of_list_In in H1, H2. vm_compute in H1, H2. intuition congruence. Qed.
Lemma es_rep0 : Rep (w_heap (es_w 7)) (FObj 0 1) [Node 1 7 []].
Proof. apply rep_check_ok. reflexivity. Qed.
Lemma es_rep2 : Rep (w_heap (es_w 7)) (FObj 5 0) [Node 3 8 []; Node 4 9 []].
Proof. apply rep_check_ok. reflexivity. Qed.
Example C06_all_ex := C06_splice_all _ _ _ [Node 3 8 []; Node 4 9 []] [] [Node 1 7 []] [] 5 es_rep2 es_rep0 es_disj (le_n _).
Example C06_one_ex := C06_splice_one _ _ _ [] [Node 3 8 []] 4 9 [] [] [] [] [Node 1 7 []] leading es_rep2 es_rep0 es_disj.
Example C09_copy_assign_ex := C09_copy_assign bump _ _ _ _ _ 5 bump_good es_rep0 es_rep2 es_disj (le_n _) ltac:(vm_compute; lia).
Example C09_move_assign_ex := C09_move_assign bump _ _ _ _ _ 5 bump_good es_rep0 es_rep2 es_disj (le_n _) ltac:(vm_compute; lia).
Example C09_move_assign_self_ex := C09_move_assign_self bump ex_h ex_f ex_l ex_f 11 bump_good ex_rep (le_n _).
Example C09_swap_ex := C09_swap bump _ _ _ _ _ 5 bump_good es_rep0 es_rep2 es_disj (le_n _) ltac:(vm_compute; lia).
Example C10_ex := C10_equality ex_h ex_f ex_l ex_f ex_l 11 Nat.eqb Nat.eqb_eq ex_rep ex_rep (le_n _) (le_n _).
Example C11_ex := C11_no_leak bump (es_w 7) bump_good es_reach.
Example C11_step_ex := C11_commands_succeed bump (es_w 7) _ (OSwap 0 2) bump_good es_view.
Example C12_ex := C12_reverse_empty_partial ex_h ex_f Cx [t2] [t3] 5 ex_rep.
Example C12_nonempty_ex := C12_reverse_nonempty_refuted ex_h rev_h ex_f Cx [] [t2; t3] [] 10 ex_rep
  ltac:(discriminate) ltac:(vm_compute; reflexivity).

Print Assumptions C01_fullorder_traversal.
Print Assumptions C01_reachable_represents.
Print Assumptions C02_increment_decrement_inverse.
Print Assumptions C03_insert.
Print Assumptions C03_every_position.
Print Assumptions C03_push_front.
Print Assumptions C03_push_back.
Print Assumptions C04_erase.
Print Assumptions C04_every_node.
Print Assumptions C04_pop_front.
Print Assumptions C04_pop_back.
Print Assumptions C05_erase_range.
Print Assumptions C05_clear.
Print Assumptions C06_splice.
Print Assumptions C06_splice_within.
Print Assumptions C06_splice_nothing.
Print Assumptions C06_splice_all.
Print Assumptions C06_splice_one.
Print Assumptions C06_splice_one_within.
Print Assumptions C07_insert_parent.
Print Assumptions C08_size_after_any_history.
Print Assumptions C08_size_preserves.
Print Assumptions C09_copy.
Print Assumptions C09_move.
Print Assumptions C09_copy_assign.
Print Assumptions C09_move_assign.
Print Assumptions C09_move_assign_self.
Print Assumptions C09_swap.
Print Assumptions C10_equality.
Print Assumptions C10_equality_any.
Print Assumptions C11_commands_succeed.
Print Assumptions C11_no_leak.
Print Assumptions C11_view_unique.
Print Assumptions C12_reverse_refuted.
Print Assumptions C12_reverse_drops_single_node_refuted.
Print Assumptions C12_reverse_empty_partial.
Print Assumptions C12_reverse_nonempty_refuted.
