(** C13-C19: the forest's iterator adaptors and algorithms. *)
From stdpp Require Import gmap list.
From Coq Require Import ZArith Lia.
From Verif.Forest Require Import Model Spec Rep World WorldSpec ProofIter ProofIter2 ProofAlg
  ProofMisc ProofFinal ProofFinal2 Example ProofRefute.

Section props.
Context {V : Type}.
Implicit Types (h : heap V) (f g : fobj) (l cs ds : list (tree V)) (C : list (@frame V)).

(** * C13 *)
Theorem C13_parent h f C a n v cs b e m u ds b' e' fuel :
  Rep h f (plug C (a ++ Node n v (cs ++ Node m u ds :: b') :: b)) -> length b' + 1 <= fuel ->
  find_parent fuel h (Iter m e') = Ok (Iter n trailing) /\
  has_children h (Iter n e) = Ok true.
Proof. exact (parent_final h f C a n v cs b e m u ds b' e' fuel). Qed.

Theorem C13_parent_of_root h f a m u ds b e fuel : Rep h f (a ++ Node m u ds :: b) -> length b + 1 <= fuel ->
  find_parent fuel h (Iter m e) = Ok (f_end f).
Proof. exact (parent_root h f a m u ds b e fuel). Qed.

Theorem C13_has_children h f C a n v cs b e : Rep h f (plug C (a ++ Node n v cs :: b)) ->
  has_children h (Iter n e) = Ok (bool_decide (cs <> [])).
Proof. exact (has_children_spec h f C a n v cs b e). Qed.

Theorem C13_child_range h f C a n v cs b e fuel : Rep h f (plug C (a ++ Node n v cs :: b)) -> length cs <= fuel ->
  exists first, child_begin h (Iter n e) = Ok first /\
    walk_on id (child_increment h) fuel first (child_end (Iter n e)) = Ok (map root_of cs) /\
    rwalk_on id (child_decrement h) fuel (child_end (Iter n e)) first = Ok (rev (map root_of cs)).
Proof. exact (child_range h f C a n v cs b e fuel). Qed.

Theorem C13_root_range h f l e fuel : Rep h f l -> length l <= fuel ->
  exists first, child_begin h (Iter (f_tail f) e) = Ok first /\
    walk_on id (child_increment h) fuel first (child_end (Iter (f_tail f) e)) = Ok (map root_of l) /\
    rwalk_on id (child_decrement h) fuel (child_end (Iter (f_tail f) e)) first = Ok (rev (map root_of l)).
Proof. exact (root_range h f l e fuel). Qed.

Theorem C13_child_adaptor_front h f C a n v m u ds cs b e :
  Rep h f (plug C (a ++ Node n v (Node m u ds :: cs) :: b)) -> ca_front h (Iter n e) = Ok u.
Proof. exact (ca_front_spec h f C a n v m u ds cs b e). Qed.

Theorem C13_child_adaptor_back h f C a n v m u ds cs b e :
  Rep h f (plug C (a ++ Node n v (cs ++ [Node m u ds]) :: b)) -> ca_back h (Iter n e) = Ok u.
Proof. exact (ca_back_spec h f C a n v m u ds cs b e). Qed.

Theorem C13_child_adaptor_push_back al h f C a n v cs b e x :
  Rep h f (plug C (a ++ Node n v cs :: b)) -> h !! al h = None ->
  exists h' f', ca_push_back al h f (Iter n e) x = Ok (h', f', Iter (al h) leading) /\ f_tail f' = f_tail f /\
    Rep h' f' (plug C (a ++ Node n v (cs ++ [Node (al h) x []]) :: b)).
Proof. exact (ca_push_back_spec al h f C a n v cs b e x). Qed.

Theorem C13_child_adaptor_push_front al h f C a n v cs b e x :
  Rep h f (plug C (a ++ Node n v cs :: b)) -> h !! al h = None ->
  exists h' f', ca_push_front al h f (Iter n e) x = Ok (h', f', Iter (al h) leading) /\ f_tail f' = f_tail f /\
    Rep h' f' (plug C (a ++ Node n v (Node (al h) x [] :: cs) :: b)).
Proof. exact (ca_push_front_spec al h f C a n v cs b e x). Qed.

Theorem C13_child_adaptor_pop_back h f C a n v m u ds cs b e :
  Rep h f (plug C (a ++ Node n v (cs ++ [Node m u ds]) :: b)) ->
  exists h' f' i, ca_pop_back h f (Iter n e) = Ok (h', f', i) /\ f_tail f' = f_tail f /\
    Rep h' f' (plug C (a ++ Node n v (cs ++ ds) :: b)).
Proof. exact (ca_pop_back_spec h f C a n v m u ds cs b e). Qed.

Theorem C13_child_adaptor_pop_front h f C a n v m u ds cs b e :
  Rep h f (plug C (a ++ Node n v (Node m u ds :: cs) :: b)) ->
  exists h' f' i, ca_pop_front h f (Iter n e) = Ok (h', f', i) /\ f_tail f' = f_tail f /\
    Rep h' f' (plug C (a ++ Node n v (ds ++ cs) :: b)).
Proof. exact (ca_pop_front_spec h f C a n v m u ds cs b e). Qed.

(** * C14 *)
Theorem C14_preorder h f l fuel : Rep h f l -> 2 * fcount l + 2 <= fuel ->
  exists b first, f_begin h f = Ok b /\ find_edge fuel h b leading = Ok first /\
    find_edge fuel h (f_end f) leading = Ok (f_root f) /\
    walk_on id (edge_increment fuel h leading) fuel first (f_root f) = Ok (map (fun nv => Iter nv.1 leading) (fpre l)) /\
    rwalk_on id (edge_decrement fuel h leading) fuel (f_root f) first = Ok (rev (map (fun nv => Iter nv.1 leading) (fpre l))).
Proof. exact (preorder_range h f l fuel). Qed.

Theorem C14_postorder h f l fuel : Rep h f l -> 2 * fcount l + 2 <= fuel ->
  exists b first, f_begin h f = Ok b /\ find_edge fuel h b trailing = Ok first /\
    find_edge fuel h (f_end f) trailing = Ok (f_end f) /\
    walk_on id (edge_increment fuel h trailing) fuel first (f_end f) = Ok (map (fun nv => Iter nv.1 trailing) (fpost l)) /\
    rwalk_on id (edge_decrement fuel h trailing) fuel (f_end f) first = Ok (rev (map (fun nv => Iter nv.1 trailing) (fpost l))).
Proof. exact (postorder_range h f l fuel). Qed.

Theorem C14_values h f l n v e : Rep h f l -> (n, v) ∈ fpre l -> deref h (Iter n e) = Ok v.
Proof. exact (deref_value h f l n v e). Qed.

(** * C15 *)
Theorem C15_reverse_fullorder h f l fuel : Rep h f l -> 2 * fcount l <= fuel ->
  exists b first last, f_begin h f = Ok b /\ r_make h (f_end f) = Ok first /\ r_make h b = Ok last /\
    walk_on (fun x => (r_base x, r_edge x)) (r_increment h) fuel first (r_base last, r_edge last)
      = Ok (map (fun x => RIter x (pivot_edge (it_edge x))) (rev (fword l))) /\
    rwalk_on (fun x => (r_base x, r_edge x)) (r_decrement h) fuel last (r_base first, r_edge first)
      = Ok (map (fun x => RIter x (pivot_edge (it_edge x))) (fword l)).
Proof. exact (rev_walk h f l fuel). Qed.

(** A reverse iterator is made from, and gives back as its base, the forward position after the edge it shows. *)
Theorem C15_base h f l x : Rep h f l -> x ∈ f_root f :: fword l ++ [f_end f] ->
  exists z, decrement h x = Ok z /\ r_make h x = Ok (RIter z (pivot_edge (it_edge z))) /\ r_base_of h (RIter z (pivot_edge (it_edge z))) = Ok x.
Proof. exact (r_make_base h f l x). Qed.

(** The edges it shows are those of the mirror image's full order. *)
Theorem C15_is_mirror_image l :
  map (fun x => Iter (it_node x) (pivot_edge (it_edge x))) (rev (fword l)) = fword (fmirror l).
Proof. exact (fword_mirror l). Qed.

(** * C16 *)
Theorem C16_depth h f l ms i j : Rep h f l -> track (2 * fcount l) ms i = Some j ->
  forall x, (fdepths 0 l ++ [(f_end f, (-1)%Z)]) !! i = Some x ->
  exists y, (fdepths 0 l ++ [(f_end f, (-1)%Z)]) !! j = Some y /\
    run_moves (d_increment h) (d_decrement h) ms (DIter x.1 x.2) = Ok (DIter y.1 y.2).
Proof. exact (depth_moves h f l ms i j). Qed.

(** The depth listed is the number of proper ancestors. *)
Theorem C16_depth_is_ancestors l C a n v cs b e d : l = plug C (a ++ Node n v cs :: b) -> NoDup (fnodes l) ->
  (Iter n e, d) ∈ fdepths 0 l -> d = Z.of_nat (length C).
Proof. exact (depth_at l C a n v cs b e d). Qed.

(** depth_range's own end iterator reports wrong depths when decremented. *)
Theorem C16_depth_from_end_refuted : exists (h : heap nat) f (l : list (tree nat)) x n,
  Rep h f l /\ d_decrement h (d_make (f_end f)) = Ok x /\ d_x x = Iter n trailing /\
  (d_x x, 0%Z) ∈ fdepths 0 l /\ d_depth x = 1%Z.
Proof. exact depth_end_witness. Qed.

(** * C17 *)
Theorem C17_filter h f l p fuel : Rep h f l -> 2 * fcount l <= fuel ->
  exists b first, f_begin h f = Ok b /\ fl_make fuel h p b (f_end f) = Ok first /\
    fl_x first = hd (f_end f) (fword (fkeep p l)) /\
    walk_on fl_x (fl_increment fuel h p b (f_end f)) fuel first (f_end f)
      = Ok (map (fun x => Flt x true) (fword (fkeep p l))) /\
    rwalk_on fl_x (fl_decrement fuel h p b (f_end f)) fuel (Flt (f_end f) true) (fl_x first)
      = Ok (map (fun x => Flt x true) (rev (fword (fkeep p l)))).
Proof. exact (filter_walk h f l p fuel). Qed.

Theorem C17_filter_from_end_refuted : exists (h : heap nat) f (l : list (tree nat)) (p : nat -> bool) e x,
  Rep h f l /\ fl_make 10 h p (f_end f) (f_end f) = Ok e /\
  fl_decrement 10 h p (f_end f) (f_end f) e = Ok x /\ fl_x x ∉ fword (fkeep p l).
Proof. exact filter_end_witness. Qed.

(** * C18 *)
Theorem C18_flatten h f l fuel : Rep h f l -> 2 * fcount l <= fuel ->
  exists b, f_begin h f = Ok b /\ flatten fuel (plain_ops h (f_end f)) b = Ok (ftok l).
Proof. exact (flatten_plain h f l fuel). Qed.

Theorem C18_unflatten (al : allocator V) l h f k : good_alloc al -> Rep h f k ->
  exists h' f' i s, unflatten al h f (ftok l) = Ok (h', f', i) /\ f_tail f' = f_tail f /\
    Rep h' f' (s ++ k) /\ map strip s = map strip l /\ eff h h' (fp f k) (fp f' (s ++ k)).
Proof. exact (unflatten_spec al l h f k). Qed.

Theorem C18_round_trip (al : allocator V) h f l g fuel : good_alloc al -> Rep h f l -> Rep h g [] -> fdisj f l g [] ->
  2 * fcount l <= fuel ->
  exists b toks h' g' i (k : list (tree V)), f_begin h f = Ok b /\ flatten fuel (plain_ops h (f_end f)) b = Ok toks /\
    unflatten al h g toks = Ok (h', g', i) /\ Rep h' f l /\ Rep h' g' k /\ map strip k = map strip l.
Proof. exact (round_trip al h f l g fuel). Qed.

Theorem C18_transcribe {U} (al : allocator U) (proj : V -> U) h f l (hu : heap U) g (k : list (tree U)) fuel : good_alloc al ->
  Rep h f l -> Rep hu g k -> 2 * fcount l <= fuel ->
  exists b c hu' g' s, f_begin h f = Ok b /\ f_begin hu g = Ok c /\
    transcribe fuel (plain_ops h (f_end f)) proj (io_lead (plain_ops h (f_end f))) al b hu g c = Ok (hu', g', c) /\
    Rep hu' g' (s ++ k) /\ sim (fun v u => u = proj v) l s.
Proof. exact (transcribe_plain al proj h f l hu g k fuel). Qed.

Theorem C18_transcribe_filtered {U} (al : allocator U) (proj : V -> U) (p : V -> bool) h f l (hu : heap U) g (k : list (tree U)) fuel :
  good_alloc al -> Rep h f l -> Rep hu g k -> 2 * fcount l <= fuel ->
  exists b first c hu' g' s, f_begin h f = Ok b /\ fl_make fuel h p b (f_end f) = Ok first /\ f_begin hu g = Ok c /\
    transcribe fuel (filter_ops fuel h p b (f_end f)) proj (io_lead (filter_ops fuel h p b (f_end f))) al first hu g c = Ok (hu', g', c) /\
    Rep hu' g' (s ++ k) /\ sim (fun v u => u = proj v) (fkeep p l) s.
Proof. exact (transcribe_filter al proj p h f l hu g k fuel). Qed.

(** * C19 *)
Theorem C19_equal_shape_partial {W} (hx : heap V) (hy : heap W) x l y (k : list (tree W)) fuel : Rep hx x l -> Rep hy y k ->
  size_valid hx x = Ok true -> size_valid hy y = Ok true ->
  2 * fcount l + 1 <= fuel -> 2 * fcount k + 1 <= fuel ->
  exists b, equal_shape fuel hx hy x y = Ok b /\ (b = true <-> fshape l = fshape k).
Proof. exact (shape_valid hx hy x l y k fuel). Qed.

(** Without the cached sizes only a prefix of the second forest is compared. *)
Theorem C19_equal_shape_invalid_size {W} (hx : heap V) (hy : heap W) x l y (k : list (tree W)) fuel : Rep hx x l -> Rep hy y k ->
  size_valid hx x = Ok false \/ size_valid hy y = Ok false ->
  2 * fcount l + 1 <= fuel -> 2 * fcount k + 1 <= fuel ->
  exists b, equal_shape fuel hx hy x y = Ok b /\ (b = true <-> exists k2 : list shape, fshape k = fshape l ++ k2).
Proof. exact (shape_invalid hx hy x l y k fuel). Qed.

End props.

Theorem C19_equal_shape_refuted : exists al (w : world nat) M x y f g t l u k, good_alloc al /\ reach al w /\ view w M /\
  M !! x = Some (t, l) /\ M !! y = Some (u, k) /\ w_objs w !! x = Some f /\ w_objs w !! y = Some g /\
  equal_shape (wfuel w) (w_heap w) (w_heap w) f g = Ok true /\ fshape l <> fshape k.
Proof. exact equal_shape_witness. Qed.

(** * The hypotheses are met by a concrete forest: 10(11 12(14)) 13 *)
Notation Cx := [([], 1, 10, [Node 4 13 []])].
Notation t2 := (Node 2 11 []).
Notation t3 := (Node 3 12 [Node 5 14 []]).
Example C13_ex := C13_parent ex_h ex_f [] [] 1 10 [] [Node 4 13 []] leading 2 11 [] [t3] trailing 2 ex_rep (le_n _).
Example C13_root_ex := C13_parent_of_root ex_h ex_f [] 1 10 [t2; t3] [Node 4 13 []] leading 2 ex_rep (le_n _).
Example C13_has_ex := C13_has_children ex_h ex_f Cx [t2] 3 12 [Node 5 14 []] [] trailing ex_rep.
Example C13_range_ex := C13_child_range ex_h ex_f [] [] 1 10 [t2; t3] [Node 4 13 []] leading 2 ex_rep (le_n _).
Example C13_roots_ex := C13_root_range ex_h ex_f ex_l leading 2 ex_rep (le_n _).
Example C13_front_ex := C13_child_adaptor_front ex_h ex_f [] [] 1 10 2 11 [] [t3] [Node 4 13 []] leading ex_rep.
Example C13_back_ex := C13_child_adaptor_back ex_h ex_f [] [] 1 10 3 12 [Node 5 14 []] [t2] [Node 4 13 []] leading ex_rep.
Example C13_pushb_ex := C13_child_adaptor_push_back bump ex_h ex_f [] [] 1 10 [t2; t3] [Node 4 13 []] leading 77 ex_rep eq_refl.
Example C13_pushf_ex := C13_child_adaptor_push_front bump ex_h ex_f [] [] 1 10 [t2; t3] [Node 4 13 []] leading 77 ex_rep eq_refl.
Example C13_popb_ex := C13_child_adaptor_pop_back ex_h ex_f [] [] 1 10 3 12 [Node 5 14 []] [t2] [Node 4 13 []] leading ex_rep.
Example C13_popf_ex := C13_child_adaptor_pop_front ex_h ex_f [] [] 1 10 2 11 [] [t3] [Node 4 13 []] leading ex_rep.
Example C14_pre_ex := C14_preorder ex_h ex_f ex_l 12 ex_rep (le_n _).
Example C14_post_ex := C14_postorder ex_h ex_f ex_l 12 ex_rep (le_n _).
Example C15_base_ex : exists z, decrement ex_h (Iter 3 trailing) = Ok z /\ r_make ex_h (Iter 3 trailing) = Ok (RIter z (pivot_edge (it_edge z))) /\
  r_base_of ex_h (RIter z (pivot_edge (it_edge z))) = Ok (Iter 3 trailing).
Proof. apply (C15_base ex_h ex_f ex_l _ ex_rep). apply elem_of_list_In. vm_compute. tauto. Qed.
Example C15_ex := C15_reverse_fullorder ex_h ex_f ex_l 10 ex_rep (le_n _).
(** Three steps forward from the beginning, one back. *)
Example C16_ex := C16_depth ex_h ex_f ex_l [true; true; true; false] 0 2 ex_rep eq_refl (L 1, 0%Z) eq_refl.
Example C17_ex := C17_filter ex_h ex_f ex_l (fun v => bool_decide (v <> 12)) 10 ex_rep (le_n _).
Example C18_flat_ex := C18_flatten ex_h ex_f ex_l 10 ex_rep (le_n _).
Example C18_unflat_ex := C18_unflatten bump [Node 0 3 [Node 0 4 []]] ex_h ex_f ex_l bump_good ex_rep.
Example C18_round_ex := C18_round_trip bump (w_heap (es_w 7)) (FObj 5 0) [Node 3 8 []; Node 4 9 []] (FObj 2 0) 4 bump_good
  ltac:(apply rep_check_ok; reflexivity) ltac:(apply rep_check_ok; reflexivity)
  ltac:(intros n H1 H2; apply elem_of_list_In in H1, H2; vm_compute in H1, H2; intuition congruence) (le_n _).
Example C18_trans_ex := C18_transcribe bump S ex_h ex_f ex_l ex_h ex_f ex_l 10 bump_good ex_rep ex_rep (le_n _).
Example C18_transf_ex := C18_transcribe_filtered bump S (fun v => bool_decide (v <> 12)) ex_h ex_f ex_l ex_h ex_f ex_l 10
  bump_good ex_rep ex_rep (le_n _).
Example C19_ex := C19_equal_shape_partial ex_h ex_h ex_f ex_l ex_f ex_l 11 ex_rep ex_rep eq_refl eq_refl (le_n _) (le_n _).
Example C19_inv_ex := C19_equal_shape_invalid_size (w_heap (es_w 7)) (w_heap (es_w 7)) (FObj 0 1) [Node 1 7 []] (FObj 5 0)
  [Node 3 8 []; Node 4 9 []] 5 ltac:(apply rep_check_ok; reflexivity) ltac:(apply rep_check_ok; reflexivity)
  (or_intror eq_refl) ltac:(vm_compute; lia) (le_n _).

Print Assumptions C13_parent.
Print Assumptions C13_parent_of_root.
Print Assumptions C13_has_children.
Print Assumptions C13_child_range.
Print Assumptions C13_root_range.
Print Assumptions C13_child_adaptor_front.
Print Assumptions C13_child_adaptor_back.
Print Assumptions C13_child_adaptor_push_back.
Print Assumptions C13_child_adaptor_push_front.
Print Assumptions C13_child_adaptor_pop_back.
Print Assumptions C13_child_adaptor_pop_front.
Print Assumptions C14_preorder.
Print Assumptions C14_postorder.
Print Assumptions C14_values.
Print Assumptions C15_reverse_fullorder.
Print Assumptions C15_is_mirror_image.
Print Assumptions C15_base.
Print Assumptions C16_depth.
Print Assumptions C16_depth_is_ancestors.
Print Assumptions C16_depth_from_end_refuted.
Print Assumptions C17_filter.
Print Assumptions C17_filter_from_end_refuted.
Print Assumptions C18_flatten.
Print Assumptions C18_unflatten.
Print Assumptions C18_round_trip.
Print Assumptions C18_transcribe.
Print Assumptions C18_transcribe_filtered.
Print Assumptions C19_equal_shape_partial.
Print Assumptions C19_equal_shape_invalid_size.
Print Assumptions C19_equal_shape_refuted.
