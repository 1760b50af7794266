(** flatten, unflatten and transcribe over whole forests. *)
From stdpp Require Import gmap list.
From Coq Require Import ZArith Lia.
From Verif.Forest Require Import Model Spec Rep ProofWord ProofHeap ProofOps ProofOps2 ProofTree ProofEdge ProofCopy ProofCopy2 ProofIter ProofIter2 ProofAlg World WorldSpec ProofWorld ProofMisc ProofFinal.

Section final2.
Context {V : Type}.
Implicit Types (h : heap V) (f g : fobj) (l k : list (tree V)).

Lemma plain_tok h f l : Rep h f l -> Forall2 (tokpos (plain_ops h (f_end f))) (fword l) (ftok l).
Proof.
  intros [W Vl _]. pose proof (tokat_word h l Vl) as H.
  assert (Hne : forall x, x ∈ fword l -> x <> f_end f).
  { intros x Hx ->. apply (wr_notin_tail _ _ _ trailing W). auto. }
  clear - H Hne. revert Hne. induction H as [|x o w xs H1 H2 IH]; intros Hne; constructor.
  - split; simpl.
    + apply bool_decide_eq_false. apply Hne, elem_of_list_here.
    + destruct o as [v|]; simpl in H1.
      * split; [|apply tokat_deref; auto]. unfold is_leading. destruct H1 as [-> _]. auto.
      * unfold is_leading. rewrite H1. auto.
  - apply IH. intros y Hy. apply Hne. apply elem_of_list_further. auto.
Qed.

Lemma plain_next h f l : Rep h f l -> next_ok (io_next (plain_ops h (f_end f))) (fword l ++ [f_end f]).
Proof. intros [W _ _]. pose proof (full_next h _ _ W) as N. eapply next_ok_tail. exact N. Qed.

Lemma firstp_hd t w : firstp t w = hd (T t) w.
Proof. destruct w; auto. Qed.

Lemma flatten_plain h f l fuel : Rep h f l -> 2 * fcount l <= fuel ->
  exists b, f_begin h f = Ok b /\ flatten fuel (plain_ops h (f_end f)) b = Ok (ftok l).
Proof.
  intros R Hf. exists (firstp (f_tail f) (fword l)). split; [apply f_begin_spec; apply R|].
  rewrite firstp_hd. apply flatten_spec.
  - apply plain_next. auto.
  - simpl. apply bool_decide_eq_true. auto.
  - apply plain_tok. auto.
  - rewrite fword_length. auto.
Qed.

(** The filtered range. *)
Lemma filter_tok h f l p b fuel : Rep h f l ->
  Forall2 (tokpos (filter_ops fuel h p b (f_end f))) (map (fun x => Flt x true) (fword (fkeep p l))) (ftok (fkeep p l)).
Proof.
  intros R. pose proof R as [W Vl _].
  assert (Vk : forall n v, (n, v) ∈ fpre (fkeep p l) -> dt h n = Some (Some v)).
  { intros n v Hn. apply Vl. revert Hn. clear. induction l as [|m u cs l IHc IHl] using forest_ind'; auto.
    rewrite fkeep_cons, fpre_cons. destruct (p u).
    - rewrite fpre_cons, !elem_of_cons, !elem_of_app. tauto.
    - rewrite !elem_of_cons, !elem_of_app. tauto. }
  pose proof (tokat_word h (fkeep p l) Vk) as H.
  assert (Hne : forall x, x ∈ fword (fkeep p l) -> x <> f_end f).
  { intros x Hx ->. apply (wr_notin_tail _ _ _ trailing W). apply (fkeep_in h (f_tail f) (fword l) p W l); auto. }
  clear - H Hne. revert Hne. induction H as [|x o w xs H1 H2 IH]; intros Hne; constructor.
  - split; simpl.
    + apply bool_decide_eq_false. apply Hne, elem_of_list_here.
    + destruct o as [v|]; simpl in H1.
      * split; [|apply tokat_deref; auto]. unfold is_leading. destruct H1 as [-> _]. auto.
      * unfold is_leading. rewrite H1. auto.
  - apply IH. intros y Hy. apply Hne. apply elem_of_list_further. auto.
Qed.

Lemma filter_next h f l p fuel : Rep h f l -> 2 * fcount l <= fuel ->
  next_ok (io_next (filter_ops fuel h p (firstp (f_tail f) (fword l)) (f_end f)))
    (map (fun x => Flt x true) (fword (fkeep p l)) ++ [Flt (f_end f) true]).
Proof.
  intros [W Vl _] Hf. pose proof (fl_next_ok h _ (fword l) p W l fuel eq_refl Vl) as N.
  rewrite map_app in N. apply N. rewrite fword_length. auto.
Qed.

Context {U : Type}.
Implicit Types (hu : heap U).

(** Building from a token list that spells a forest, at the front of the target. *)
Lemma build_front (al : allocator U) (s : list (tree U)) hu f (k : list (tree U)) : good_alloc al -> Rep hu f k ->
  exists hu' f' s', build al hu f (ftok s) (gap (f_tail f) [] k) = Ok (hu', f', gap (f_tail f) [] k) /\
    f_tail f' = f_tail f /\ Rep hu' f' (s' ++ k) /\ map strip s' = map strip s /\ eff hu hu' (fp f k) (fp f' (s' ++ k)).
Proof.
  intros Hal R. destruct (build_tree al s Hal hu f [] [] k [] R) as (h' & f' & s' & E & Et & R' & Es & F).
  rewrite app_nil_r in E. simpl in *. exists h', f', s'. rewrite E. auto.
Qed.

Lemma strip_tmap (proj : V -> U) (s : list (tree U)) l : map strip s = map strip (map (tmap proj) l) ->
  sim (fun v u => u = proj v) l s.
Proof.
  revert s. induction l as [|n v cs l IHc IHl] using forest_ind'; intros s E.
  - destruct s; [constructor|discriminate].
  - destruct s as [|[m u ds] s]; [discriminate|]. simpl in E. injection E as E1 E2 E3. constructor; auto.
Qed.

Lemma transcribe_plain (al : allocator U) (proj : V -> U) h f l hu g (k : list (tree U)) fuel : good_alloc al ->
  Rep h f l -> Rep hu g k -> 2 * fcount l <= fuel ->
  exists b c hu' g' s, f_begin h f = Ok b /\ f_begin hu g = Ok c /\
    transcribe fuel (plain_ops h (f_end f)) proj (io_lead (plain_ops h (f_end f))) al b hu g c = Ok (hu', g', c) /\
    Rep hu' g' (s ++ k) /\ sim (fun v u => u = proj v) l s.
Proof.
  intros Hal R Rg Hf. exists (firstp (f_tail f) (fword l)), (gap (f_tail g) [] k).
  destruct (build_front al (map (tmap proj) l) hu g k Hal Rg) as (hu' & g' & s & E & Et & R' & Es & _).
  exists hu', g', s. split; [apply f_begin_spec; apply R|]. split; [apply begin_rep; auto|]. split; [|split; auto].
  - rewrite firstp_hd, (transcribe_build (plain_ops h (f_end f)) proj al (fword l) (T (f_tail f)) (ftok l)).
    + rewrite ftok_map. auto.
    + apply plain_next. auto.
    + simpl. apply bool_decide_eq_true. auto.
    + apply plain_tok. auto.
    + rewrite fword_length. auto.
  - apply strip_tmap. auto.
Qed.

Lemma transcribe_filter (al : allocator U) (proj : V -> U) (p : V -> bool) h f l hu g (k : list (tree U)) fuel : good_alloc al ->
  Rep h f l -> Rep hu g k -> 2 * fcount l <= fuel ->
  exists b first c hu' g' s, f_begin h f = Ok b /\ fl_make fuel h p b (f_end f) = Ok first /\ f_begin hu g = Ok c /\
    transcribe fuel (filter_ops fuel h p b (f_end f)) proj (io_lead (filter_ops fuel h p b (f_end f))) al first hu g c = Ok (hu', g', c) /\
    Rep hu' g' (s ++ k) /\ sim (fun v u => u = proj v) (fkeep p l) s.
Proof.
  intros Hal R Rg Hf. set (b := firstp (f_tail f) (fword l)).
  exists b, (Flt (hd (T (f_tail f)) (fword (fkeep p l))) true), (gap (f_tail g) [] k).
  destruct (build_front al (map (tmap proj) (fkeep p l)) hu g k Hal Rg) as (hu' & g' & s & E & Et & R' & Es & _).
  exists hu', g', s. split; [apply f_begin_spec; apply R|].
  split. { apply (fl_make_spec h (f_tail f) (fword l) p (rep_word _ _ _ R) l fuel); auto; [apply R|rewrite fword_length; auto]. }
  split; [apply begin_rep; auto|]. split; [|split; auto].
  - replace (Flt (hd (T (f_tail f)) (fword (fkeep p l))) true)
      with (hd (Flt (f_end f) true) (map (fun x => Flt x true) (fword (fkeep p l)))) by (destruct (fword (fkeep p l)); auto).
    rewrite (transcribe_build (filter_ops fuel h p b (f_end f)) proj al _ (Flt (f_end f) true) (ftok (fkeep p l))).
    + rewrite ftok_map. auto.
    + apply filter_next; auto.
    + simpl. apply bool_decide_eq_true. auto.
    + apply filter_tok. auto.
    + rewrite map_length. pose proof (submseteq_length _ _ (fkeep_sub p l)) as Hs. rewrite (fword_length l) in Hs. lia.
  - apply strip_tmap. auto.
Qed.
End final2.

Section unfl.
Context {V : Type}.
Implicit Types (h : heap V) (f g : fobj) (l k : list (tree V)).

Lemma build_opt (al : allocator V) xs : forall h f i,
  transcribe (length xs) opt_ops (fun v => v) (io_lead opt_ops) al xs h f i = build al h f xs i.
Proof.
  induction xs as [|[v|] xs IH]; intros h f i; simpl; auto.
  - destruct (insert al h f i v) as [[[h1 f1] i1]| |]; simpl; auto.
    destruct (increment h1 i1); simpl; auto.
  - destruct (increment h (trailing_of i)); simpl; auto.
Qed.

Lemma unflatten_spec (al : allocator V) l h f k : good_alloc al -> Rep h f k ->
  exists h' f' i s, unflatten al h f (ftok l) = Ok (h', f', i) /\ f_tail f' = f_tail f /\
    Rep h' f' (s ++ k) /\ map strip s = map strip l /\ eff h h' (fp f k) (fp f' (s ++ k)).
Proof.
  intros Hal R. destruct (build_front al l h f k Hal R) as (h' & f' & s & E & Et & R' & Es & F).
  exists h', f', (gap (f_tail f) [] k), s. split; auto. unfold unflatten. rewrite (begin_rep _ _ _ R). simpl.
  rewrite build_opt. auto.
Qed.

Lemma round_trip (al : allocator V) h f l g fuel : good_alloc al -> Rep h f l -> Rep h g [] -> fdisj f l g [] ->
  2 * fcount l <= fuel ->
  exists b toks h' g' i k, f_begin h f = Ok b /\ flatten fuel (plain_ops h (f_end f)) b = Ok toks /\
    unflatten al h g toks = Ok (h', g', i) /\ Rep h' f l /\ Rep h' g' k /\ map strip k = map strip l.
Proof.
  intros Hal R Rg Hd Hf. destruct (flatten_plain h f l fuel R Hf) as (b & Eb & Ef).
  destruct (unflatten_spec al l h g [] Hal Rg) as (h' & g' & i & s & E & Et & R' & Es & F).
  rewrite app_nil_r in *. exists b, (ftok l), h', g', i, s. split; auto. split; auto. split; auto. split; auto.
  apply (eff_others _ _ _ _ _ _ F); auto. apply fdisj_sym. auto.
Qed.
End unfl.

Lemma r_make_base {V} (h : heap V) f l x : Rep h f l -> x ∈ f_root f :: fword l ++ [f_end f] ->
  exists z, decrement h x = Ok z /\ r_make h x = Ok (RIter z (pivot_edge (it_edge z))) /\ r_base_of h (RIter z (pivot_edge (it_edge z))) = Ok x.
Proof.
  intros R H. destruct (inverse h f l x R H) as (y & z & _ & _ & D & I). exists z. split; [done|]. unfold r_make, r_base_of. rewrite D. simpl. auto.
Qed.
