(** The forest lemmas in the form in which the properties are stated. *)
From stdpp Require Import gmap list.
From Coq Require Import ZArith Lia.
From Verif.Forest Require Import Model Spec Rep ProofWord ProofHeap ProofOps ProofOps2 ProofTree ProofEdge ProofCopy ProofCopy2 ProofIter ProofIter2 ProofAlg World WorldSpec ProofWorld ProofMisc.

Lemma sim_mono {V W} (R S : V -> W -> Prop) l k : (forall a b, R a b -> S a b) -> sim R l k -> sim S l k.
Proof. intros H Hs. induction Hs; constructor; auto. Qed.

Lemma fkeep_sub {V} (p : V -> bool) (l : list (tree V)) : fword (fkeep p l) ⊆+ fword l.
Proof.
  induction l as [|n v cs l IHc IHl] using forest_ind'.
  - reflexivity.
  - rewrite fkeep_cons, fword_cons. destruct (p v).
    + rewrite fword_cons. apply submseteq_skip, submseteq_app; auto. apply submseteq_skip. auto.
    + apply submseteq_cons. apply (submseteq_app [] _ _ (T n :: _)); [apply submseteq_nil_l|]. apply submseteq_cons. auto.
Qed.

Lemma NoDup_submseteq' {A} (l k : list A) : l ⊆+ k -> NoDup k -> NoDup l.
Proof.
  intros H Hk. apply submseteq_Permutation in H as (m & H). rewrite H in Hk. apply NoDup_app in Hk. tauto.
Qed.

Section final.
Context {V : Type}.
Implicit Types (h : heap V) (f g : fobj) (l r k : list (tree V)) (C D : list (@frame V)).
Implicit Types (M : aworld V) (w : world V).

Lemma traversal h f l fuel : Rep h f l -> 2 * fcount l <= fuel ->
  exists b, f_begin h f = Ok b /\ walk (increment h) fuel b (f_end f) = Ok (fword l) /\
    length (fword l) = 2 * fcount l /\ increment h (f_end f) = Ok (f_root f).
Proof.
  intros [W _ _] Hf. exists (firstp (f_tail f) (fword l)). split; [apply f_begin_spec; auto|].
  split; [|split].
  - pose proof (walk_increment h (f_tail f) [] (fword l) [] fuel) as H. simpl in H. rewrite !app_nil_r in H.
    apply H; auto. rewrite fword_length. auto.
  - apply fword_length.
  - pose proof (wr_wrap _ _ _ W) as [H1 H2]. unfold f_end, f_root, increment, get_link, load.
    unfold lk in H1, H2. simpl in *.
    destruct (h !! f_tail f) as [c|] eqn:E; simpl in *; [|discriminate].
    injection H1 as H1. rewrite H1. simpl. rewrite E. simpl. injection H2 as H2. rewrite H2.
    rewrite decide_True by auto. auto.
Qed.

Lemma dec_root h f l : Rep h f l -> decrement h (f_root f) = Ok (f_end f).
Proof.
  intros [W _ _]. pose proof (wr_wrap _ _ _ W) as [H1 H2]. unfold f_end, f_root, decrement, get_link, load.
  unfold lk in H1, H2. simpl in *.
  destruct (h !! f_tail f) as [c|] eqn:E; simpl in *; [|discriminate].
  injection H2 as H2. rewrite H2. simpl. rewrite E. simpl. injection H1 as H1. rewrite H1.
  rewrite decide_True by auto. auto.
Qed.

Lemma inverse h f l x : Rep h f l -> x ∈ f_root f :: fword l ++ [f_end f] ->
  exists y z, increment h x = Ok y /\ decrement h y = Ok x /\ decrement h x = Ok z /\ increment h z = Ok x.
Proof.
  intros R Hx. pose proof (rep_word _ _ _ R) as W.
  pose proof (full_next h _ _ W) as N. pose proof (full_prev h _ _ W) as P.
  change (f_root f :: fword l ++ [f_end f]) with (ring (f_tail f) (fword l)) in Hx.
  destruct (traversal h f l (2 * fcount l) R) as (_ & _ & _ & _ & Ee); auto. pose proof (dec_root _ _ _ R) as Er.
  apply elem_of_list_split in Hx as (a & b & E).
  assert (Hn : exists y, increment h x = Ok y /\ decrement h y = Ok x).
  { destruct b as [|y b].
    - unfold ring in E. rewrite app_comm_cons in E. apply app_inj_tail in E as [_ <-].
      exists (f_root f). auto.
    - exists y. split; [apply (N a x y b E)|apply (P a x y b E)]. }
  assert (Hp : exists z, decrement h x = Ok z /\ increment h z = Ok x).
  { destruct a as [|z a _] using rev_ind.
    - unfold ring in E. injection E as <- _. exists (f_end f). auto.
    - rewrite <- app_assoc in E. simpl in E. exists z. split; [apply (P a z x b E)|apply (N a z x b E)]. }
  destruct Hn as (y & ? & ?), Hp as (z & ? & ?). eauto 6.
Qed.

(** Every position of a forest is a gap, and every node has a place. *)
Lemma node_cover l : forall n, n ∈ fnodes l -> exists C a v cs b, l = plug C (a ++ Node n v cs :: b).
Proof.
  enough (H : forall l a b C0 n, n ∈ fnodes l -> exists C a' v cs b', plug C0 (a ++ l ++ b) = plug C (a' ++ Node n v cs :: b')).
  { intros n Hn. destruct (H l [] [] [] n Hn) as (C & a & v & cs & b & E). simpl in E. rewrite app_nil_r in E. eauto 6. }
  clear l. induction l as [|m u ds l IHc IHl] using forest_ind'; intros a b C0 n Hn.
  - rewrite fnodes_nil in Hn. inversion Hn.
  - rewrite fnodes_cons in Hn. apply elem_of_cons in Hn as [->|Hn]; [|apply elem_of_app in Hn as [Hn|Hn]].
    + exists C0, a, u, ds, (l ++ b). auto.
    + destruct (IHc [] [] ((a, m, u, l ++ b) :: C0) n Hn) as (C & a' & v & cs & b' & E).
      simpl in E. rewrite app_nil_r in E. exists C, a', v, cs, b'. auto.
    + destruct (IHl (a ++ [Node m u ds]) b C0 n Hn) as (C & a' & v & cs & b' & E).
      rewrite <- app_assoc in E. simpl in E. exists C, a', v, cs, b'. auto.
Qed.

Lemma gap_cover t l x : x ∈ fword l ++ [T t] -> exists C a r, l = plug C (a ++ r) /\ x = gap t C r.
Proof.
  intros [Hx|Hx]%elem_of_app.
  - destruct x as [n e]. apply elem_fword, node_cover in Hx as (C & a & v & cs & b & ->). destruct e.
    + exists ((a, n, v, b) :: C), cs, []. simpl. rewrite app_nil_r. auto.
    + exists C, a, (Node n v cs :: b). auto.
  - apply elem_of_list_singleton in Hx as ->. exists [], l, []. simpl. rewrite app_nil_r. auto.
Qed.

(** The other forests of the heap. *)
Lemma eff_others h h' f l f' l' : eff h h' (fp f l) (fp f' l') ->
  forall g k, Rep h g k -> fdisj f l g k -> Rep h' g k /\ fdisj f' l' g k.
Proof.
  intros F g k R Hd. destruct (eff_rep _ _ _ _ _ _ F R) as [R' Hn].
  - intros m Hm Hm'. apply (Hd m); auto.
  - split; auto. intros m Hm Hm'. apply (Hn m); auto.
Qed.

Lemma eff_others2 h h' f1 l1 f2 l2 f1' l1' f2' l2' :
  eff h h' (fp f1 l1 ++ fp f2 l2) (fp f1' l1' ++ fp f2' l2') ->
  forall g k, Rep h g k -> fdisj f1 l1 g k -> fdisj f2 l2 g k -> Rep h' g k /\ fdisj f1' l1' g k /\ fdisj f2' l2' g k.
Proof.
  intros F g k R Hd1 Hd2. destruct (eff_rep _ _ _ _ _ _ F R) as [R' Hn].
  - intros m Hm [Hm'|Hm']%elem_of_app; [apply (Hd1 m)|apply (Hd2 m)]; auto.
  - split; auto. split; intros m Hm Hm'; apply (Hn m); auto; apply elem_of_app; auto.
Qed.

(** The cells released by an operation. *)
Lemma eff_freed h h' A B : eff h h' A B -> forall m, is_Some (h !! m) -> m ∉ A -> h' !! m = h !! m.
Proof.
  intros F m [c Hm] HA. apply (eff_frame _ _ _ _ F); auto. intros HB.
  destruct (eff_new _ _ _ _ F m HB); [auto|congruence].
Qed.

(** ** size *)
Lemma size_valid_sound h f l : Rep h f l -> size_valid h f = Ok true -> f_size f = Z.of_nat (fcount l).
Proof.
  intros [W _ S] E. rewrite (size_valid_spec _ _ _ W) in E. injection E as E.
  pose proof (sv_ok _ _ S E) as H. rewrite fword_length in H. lia.
Qed.

Lemma size_reach al w x f : good_alloc al -> reach al w -> w_objs w !! x = Some f ->
  exists t l, f_tail f = t /\ Rep (w_heap w) f l /\
    (exists f', size (wfuel w) (w_heap w) f = Ok (f', Z.of_nat (fcount l))) /\
    (size_valid (w_heap w) f = Ok true -> f_size f = Z.of_nat (fcount l)).
Proof.
  intros Hal Hr Ex. destruct (reach_view _ _ Hal Hr) as [M Hv]. pose proof (view_objs _ _ Hv x) as H.
  rewrite Ex in H. destruct (M !! x) as [[t l]|]; [|tauto]. destruct H as [Et R].
  exists t, l. split; auto. split; auto. split.
  - destruct (size_spec _ _ _ (wfuel w) R) as (f' & E & _); eauto.
    unfold wfuel. pose proof (rep_size_le _ _ _ R). lia.
  - apply size_valid_sound. auto.
Qed.

Lemma size_valid_total h f l : Rep h f l -> exists b, size_valid h f = Ok b.
Proof. intros [W _ _]. rewrite (size_valid_spec _ _ _ W). eauto. Qed.

(** ** equality *)
Lemma f_eq_true h x l y k fuel (eqb : V -> V -> bool) : (forall a b, eqb a b = true <-> a = b) ->
  Rep h x l -> Rep h y k -> 2 * fcount l + 1 <= fuel -> 2 * fcount k + 1 <= fuel ->
  exists x' y' b, f_eq fuel eqb h x y = Ok (x', y', b) /\ Rep h x' l /\ Rep h y' k /\
    (b = true <-> map strip l = map strip k).
Proof.
  intros He Rx Ry H1 H2. destruct (f_eq_spec eqb h x l y k fuel Rx Ry H1 H2) as (x' & y' & b & E & Rx' & Ry' & Hb).
  exists x', y', b. split; auto. split; auto. split; auto. rewrite Hb, <- sim_strip.
  split; apply sim_mono; intros; apply He; auto.
Qed.

(** ** child ranges *)
Lemma child_range h f C a n v cs b e fuel : Rep h f (plug C (a ++ Node n v cs :: b)) -> length cs <= fuel ->
  exists first, child_begin h (Iter n e) = Ok first /\
    walk_on id (child_increment h) fuel first (child_end (Iter n e)) = Ok (map root_of cs) /\
    rwalk_on id (child_decrement h) fuel (child_end (Iter n e)) first = Ok (rev (map root_of cs)).
Proof.
  intros R Hf. change (plug C (a ++ Node n v cs :: b)) with (plug ((a, n, v, b) :: C) cs) in R.
  pose proof (child_next h f _ _ R) as N. pose proof (child_prev h f _ _ R) as P.
  pose proof (child_nodup h f _ _ R) as Nd. simpl in N, P, Nd.
  exists (gap (f_tail f) ((a, n, v, b) :: C) cs). split; [apply (child_begin_spec h f C a n v cs b e R)|].
  rewrite gap_roots. unfold child_end, trailing_of. simpl. split.
  - apply (lin_walk id); auto; [|rewrite map_length; auto]. intros x Hx Ex. unfold id in Ex. subst x. apply NoDup_app in Nd as (_ & Nd & _).
    apply (Nd _ Hx), elem_of_list_here.
  - apply (lin_rwalk id (child_decrement h) (map root_of cs) (T n)); auto; [|rewrite map_length; auto].
    rewrite map_id. auto.
Qed.

Lemma root_range h f l e fuel : Rep h f l -> length l <= fuel ->
  exists first, child_begin h (Iter (f_tail f) e) = Ok first /\
    walk_on id (child_increment h) fuel first (child_end (Iter (f_tail f) e)) = Ok (map root_of l) /\
    rwalk_on id (child_decrement h) fuel (child_end (Iter (f_tail f) e)) first = Ok (rev (map root_of l)).
Proof.
  intros R Hf. change l with (plug [] l) in R.
  pose proof (child_next h f _ _ R) as N. pose proof (child_prev h f _ _ R) as P.
  pose proof (child_nodup h f _ _ R) as Nd. simpl in N, P, Nd.
  exists (gap (f_tail f) [] l). split; [apply (begin_rep h f l R)|].
  rewrite gap_roots. unfold child_end, trailing_of. simpl. split.
  - apply (lin_walk id); auto; [|rewrite map_length; auto]. intros x Hx Ex. unfold id in Ex. subst x. apply NoDup_app in Nd as (_ & Nd & _).
    apply (Nd _ Hx), elem_of_list_here.
  - apply (lin_rwalk id (child_decrement h) (map root_of l) (T (f_tail f))); auto; [|rewrite map_length; auto].
    rewrite map_id. auto.
Qed.

(** ** preorder and postorder *)
Lemma edge_range h f l e fuel : Rep h f l -> 2 * fcount l + 2 <= fuel ->
  exists b first, f_begin h f = Ok b /\ find_edge fuel h b e = Ok first /\
    find_edge fuel h (f_end f) e = Ok (Iter (f_tail f) e) /\
    walk_on id (edge_increment fuel h e) fuel first (Iter (f_tail f) e) = Ok (sel e (fword l)) /\
    rwalk_on id (edge_decrement fuel h e) fuel (Iter (f_tail f) e) first = Ok (rev (sel e (fword l))).
Proof.
  intros R Hf. pose proof (rep_word _ _ _ R) as W. pose proof (fword_length l) as Hl.
  exists (firstp (f_tail f) (fword l)), (hd (Iter (f_tail f) e) (sel e (fword l))).
  split; [apply f_begin_spec; auto|]. split; [|split].
  - pose proof (find_edge_spec h (f_tail f) [] (fword l) e fuel W ltac:(lia)) as E. rewrite E. f_equal.
  - pose proof (find_edge_spec h (f_tail f) (fword l) [] e fuel) as E. rewrite app_nil_r in E.
    specialize (E W ltac:(simpl; lia)). exact E.
  - pose proof (edge_next h (f_tail f) (fword l) e fuel W ltac:(lia)) as N.
    pose proof (edge_prev h (f_tail f) (fword l) e fuel W ltac:(lia)) as P.
    pose proof (edge_nodup h (f_tail f) (fword l) e W) as Nd. unfold endp in *.
    assert (Hs : length (sel e (fword l)) <= fuel).
    { unfold sel. pose proof (filter_length (fun x => it_edge x = e) (fword l)). lia. }
    split.
    + apply (lin_walk id); auto. intros x Hx Ex. unfold id in Ex. subst x. apply NoDup_app in Nd as (_ & Nd & _).
      apply (Nd _ Hx), elem_of_list_here.
    + apply (lin_rwalk id (edge_decrement fuel h e) (sel e (fword l)) (Iter (f_tail f) e)); auto. rewrite map_id. auto.
Qed.

(** ** reverse full order *)
Lemma rev_walk h f l fuel : Rep h f l -> 2 * fcount l <= fuel ->
  exists b first last, f_begin h f = Ok b /\ r_make h (f_end f) = Ok first /\ r_make h b = Ok last /\
    walk_on (fun x => (r_base x, r_edge x)) (r_increment h) fuel first (r_base last, r_edge last) = Ok (map rp (rev (fword l))) /\
    rwalk_on (fun x => (r_base x, r_edge x)) (r_decrement h) fuel last (r_base first, r_edge first) = Ok (map rp (fword l)).
Proof.
  intros R Hf. pose proof (rep_word _ _ _ R) as W. set (t := f_tail f) in *. set (w := fword l) in *.
  assert (Hl : length w = 2 * fcount l) by apply fword_length.
  exists (firstp t w), (rp (lastp t w)), (rp (L t)).
  split; [apply f_begin_spec; auto|].
  split. { pose proof (r_make_spec h t w []) as E. rewrite app_nil_r in E. apply (E W). }
  split. { pose proof (r_make_spec h t [] w W) as E. rewrite lastp_nil in E. exact E. }
  pose proof (r_next_ok h t w W) as N. pose proof (r_prev_ok h t w W) as P.
  pose proof (wr_nodup _ _ _ W) as Nd. unfold ring in *. simpl in N, P. rewrite rev_app_distr in N, P. simpl in N, P.
  rewrite map_app in N, P. simpl in N, P.
  assert (N' : next_ok (r_increment h) (map rp (rev w) ++ [rp (L t)])) by (eapply next_ok_tail; eauto).
  assert (P' : prev_ok (r_decrement h) (map rp (rev w) ++ [rp (L t)])).
  { intros a x y b E. apply (P (rp (T t) :: a) x y b). simpl. rewrite E. auto. }
  set (key := fun r : riter => (r_base r, r_edge r)).
  assert (Hkey : forall x y, key (rp x) = key (rp y) -> x = y) by (intros x y [= E _]; auto).
  assert (Hhd : rp (lastp t w) = hd (rp (L t)) (map rp (rev w))).
  { destruct w as [|x w' _] using rev_ind; [rewrite lastp_nil; auto|]. rewrite lastp_snoc, rev_app_distr. auto. }
  apply NoDup_cons in Nd as [Nt Nd]. apply NoDup_app in Nd as (Nd & _ & _).
  assert (Hlen : length (map rp (rev w)) <= fuel) by (rewrite map_length, rev_length; lia).
  split.
  - rewrite Hhd. apply (lin_walk key (r_increment h) (map rp (rev w)) (rp (L t))); auto.
    intros x Hx Ek. apply elem_of_list_fmap in Hx as (y & -> & Hy). apply Hkey in Ek. subst y.
    apply Nt. apply elem_of_app. left. apply elem_of_list_In. apply in_rev. apply elem_of_list_In. auto.
  - rewrite Hhd.
    replace (map rp w) with (rev (map rp (rev w))) by (rewrite <- map_rev, rev_involutive; auto).
    apply (lin_rwalk key (r_decrement h) (map rp (rev w)) (rp (L t))); auto.
    assert (Nr : NoDup (rev w ++ [L t])).
    { apply NoDup_app. split; [|split].
      - apply NoDup_ListNoDup, NoDup_rev, NoDup_ListNoDup. auto.
      - intros x Hx ->%elem_of_list_singleton. apply Nt, elem_of_app. left.
        apply elem_of_list_In, in_rev, elem_of_list_In. auto.
      - apply NoDup_singleton. }
    replace (map key (map rp (rev w) ++ [rp (L t)])) with (map (fun x => key (rp x)) (rev w ++ [L t]))
      by (rewrite !map_app, map_map; auto).
    apply NoDup_fmap_2; [intros x y; apply Hkey|auto].
Qed.

(** ** depth *)
Lemma depth_moves h f l ms i j : Rep h f l -> track (2 * fcount l) ms i = Some j ->
  forall x, (fdepths 0 l ++ [(f_end f, (-1)%Z)]) !! i = Some x ->
  exists y, (fdepths 0 l ++ [(f_end f, (-1)%Z)]) !! j = Some y /\
    run_moves (d_increment h) (d_decrement h) ms (DIter x.1 x.2) = Ok (DIter y.1 y.2).
Proof.
  intros R Ht x Hx. pose proof (rep_word _ _ _ R) as W.
  pose proof (d_next_ok h _ l W) as N. pose proof (d_prev_ok h _ l W) as P. unfold dring in N, P.
  assert (N' : next_ok (d_increment h) (map dp (fdepths 0 l ++ [(f_end f, (-1)%Z)]))) by (eapply next_ok_tail; exact N).
  assert (P' : prev_ok (d_decrement h) (map dp (fdepths 0 l ++ [(f_end f, (-1)%Z)]))).
  { intros a u v b E. apply (P (dp (L (f_tail f), (-1)%Z) :: a) u v b). simpl. unfold f_end in E. rewrite E. auto. }
  destruct (lin_moves (d_increment h) (d_decrement h) _ (2 * fcount l) N' P') with (ms := ms) (i := i) (j := j) (x := dp x)
    as (y & Hy & E); auto.
  - rewrite map_length, app_length. simpl. rewrite <- (map_length fst (fdepths 0 l)), fdepths_fst, fword_length. lia.
  - rewrite list_lookup_fmap, Hx. auto.
  - rewrite list_lookup_fmap in Hy. destruct ((fdepths 0 l ++ [(f_end f, (-1)%Z)]) !! j) as [y'|]; [|discriminate].
    injection Hy as <-. eauto.
Qed.

Lemma depth_at l C a n v cs b e d : l = plug C (a ++ Node n v cs :: b) -> NoDup (fnodes l) ->
  (Iter n e, d) ∈ fdepths 0 l -> d = Z.of_nat (length C).
Proof.
  intros -> Nd Hd. pose proof (fdepths_plug C a n v cs b e 0) as H.
  set (l := plug C (a ++ Node n v cs :: b)) in *. apply fword_NoDup in Nd.
  pose proof (fdepths_fst l 0) as Hf. rewrite <- Hf in Nd.
  assert (Hinj : forall (ps : list (iter * Z)) x d1 d2, NoDup (map fst ps) -> (x, d1) ∈ ps -> (x, d2) ∈ ps -> d1 = d2).
  { clear. induction ps as [|[y d] ps IH]; intros x d1 d2 Nd H1 H2; [inversion H1|].
    simpl in Nd. apply NoDup_cons in Nd as [Nn Nd]. apply elem_of_cons in H1, H2.
    destruct H1 as [H1|H1], H2 as [H2|H2]; [congruence| | |eauto].
    - injection H1 as <- <-. destruct Nn. apply elem_of_list_fmap. exists (x, d2). auto.
    - injection H2 as <- <-. destruct Nn. apply elem_of_list_fmap. exists (x, d1). auto. }
  specialize (Hinj _ _ _ _ Nd Hd H). lia.
Qed.

(** ** filter *)
Lemma filter_walk h f l p fuel : Rep h f l -> 2 * fcount l <= fuel ->
  exists b first, f_begin h f = Ok b /\ fl_make fuel h p b (f_end f) = Ok first /\
    fl_x first = hd (f_end f) (fword (fkeep p l)) /\
    walk_on fl_x (fl_increment fuel h p b (f_end f)) fuel first (f_end f)
      = Ok (map (fun x => Flt x true) (fword (fkeep p l))) /\
    rwalk_on fl_x (fl_decrement fuel h p b (f_end f)) fuel (Flt (f_end f) true) (fl_x first)
      = Ok (map (fun x => Flt x true) (rev (fword (fkeep p l)))).
Proof.
  intros R Hf. pose proof (rep_word _ _ _ R) as W. pose proof (rep_vals _ _ _ R) as Vl.
  set (t := f_tail f) in *. pose proof (fword_length l) as Hl.
  exists (firstp t (fword l)), (Flt (hd (T t) (fword (fkeep p l))) true).
  split; [apply f_begin_spec; auto|].
  split; [apply (fl_make_spec h t (fword l) p W l fuel); auto; lia|]. split; auto.
  pose proof (fl_next_ok h t (fword l) p W l fuel eq_refl Vl ltac:(lia)) as N.
  pose proof (fl_prev_ok h t (fword l) p W l fuel eq_refl Vl ltac:(lia)) as P.
  rewrite map_app in N, P. simpl in N, P.
  assert (Hk : length (fword (fkeep p l)) <= length (fword l)).
  { apply submseteq_length. apply fkeep_sub. }
  assert (Nd : NoDup (fword (fkeep p l) ++ [T t])).
  { pose proof (wr_nodup _ _ _ W) as Nd. unfold ring in Nd. apply NoDup_cons in Nd as [_ Nd].
    apply NoDup_app in Nd as (Nd & Nd1 & Nd2). apply NoDup_app. split; [|split]; auto.
    - apply (NoDup_submseteq' _ (fword l)); auto. apply fkeep_sub.
    - intros x Hx. apply Nd1. apply (fkeep_in h t (fword l) p W l x); auto. }
  split.
  - replace (Flt (hd (T t) (fword (fkeep p l))) true)
      with (hd (Flt (T t) true) (map (fun x => Flt x true) (fword (fkeep p l)))) by (destruct (fword (fkeep p l)); auto).
    apply (lin_walk fl_x _ (map (fun x => Flt x true) (fword (fkeep p l))) (Flt (T t) true)); auto.
    + intros x Hx Ex. apply elem_of_list_fmap in Hx as (y & -> & Hy). simpl in Ex. subst y.
      apply NoDup_app in Nd as (_ & Nd & _). apply (Nd _ Hy), elem_of_list_here.
    + rewrite map_length. lia.
  - simpl. rewrite map_rev.
    replace (hd (T t) (fword (fkeep p l)))
      with (fl_x (hd (Flt (T t) true) (map (fun x => Flt x true) (fword (fkeep p l))))) by (destruct (fword (fkeep p l)); auto).
    apply (lin_rwalk fl_x _ (map (fun x => Flt x true) (fword (fkeep p l))) (Flt (T t) true)); auto.
    + rewrite map_app, map_map. simpl. rewrite map_id. auto.
    + rewrite map_length. lia.
Qed.

(** ** modifiers, with what they leave alone *)
Lemma erase_final h f C a n v cs b e : Rep h f (plug C (a ++ Node n v cs :: b)) ->
  let t := f_tail f in
  exists h' f', erase h f (Iter n e) =
      Ok (h', f', match e with leading => gap t C (cs ++ b) | trailing => gap t C b end) /\
    f_tail f' = t /\ Rep h' f' (plug C (a ++ cs ++ b)) /\ h' !! n = None /\
    (forall m, m <> n -> is_Some (h' !! m) <-> is_Some (h !! m)) /\
    (forall g k, Rep h g k -> fdisj f (plug C (a ++ Node n v cs :: b)) g k -> Rep h' g k).
Proof.
  intros R t. destruct (erase_eff h f C a n v cs b e R) as (h' & f' & E & Et & R' & Hn & F).
  exists h', f'. split; auto. split; auto. split; auto. split; auto. split.
  - intros m Hm. set (A := fp f (plug C (a ++ Node n v cs :: b))) in *.
    set (B := fp f' (plug C (a ++ cs ++ b))) in *.
    assert (HAB : m ∈ A <-> m ∈ B).
    { unfold A, B. rewrite !elem_fp, Et. fold t.
      rewrite (fnodes_plug m C (a ++ _ :: _)), (fnodes_plug m C (a ++ cs ++ b)), !fnodes_app, fnodes_cons,
        !elem_of_app, elem_of_cons, !elem_of_app. tauto. }
    destruct (decide (m ∈ A)) as [HA|HA].
    + split; intros _; [apply (rep_alive _ _ _ _ R HA)|apply (rep_alive _ _ _ _ R'), HAB; auto].
    + rewrite (eff_frame _ _ _ _ F m); tauto.
  - intros g k Rg Hd. apply (eff_others _ _ _ _ _ _ F g k Rg Hd).
Qed.

Lemma erase_range_final h f l (p r q : list iter) fuel : Rep h f l -> fword l = p ++ r ++ q -> length r <= fuel ->
  let t := f_tail f in
  exists h' f' l', erase_range fuel h f (firstp t (r ++ q)) (firstp t q) = Ok (h', f', firstp t q) /\
    f_tail f' = t /\ Rep h' f' l' /\
    fword l' = filter (fun x => ~ both r (it_node x)) (fword l) /\
    fpre l' = filter (fun x => ~ both r x.1) (fpre l) /\
    (forall n, both r n -> h' !! n = None) /\
    (forall g k, Rep h g k -> fdisj f l g k -> Rep h' g k).
Proof.
  intros R Ew Hf t. destruct (erase_range_eff h f l p r q fuel R Ew Hf) as (h' & f' & E & Et & R' & Hn & F).
  exists h', f', (prune (both r) l). split; auto. split; auto. split; auto.
  split; [apply fword_prune|]. split; [apply fpre_prune|]. split; auto.
  intros g k Rg Hd. apply (eff_others _ _ _ _ _ _ F g k Rg Hd).
Qed.

Lemma clear_final h f l fuel : Rep h f l -> 2 * fcount l <= fuel ->
  exists h' f', clear fuel h f = Ok (h', f') /\ f_tail f' = f_tail f /\ Rep h' f' [] /\
    (forall n, n ∈ fnodes l -> h' !! n = None) /\
    (forall g k, Rep h g k -> fdisj f l g k -> Rep h' g k).
Proof.
  intros R Hf. destruct (clear_eff h f l fuel R Hf) as (h' & f' & E & Et & R' & F).
  exists h', f'. split; auto. split; auto. split; auto. split.
  - intros n Hn. destruct (eff_old _ _ _ _ F n) as [H|H]; auto; [apply elem_fp; auto|].
    apply elem_fp in H as [H|H]; [|rewrite (fnodes_nil (V:=V)) in H; inversion H].
    exfalso. pose proof (rep_nodup _ _ _ R) as Nd. apply NoDup_cons in Nd as [Nd _]. apply Nd. rewrite <- Et, <- H. auto.
  - intros g k Rg Hd. apply (eff_others _ _ _ _ _ _ F g k Rg Hd).
Qed.

Lemma splice_nothing h f g same pos first last count : first = last \/ first = pos ->
  splice h f g same pos first last count = Ok (h, f, g, pos).
Proof.
  intros H. unfold splice. destruct (decide (first = last)); auto. rewrite decide_True; auto. tauto.
Qed.

Lemma size_final h f l fuel : Rep h f l -> 2 * fcount l + 1 <= fuel ->
  exists f', size fuel h f = Ok (f', Z.of_nat (fcount l)) /\ f_tail f' = f_tail f /\ Rep h f' l /\
    size_valid h f' = Ok true.
Proof.
  intros R Hf. destruct (size_spec h f l fuel R Hf) as (f' & E & Et & R' & _ & Hv). exists f'.
  split; auto. split; auto. split; auto. rewrite (size_valid_spec _ _ _ (rep_word _ _ _ R')), Hv. auto.
Qed.

Lemma copy_final al h x k fuel : good_alloc al -> Rep h x k -> 2 * fcount k <= fuel ->
  exists h' f' k', copy_forest fuel al h x = Ok (h', f') /\ Rep h' f' k' /\ map strip k' = map strip k /\
    Rep h' x k /\ fdisj f' k' x k /\ (forall m, m ∈ fp f' k' -> h !! m = None).
Proof.
  intros Hal R Hf. destruct (copy_forest_eff al h x k fuel Hal R Hf) as (h' & f' & k' & E & R' & Es & F & Et).
  assert (Hn : forall m, m ∈ fp f' k' -> h !! m = None).
  { intros m Hm. destruct (eff_new _ _ _ _ F m Hm) as [H|H]; auto. inversion H. }
  exists h', f', k'. split; auto. split; auto. split; auto.
  destruct (eff_rep _ _ _ _ _ _ F R) as [Rx Hd]; [intros m _ H; inversion H|]. split; auto. split; auto.
  intros m Hm Hm'. apply (Hd m); auto.
Qed.

Lemma no_leak al w : good_alloc al -> reach al w ->
  exists M, view w M /\
    (forall n, is_Some (w_heap w !! n) <-> exists x t l, M !! x = Some (t, l) /\ (n = t \/ n ∈ fnodes l)) /\
    (w_objs w = ∅ -> w_heap w = ∅).
Proof.
  intros Hal Hr. destruct (reach_view al w Hal Hr) as [M Hv]. exists M. split; auto. split.
  - intros n. apply view_live. auto.
  - apply view_no_objs with M. auto.
Qed.

(** ** ranges stated on preorder and postorder listings *)
Lemma preorder_range h f l fuel : Rep h f l -> 2 * fcount l + 2 <= fuel ->
  exists b first, f_begin h f = Ok b /\ find_edge fuel h b leading = Ok first /\
    find_edge fuel h (f_end f) leading = Ok (f_root f) /\
    walk_on id (edge_increment fuel h leading) fuel first (f_root f) = Ok (map (fun nv => L nv.1) (fpre l)) /\
    rwalk_on id (edge_decrement fuel h leading) fuel (f_root f) first = Ok (rev (map (fun nv => L nv.1) (fpre l))).
Proof.
  intros R Hf. destruct (edge_range h f l leading fuel R Hf) as (b & x & H). exists b, x.
  rewrite sel_leading_fword in H. replace (map (fun nv => L nv.1) (fpre l)) with (map (fun n => L n) (fnodes l)); auto.
  rewrite fnodes_map, map_map. auto.
Qed.

Lemma postorder_range h f l fuel : Rep h f l -> 2 * fcount l + 2 <= fuel ->
  exists b first, f_begin h f = Ok b /\ find_edge fuel h b trailing = Ok first /\
    find_edge fuel h (f_end f) trailing = Ok (f_end f) /\
    walk_on id (edge_increment fuel h trailing) fuel first (f_end f) = Ok (map (fun nv => T nv.1) (fpost l)) /\
    rwalk_on id (edge_decrement fuel h trailing) fuel (f_end f) first = Ok (rev (map (fun nv => T nv.1) (fpost l))).
Proof.
  intros R Hf. destruct (edge_range h f l trailing fuel R Hf) as (b & x & H). exists b, x.
  rewrite sel_trailing_fword in H. auto.
Qed.

(** Dereferencing gives the value listed by the specification. *)
Lemma deref_value h f l n v e : Rep h f l -> (n, v) ∈ fpre l -> deref h (Iter n e) = Ok v.
Proof. intros R H. apply (rep_deref _ _ _ _ _ _ R H). Qed.

Lemma shape_valid {W} (hx : heap V) (hy : heap W) x l y (k : list (tree W)) fuel : Rep hx x l -> Rep hy y k ->
  size_valid hx x = Ok true -> size_valid hy y = Ok true ->
  2 * fcount l + 1 <= fuel -> 2 * fcount k + 1 <= fuel ->
  exists b, equal_shape fuel hx hy x y = Ok b /\ (b = true <-> fshape l = fshape k).
Proof.
  intros Rx Ry Vx Vy Hl Hk. destruct (equal_shape_spec hx hy x l y k fuel Rx Ry Hl Hk) as (b & E & Hb).
  rewrite (size_valid_spec _ _ _ (rep_word _ _ _ Rx)) in Vx. rewrite (size_valid_spec _ _ _ (rep_word _ _ _ Ry)) in Vy.
  injection Vx as Vx. injection Vy as Vy. rewrite Vx, Vy in Hb. eauto.
Qed.

Lemma shape_invalid {W} (hx : heap V) (hy : heap W) x l y (k : list (tree W)) fuel : Rep hx x l -> Rep hy y k ->
  size_valid hx x = Ok false \/ size_valid hy y = Ok false ->
  2 * fcount l + 1 <= fuel -> 2 * fcount k + 1 <= fuel ->
  exists b, equal_shape fuel hx hy x y = Ok b /\ (b = true <-> exists k2 : list shape, fshape k = fshape l ++ k2).
Proof.
  intros Rx Ry Vx Hl Hk. destruct (equal_shape_spec hx hy x l y k fuel Rx Ry Hl Hk) as (b & E & Hb).
  rewrite (size_valid_spec _ _ _ (rep_word _ _ _ Rx)), (size_valid_spec _ _ _ (rep_word _ _ _ Ry)) in Vx.
  exists b. split; auto. destruct Vx as [Vx|Vx]; injection Vx as Vx; rewrite Vx in Hb; auto.
  rewrite andb_false_r in Hb. auto.
Qed.

Lemma parent_final h f C a n v cs b e m u ds b' e' fuel :
  Rep h f (plug C (a ++ Node n v (cs ++ Node m u ds :: b') :: b)) -> length b' + 1 <= fuel ->
  find_parent fuel h (Iter m e') = Ok (T n) /\ has_children h (Iter n e) = Ok true.
Proof.
  intros R Hf. split.
  - rewrite (find_parent_spec h f ((a, n, v, b) :: C) b' cs m u ds e' fuel R Hf). auto.
  - rewrite (has_children_spec h f C a n v _ b e R). f_equal. apply bool_decide_eq_true. destruct cs; discriminate.
Qed.

Lemma parent_root h f a m u ds b e fuel : Rep h f (a ++ Node m u ds :: b) -> length b + 1 <= fuel ->
  find_parent fuel h (Iter m e) = Ok (f_end f).
Proof. intros R Hf. rewrite (find_parent_spec h f [] b a m u ds e fuel R Hf). auto. Qed.

End final.
