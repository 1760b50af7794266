(** Tree-level correctness of the modifying operations. *)
From stdpp Require Import gmap list.
From Coq Require Import ZArith.
From Verif.Forest Require Import Model Spec Rep ProofWord ProofHeap ProofOps ProofOps2.

Section tree.
Context {V : Type}.
Implicit Types (h : heap V) (f g : fobj) (l r : list (tree V)) (C D : list (@frame V)).

Lemma gap_firstp t C r : gap t C r = firstp t (fword r ++ post C).
Proof.
  destruct (gap_hd t C r) as (k & E). destruct (firstp_split t (fword r ++ post C)) as (k' & E').
  rewrite <- app_assoc in E'. rewrite E in E'. congruence.
Qed.

Lemma fpre_plug x C l : x ∈ fpre (plug C l) <-> x ∈ fpre l \/ x ∈ fpre (plug C []).
Proof.
  revert l. induction C as [|[[[a n] v] b] C IH]; intros l; simpl.
  - rewrite fpre_nil, elem_of_nil. tauto.
  - rewrite (IH (a ++ Node n v l :: b)), (IH (a ++ Node n v [] :: b)).
    rewrite !fpre_app, !fpre_cons, fpre_nil. rewrite !elem_of_app, !elem_of_cons, ?elem_of_app, ?elem_of_nil. tauto.
Qed.

Lemma fnodes_fpre l n : n ∈ fnodes l <-> exists v, (n, v) ∈ fpre l.
Proof.
  rewrite ?fnodes_map. rewrite elem_of_list_fmap. split.
  - intros ([m v] & -> & H). eauto.
  - intros (v & H). exists (n, v). auto.
Qed.

Lemma fnodes_plug n C l : n ∈ fnodes (plug C l) <-> n ∈ fnodes l \/ n ∈ fnodes (plug C []).
Proof.
  rewrite !fnodes_fpre. split.
  - intros (v & [H|H]%fpre_plug); eauto.
  - intros [(v & H)|(v & H)]; exists v; apply fpre_plug; auto.
Qed.

Lemma rep_alive h f l n : Rep h f l -> n ∈ fp f l -> is_Some (h !! n).
Proof.
  intros [W Vl _] Hn. apply elem_of_cons in Hn as [->|Hn].
  - eapply dt_alive, W.
  - apply elem_wnodes_fword in Hn. destruct (wr_data _ _ _ W n Hn) as [v Hv]. eapply dt_alive; eauto.
Qed.

Lemma rep_nodup h f l : Rep h f l -> NoDup (fp f l).
Proof.
  intros [W _ _]. unfold fp. apply NoDup_cons. split.
  - rewrite <- elem_wnodes_fword. eapply wr_tail_nodes; eauto.
  - apply fword_NoDup. pose proof (wr_nodup _ _ _ W) as Hd. unfold ring in Hd.
    apply NoDup_cons in Hd as [_ Hd]. apply NoDup_app in Hd. tauto.
Qed.

Lemma rep_vals_fun h f l n v : Rep h f l -> (n, v) ∈ fpre l -> dt h n = Some (Some v).
Proof. intros H. apply H. Qed.

Lemma Rep_frame h h' f l : (forall n, n ∈ fp f l -> h' !! n = h !! n) -> Rep h f l -> Rep h' f l.
Proof.
  intros E [W Vl S]. constructor; auto.
  - eapply WRep_frame; [|exact W]. intros n Hn. apply E. unfold fp. rewrite elem_of_cons.
    rewrite elem_wnodes_fword in Hn. auto.
  - intros n v Hn. rewrite <- (Vl n v Hn). unfold dt. rewrite E; auto.
    unfold fp. rewrite elem_of_cons, fnodes_fpre. eauto.
Qed.

Lemma fword_gap C l r : fword (plug C (l ++ r)) = (pre C ++ fword l) ++ (fword r ++ post C).
Proof. rewrite fword_plug, fword_app, <- !app_assoc. auto. Qed.

Lemma fword_gap3 C a s b :
  fword (plug C (a ++ s ++ b)) = (pre C ++ fword a) ++ fword s ++ (fword b ++ post C).
Proof. rewrite fword_plug, !fword_app, <- !app_assoc. auto. Qed.

Lemma wnodes_plug n C l : n ∈ wnodes (fword (plug C l)) <-> n ∈ fnodes (plug C l).
Proof. apply elem_wnodes_fword. Qed.

(** ** insert *)
Lemma insert_tree al h f C l r x :
  Rep h f (plug C (l ++ r)) -> h !! al h = None ->
  let n := al h in
  exists h' f', insert al h f (gap (f_tail f) C r) x = Ok (h', f', L n) /\
    f_tail f' = f_tail f /\
    Rep h' f' (plug C (l ++ Node n x [] :: r)) /\
    (forall m, m <> n -> m ∉ fp f (plug C (l ++ r)) -> h' !! m = h !! m).
Proof.
  intros [W Vl S] Hfresh n. rewrite gap_firstp. rewrite fword_gap in W, S.
  destruct (insert_word al h f _ _ x W Hfresh) as (h' & f' & E & Ef & W' & D & F). fold n in E, W', D, F.
  exists h', f'. split; auto.
  assert (Ew : fword (plug C (l ++ Node n x [] :: r)) =
    (pre C ++ fword l) ++ [L n; T n] ++ (fword r ++ post C)).
  { change (Node n x [] :: r) with ([Node n x []] ++ r).
    rewrite fword_gap3, fword_cons, !fword_nil. auto. }
  assert (Et : f_tail f' = f_tail f) by (rewrite Ef; destruct (sv f _); auto).
  split; auto. split.
  - constructor.
    + rewrite Et, Ew. auto.
    + intros m v. rewrite fpre_plug, fpre_app, fpre_cons, fpre_nil. intros Hm. rewrite D.
      assert (Hold : (m, v) ∈ fpre (plug C (l ++ r)) \/ (m, v) = (n, x)).
      { rewrite fpre_plug, fpre_app. rewrite !elem_of_app, !elem_of_cons, ?elem_of_app, ?elem_of_nil in *. tauto. }
      destruct Hold as [Hold|[= -> ->]].
      * rewrite decide_False; auto. intros ->. specialize (Vl _ _ Hold). apply dt_alive in Vl as [c Hc].
        unfold n in Hc. congruence.
      * rewrite decide_True; auto.
    + rewrite Ew. subst f'. apply insert_sizeok. auto.
  - intros m Hmn Hm. unfold fp in Hm. rewrite elem_of_cons in Hm. apply F; auto.
    rewrite <- fword_gap, elem_wnodes_fword. tauto.
Qed.

(** ** erase *)
Lemma erase_tree h f C a n v cs b e :
  Rep h f (plug C (a ++ Node n v cs :: b)) ->
  let t := f_tail f in
  exists h' f', erase h f (Iter n e) =
      Ok (h', f', match e with leading => gap t C (cs ++ b) | trailing => gap t C b end) /\
    f_tail f' = t /\
    Rep h' f' (plug C (a ++ cs ++ b)) /\ h' !! n = None /\
    (forall m, m ∉ fp f (plug C (a ++ Node n v cs :: b)) -> h' !! m = h !! m).
Proof.
  intros R t. pose proof R as [W Vl S].
  assert (Ew : fword (plug C (a ++ Node n v cs :: b)) =
    (pre C ++ fword a) ++ L n :: fword cs ++ T n :: (fword b ++ post C)).
  { rewrite fword_gap. f_equal. rewrite fword_cons. simpl. f_equal. rewrite <- app_assoc. auto. }
  rewrite Ew in W, S.
  destruct (erase_word h f _ n _ _ e W) as (h' & f' & E & Ef & W' & D & F); [apply fword_bal|].
  fold t in E, W', F, D. exists h', f'.
  assert (Et : f_tail f' = t) by (rewrite Ef; destruct (sv f _); auto).
  split.
  { rewrite E. f_equal. f_equal. destruct e; rewrite gap_firstp; auto. rewrite fword_app, <- app_assoc. auto. }
  split; auto.
  assert (Hnn : forall k, (n, k) ∉ fpre (plug C (a ++ cs ++ b))).
  { intros k Hk. apply rep_nodup in R. unfold fp in R. apply NoDup_cons in R as [_ R].
    assert (Hb : bal (fword (plug C (a ++ cs ++ b)))) by apply fword_bal.
    assert (Hin : L n ∈ fword (plug C (a ++ cs ++ b))) by (apply elem_fword, fnodes_fpre; eauto).
    apply fword_NoDup in R. rewrite Ew in R. rewrite fword_gap3 in Hin.
    clear - R Hin. revert R Hin. generalize (pre C ++ fword a) as A, (fword b ++ post C) as B, (fword cs) as X.
    intros A B X R Hin. apply NoDup_app in R as (_ & N1 & N2). apply NoDup_cons in N2 as [N2 _].
    rewrite !elem_of_app in *. rewrite elem_of_cons in N2.
    destruct Hin as [Hin|Hin]; [apply (N1 _ Hin), elem_of_list_here|tauto]. }
  split; [|split].
  - constructor.
    + rewrite Et, fword_gap3. auto.
    + intros m k Hm. rewrite D. rewrite decide_False.
      * apply Vl. rewrite fpre_plug in *. rewrite !fpre_app in *. rewrite fpre_cons.
        rewrite !elem_of_app, !elem_of_cons, ?elem_of_app in *. tauto.
      * intros ->. eapply Hnn; eauto.
    + rewrite fword_gap3. rewrite Ef. apply erase_sizeok. auto.
  - specialize (D n). rewrite decide_True in D by auto. unfold dt in D. destruct (h' !! n); [discriminate|auto].
  - intros m Hm. unfold fp in Hm. rewrite elem_of_cons in Hm. apply F; auto.
    rewrite <- Ew, elem_wnodes_fword. tauto.
Qed.

(** ** insert_parent *)
Lemma insert_parent_tree al h f C a s b x :
  Rep h f (plug C (a ++ s ++ b)) -> h !! al h = None ->
  let n := al h in let t := f_tail f in
  exists h' f', insert_parent al h f (gap t C (s ++ b)) (gap t C b) x = Ok (h', f', L n) /\
    f_tail f' = t /\
    Rep h' f' (plug C (a ++ Node n x s :: b)) /\
    (forall m, m <> n -> m ∉ fp f (plug C (a ++ s ++ b)) -> h' !! m = h !! m).
Proof.
  intros [W Vl S] Hfresh n t. rewrite !gap_firstp. rewrite fword_app, <- app_assoc.
  rewrite fword_gap3 in W, S.
  destruct (insert_parent_word al h f _ _ _ x W Hfresh) as (h' & f' & E & Ef & W' & D & F);
    [apply fword_bal|].
  fold n t in E, W', D, F. exists h', f'. split; auto.
  assert (Et : f_tail f' = t) by (rewrite Ef; destruct (sv f _); auto).
  assert (Ew : fword (plug C (a ++ Node n x s :: b)) =
    (pre C ++ fword a) ++ L n :: fword s ++ T n :: (fword b ++ post C)).
  { rewrite fword_gap. f_equal. rewrite fword_cons. simpl. f_equal. rewrite <- app_assoc. auto. }
  split; auto. split.
  - constructor.
    + rewrite Et, Ew. auto.
    + intros m v Hm. rewrite D.
      assert (Hold : (m, v) ∈ fpre (plug C (a ++ s ++ b)) \/ (m, v) = (n, x)).
      { rewrite fpre_plug in *. rewrite !fpre_app, ?fpre_cons in *.
        rewrite !elem_of_app, ?elem_of_cons, ?elem_of_app in *. tauto. }
      destruct Hold as [Hold|[= -> ->]].
      * rewrite decide_False; auto. intros ->. specialize (Vl _ _ Hold). apply dt_alive in Vl as [c Hc].
        unfold n in Hc. congruence.
      * rewrite decide_True; auto.
    + rewrite Ew, Ef. apply insert_parent_sizeok. auto.
  - intros m Hmn Hm. unfold fp in Hm. rewrite elem_of_cons in Hm. apply F; auto.
    rewrite <- fword_gap3, elem_wnodes_fword. tauto.
Qed.

(** ** splice *)

Lemma fdisj_disj f l g k : fdisj f l g k -> disj (f_tail f) (fword l) (f_tail g) (fword k).
Proof.
  intros H n H1 H2. apply (H n); unfold fp; rewrite elem_of_cons, <- elem_wnodes_fword; auto.
Qed.

Lemma splice_nil h f g same pos first count :
  splice h f g same pos first first count = Ok (h, f, g, pos).
Proof. unfold splice. rewrite decide_True; auto. Qed.

Lemma splice_at_first h f g same first last count :
  splice h f g same first first last count = Ok (h, f, g, first).
Proof.
  unfold splice. destruct (decide (first = last)) as [->|]; auto. rewrite decide_True; auto.
Qed.

Lemma fword_ne l : l <> [] -> fword l <> [].
Proof. destruct l as [|[n v cs] l]; [congruence|]. rewrite fword_cons. discriminate. Qed.

Lemma splice_diff_tree h f g C a s b D c d count :
  Rep h g (plug C (a ++ s ++ b)) -> Rep h f (plug D (c ++ d)) ->
  fdisj f (plug D (c ++ d)) g (plug C (a ++ s ++ b)) -> s <> [] ->
  count = 0%Z \/ count = Z.of_nat (fcount s) ->
  let tf := f_tail f in let tg := f_tail g in
  exists h' f' g', splice h f g false (gap tf D d) (gap tg C (s ++ b)) (gap tg C b) count
      = Ok (h', f', g', gap tg C (s ++ b)) /\
    f_tail f' = tf /\ f_tail g' = tg /\
    Rep h' f' (plug D (c ++ s ++ d)) /\ Rep h' g' (plug C (a ++ b)) /\
    (forall m, m ∉ fp f (plug D (c ++ d)) -> m ∉ fp g (plug C (a ++ s ++ b)) -> h' !! m = h !! m).
Proof.
  intros [Wg Vg Sg] [Wf Vf Sf] Hd Hne Hc tf tg. apply fdisj_disj in Hd.
  rewrite !gap_firstp. rewrite fword_app, <- app_assoc.
  rewrite (firstp_app tg (fword s)) by (apply fword_ne; auto).
  rewrite fword_gap3 in Wg, Sg, Hd. rewrite fword_gap in Wf, Sf, Hd.
  destruct (splice_diff_word h f g _ _ _ _ _ count Wg Wf Hd (fword_bal s) (fword_ne s Hne))
    as (h' & f' & g' & E & Es & Wf' & Wg' & DD & F).
  fold tf tg in E, Wf', Wg', F. exists h', f', g'. split; auto.
  pose proof (splice_sizes_ok f g _ _ _ _ _ count Sf Sg) as Hs. rewrite <- Es in Hs.
  destruct Hs as (Sf' & Sg' & Tf & Tg).
  { destruct Hc as [->| ->]; auto. right. rewrite fword_length. lia. }
  split; auto. split; auto. split; [|split].
  - constructor.
    + rewrite Tf, fword_gap3. auto.
    + intros m v Hm. rewrite DD. rewrite fpre_plug, !fpre_app in Hm. rewrite !elem_of_app in Hm.
      assert (Hm' : (m, v) ∈ fpre s \/ ((m, v) ∈ fpre (c ++ d) \/ (m, v) ∈ fpre (plug D []))).
      { rewrite fpre_app, elem_of_app. tauto. }
      destruct Hm' as [Hm'|Hm'].
      * apply Vg. rewrite fpre_plug, !fpre_app, !elem_of_app. auto.
      * apply Vf. rewrite fpre_plug. auto.
    + rewrite fword_gap3. auto.
  - constructor.
    + rewrite Tg, fword_gap. auto.
    + intros m v Hm. rewrite DD. apply Vg. rewrite fpre_plug, !fpre_app, !elem_of_app in *. tauto.
    + rewrite fword_gap. auto.
  - intros m Hm1 Hm2. unfold fp in Hm1, Hm2. rewrite elem_of_cons, <- elem_wnodes_fword in Hm1, Hm2.
    rewrite fword_gap in Hm1. rewrite fword_gap3 in Hm2. apply F; tauto.
Qed.

(** [c ++ d] is a gap of the forest from which the range has been removed. *)
Lemma splice_same_tree h f g C a s b D c d count :
  Rep h f (plug C (a ++ s ++ b)) -> plug C (a ++ b) = plug D (c ++ d) -> s <> [] ->
  let t := f_tail f in
  (** the gaps of the reduced forest in the original one *)
  pre C ++ fword a ++ fword b ++ post C = pre D ++ fword c ++ fword d ++ post D ->
  exists h', splice h f g true (gap t D d) (gap t C (s ++ b)) (gap t C b) count
      = Ok (h', f, g, gap t C (s ++ b)) /\
    Rep h' f (plug D (c ++ s ++ d)) /\
    (forall m, m ∉ fp f (plug C (a ++ s ++ b)) -> h' !! m = h !! m).
Proof.
  intros [W Vl S] Hpl Hne t Hpre.
  rewrite !gap_firstp. rewrite fword_app, <- app_assoc.
  rewrite (firstp_app t (fword s)) by (apply fword_ne; auto).
  rewrite fword_gap3 in W, S.
  destruct (splice_same_word h f g _ _ _ (pre D ++ fword c) (fword d ++ post D) count W
              (fword_bal s) (fword_ne s Hne)) as (h' & E & W' & DD & F).
  { rewrite <- !app_assoc. auto. }
  fold t in E, W', F. exists h'. split; auto. split.
  - constructor.
    + rewrite fword_gap3. auto.
    + intros m v Hm. rewrite DD. apply Vl.
      assert (Hx : (m, v) ∈ fpre (plug C (a ++ b)) <-> (m, v) ∈ fpre (plug D (c ++ d)))
        by (rewrite Hpl; tauto).
      rewrite !(fpre_plug _ C (_ ++ _)), !(fpre_plug _ D (_ ++ _)) in *.
      rewrite !fpre_app, !elem_of_app in *. clear - Hm Hx. tauto.
    + rewrite fword_gap3. unfold SizeOk in *. rewrite !app_length in *.
      assert (El : length (pre C ++ fword a ++ fword b ++ post C) =
                   length (pre D ++ fword c ++ fword d ++ post D)) by (rewrite Hpre; auto).
      rewrite !app_length in El. destruct S as [S|S]; [auto|]. right. lia.
  - intros m Hm. unfold fp in Hm. rewrite elem_of_cons, <- elem_wnodes_fword, fword_gap3 in Hm.
    apply F; tauto.
Qed.

Lemma plug_pre_eq C a b D c d : plug C (a ++ b) = plug D (c ++ d) ->
  pre C ++ fword a ++ fword b ++ post C = pre D ++ fword c ++ fword d ++ post D.
Proof.
  intros E. assert (E' : fword (plug C (a ++ b)) = fword (plug D (c ++ d))) by (rewrite E; auto).
  rewrite !fword_gap in E'. rewrite <- !app_assoc in E'. auto.
Qed.

(** ** range erase *)
(** Removing every node that satisfies [P]; its children take its place. *)
Section prune.
Context (P : nat -> Prop) `{forall n, Decision (P n)}.
Local Notation prune := (Rep.prune P).

Lemma prune_cons n v cs l : prune (Node n v cs :: l) =
  (if decide (P n) then prune cs else [Node n v (prune cs)]) ++ prune l.
Proof. reflexivity. Qed.

Lemma fword_prune l : fword (prune l) = filter (fun x => ~ P (it_node x)) (fword l).
Proof.
  induction l as [|n v cs l IHc IHl] using forest_ind'.
  - unfold Rep.prune. simpl. rewrite !fword_nil. auto.
  - rewrite prune_cons, fword_app, IHl. rewrite fword_cons. rewrite filter_cons, filter_app, filter_cons. simpl.
    destruct (decide (P n)) as [Hp|Hp].
    + rewrite !decide_False by tauto. rewrite IHc. auto.
    + rewrite !decide_True by tauto. rewrite fword_cons, IHc, fword_nil. simpl. rewrite <- app_assoc. auto.
Qed.

Lemma fpre_prune l : fpre (prune l) = filter (fun x => ~ P x.1) (fpre l).
Proof.
  induction l as [|n v cs l IHc IHl] using forest_ind'.
  - unfold Rep.prune. simpl. rewrite !fpre_nil. auto.
  - rewrite prune_cons, fpre_app, IHl. rewrite fpre_cons. rewrite filter_cons, filter_app. simpl.
    destruct (decide (P n)) as [Hp|Hp].
    + rewrite !decide_False by tauto. rewrite IHc. auto.
    + rewrite !decide_True by tauto. rewrite fpre_cons, IHc, fpre_nil. simpl. rewrite app_nil_r. auto.
Qed.
End prune.


Lemma keep_prune (p r q : list iter) : bal (p ++ r ++ q) -> NoDup (p ++ r ++ q) ->
  p ++ keep r ++ q = filter (fun x => ~ both r (it_node x)) (p ++ r ++ q).
Proof.
  intros Hb Hd. apply nd3 in Hd as (N1 & N2 & N3 & _). rewrite !filter_app. f_equal; [|f_equal].
  - symmetry. rewrite (filter_ext_in _ (fun _ => True)).
    + clear. induction p as [|x p IH]; auto. rewrite filter_cons_True by auto. f_equal. auto.
    + intros x Hx. split; auto. intros _ [H1 H2]. destruct x as [n []]; simpl in *; eapply N1; eauto.
  - unfold keep. apply filter_ext_in. intros [n []] Hx; unfold both, pivot_of; simpl; tauto.
  - symmetry. rewrite (filter_ext_in _ (fun _ => True)).
    + clear. induction q as [|x q IH]; auto. rewrite filter_cons_True by auto. f_equal. auto.
    + intros x Hx. split; auto. intros _ [H1 H2]. destruct x as [n []]; simpl in *; [apply (N3 _ H2 Hx)|apply (N3 _ H1 Hx)].
Qed.

Lemma erase_range_tree h f l (p r q : list iter) fuel :
  Rep h f l -> fword l = p ++ r ++ q -> length r <= fuel ->
  let t := f_tail f in
  exists h' f', erase_range fuel h f (firstp t (r ++ q)) (firstp t q) = Ok (h', f', firstp t q) /\
    f_tail f' = t /\
    Rep h' f' (prune (both r) l) /\
    (forall n, both r n -> h' !! n = None) /\
    (forall m, m ∉ fp f l -> h' !! m = h !! m).
Proof.
  intros R Ew Hfuel t. pose proof (rep_nodup _ _ _ R) as Hnd. unfold fp in Hnd.
  apply NoDup_cons in Hnd as [_ Hnd]. apply fword_NoDup in Hnd.
  pose proof (fword_bal l) as Hb. rewrite Ew in Hnd, Hb.
  pose proof R as [W Vl S]. rewrite Ew in W, S.
  destruct (erase_range_word h f p r q fuel Hfuel W S) as (h' & f' & E & W' & S' & Tf & D & F).
  fold t in E, W', F, Tf. exists h', f'. split; auto. split; auto.
  assert (Ew' : fword (prune (both r) l) = p ++ keep r ++ q).
  { rewrite fword_prune, Ew. symmetry. apply keep_prune; auto. }
  split; [|split].
  - constructor.
    + rewrite Tf, Ew'. auto.
    + intros n v Hn. rewrite fpre_prune in Hn. apply elem_of_list_filter in Hn as [Hn1 Hn2].
      rewrite D. rewrite decide_False by exact Hn1. auto.
    + rewrite Ew'. auto.
  - intros n Hn. specialize (D n). rewrite decide_True in D by exact Hn.
    unfold dt in D. destruct (h' !! n); [discriminate|auto].
  - intros m Hm. unfold fp in Hm. rewrite elem_of_cons, <- elem_wnodes_fword in Hm.
    rewrite <- Ew in F. apply F; tauto.
Qed.

Lemma clear_tree h f l fuel :
  Rep h f l -> 2 * fcount l <= fuel ->
  exists h' f', clear fuel h f = Ok (h', f') /\ f_tail f' = f_tail f /\ Rep h' f' [] /\
    (forall n, n ∈ fnodes l -> h' !! n = None) /\
    (forall m, m ∉ fp f l -> h' !! m = h !! m).
Proof.
  intros [W Vl S] Hfuel. rewrite <- fword_length in Hfuel.
  destruct (clear_word h f _ fuel Hfuel W S) as (h' & f' & E & W' & S' & Tf & D & F).
  exists h', f'. split; auto. split; auto. split; [|split].
  - constructor.
    + rewrite Tf, fword_nil. auto.
    + intros n v. rewrite fpre_nil. intros Hn. inversion Hn.
    + rewrite fword_nil. auto.
  - intros n Hn. rewrite <- elem_wnodes_fword in Hn. specialize (D n). rewrite decide_True in D by exact Hn.
    unfold dt in D. destruct (h' !! n); [discriminate|auto].
  - intros m Hm. unfold fp in Hm. rewrite elem_of_cons, <- elem_wnodes_fword in Hm. apply F; tauto.
Qed.

End tree.
