(** Every allowed command succeeds and has its specified effect; nothing leaks. *)
From stdpp Require Import gmap list.
From Coq Require Import ZArith Lia.
From Verif.Forest Require Import Model Spec Rep ProofWord ProofHeap ProofOps ProofOps2 ProofTree ProofEdge ProofCopy ProofCopy2 ProofIter World WorldSpec.

Section pworld.
Context {V : Type}.
Implicit Types (h : heap V) (f g : fobj) (l r k : list (tree V)) (C D : list (@frame V)).
Implicit Types (M : aworld V) (w : world V).
Local Opaque fp.

(** Ghost state: the objects together with their trees. *)
Notation ghost := (gmap nat (fobj * list (tree V))).
Implicit Types (G : ghost).

Record Inv h G : Prop := {
  inv_rep : forall x f l, G !! x = Some (f, l) -> Rep h f l;
  inv_disj : forall x y f l g k, x <> y -> G !! x = Some (f, l) -> G !! y = Some (g, k) -> fdisj f l g k;
  inv_own : forall n, is_Some (h !! n) -> exists x f l, G !! x = Some (f, l) /\ n ∈ fp f l }.

Definition gfp G x : list nat := match G !! x with Some (f, l) => fp f l | None => [] end.
Lemma gfp_some G x f l : G !! x = Some (f, l) -> gfp G x = fp f l.
Proof. unfold gfp. intros ->. auto. Qed.
Lemma gfp_none G x : G !! x = None -> gfp G x = [].
Proof. unfold gfp. intros ->. auto. Qed.
Lemma gfp_in G x n : n ∈ gfp G x -> exists f l, G !! x = Some (f, l) /\ n ∈ fp f l.
Proof. unfold gfp. destruct (G !! x) as [[f l]|]; [eauto|]. intros H. inversion H. Qed.

Lemma inv_disj' h G x y n : Inv h G -> x <> y -> n ∈ gfp G x -> n ∈ gfp G y -> False.
Proof.
  intros I Hxy (f & l & E & Hn)%gfp_in (g & k & E' & Hn')%gfp_in. eapply (inv_disj _ _ I); eauto.
Qed.

(** The cells of [h] are those of the objects, so a heap's fresh cell is in no object. *)
Lemma rep_live h f l n : Rep h f l -> n ∈ fp f l -> is_Some (h !! n).
Proof.
  intros R Hn. apply elem_fp in Hn as [->|Hn].
  - pose proof (wr_tail _ _ _ (rep_word _ _ _ R)) as H. unfold dt in H. destruct (h !! f_tail f); eauto; inversion H.
  - apply fnodes_fpre in Hn as (v & Hm).
    apply (rep_vals _ _ _ R) in Hm. unfold dt in Hm. simpl. destruct (h !! n); eauto; inversion Hm.
Qed.

Lemma inv_upd h h' G G' (X : list nat) A B : Inv h G -> eff h h' A B ->
  (forall y, y ∉ X -> G' !! y = G !! y) ->
  (forall n, n ∈ A <-> exists x, x ∈ X /\ n ∈ gfp G x) ->
  (forall n, n ∈ B <-> exists x, x ∈ X /\ n ∈ gfp G' x) ->
  (forall x f l, x ∈ X -> G' !! x = Some (f, l) -> Rep h' f l) ->
  (forall x y f l g k, x ∈ X -> y ∈ X -> x <> y -> G' !! x = Some (f, l) -> G' !! y = Some (g, k) -> fdisj f l g k) ->
  Inv h' G'.
Proof.
  intros I F HG HA HB HR HD.
  assert (Hother : forall y f l, y ∉ X -> G' !! y = Some (f, l) -> Rep h' f l /\ (forall m, m ∈ fp f l -> m ∉ B)).
  { intros y f l Hy E. rewrite HG in E by auto. apply (eff_rep h h' A B); auto.
    - apply (inv_rep _ _ I _ _ _ E).
    - intros m Hm (x & Hx & Hm')%HA. apply (inv_disj' h G x y m I); auto; [congruence|].
      rewrite (gfp_some _ _ _ _ E). auto. }
  assert (HBG : forall x f l n, x ∈ X -> G' !! x = Some (f, l) -> n ∈ fp f l -> n ∈ B).
  { intros x f l n Hx E Hn. apply HB. exists x. rewrite (gfp_some _ _ _ _ E). auto. }
  constructor.
  - intros x f l E. destruct (decide (x ∈ X)) as [Hx|Hx]; eauto. apply (Hother x); auto.
  - intros x y f l g k Hxy E E'. destruct (decide (x ∈ X)) as [Hx|Hx]; destruct (decide (y ∈ X)) as [Hy|Hy]; eauto.
    + intros n Hn Hn'. destruct (Hother y g k Hy E') as [_ H]. apply (H n); auto. eapply HBG; eauto.
    + intros n Hn Hn'. destruct (Hother x f l Hx E) as [_ H]. apply (H n); auto. eapply HBG; eauto.
    + rewrite HG in E, E' by auto. apply (inv_disj _ _ I x y); auto.
  - intros n Hn. destruct (decide (n ∈ B)) as [HnB|HnB].
    { apply HB in HnB as (x & _ & (f & l & E & Hl)%gfp_in). eauto. }
    destruct (decide (n ∈ A)) as [HnA|HnA].
    { destruct (eff_old _ _ _ _ F n HnA) as [?|H]; [tauto|]. rewrite H in Hn. destruct Hn. congruence. }
    rewrite (eff_frame _ _ _ _ F n HnA HnB) in Hn.
    destruct (inv_own _ _ I n Hn) as (x & f & l & E & Hl). exists x, f, l. split; auto.
    rewrite HG; auto. intros Hx. apply HnA, HA. exists x. split; auto. rewrite (gfp_some _ _ _ _ E). auto.
Qed.

Lemma inv_1 h h' G x o A B : Inv h G -> eff h h' A B -> A = gfp G x ->
  match o with Some (f, l) => Rep h' f l /\ B = fp f l | None => B = [] end ->
  Inv h' (partial_alter (fun _ => o) x G).
Proof.
  intros I F -> Ho. set (G' := partial_alter _ x G).
  assert (Ex : G' !! x = o) by apply lookup_partial_alter.
  assert (EB : B = gfp G' x).
  { unfold gfp. rewrite Ex. destruct o as [[f l]|]; tauto. }
  apply (inv_upd h h' G G' [x] (gfp G x) B); auto.
  - intros y Hy. apply lookup_partial_alter_ne. intros ->. apply Hy, elem_of_list_here.
  - intros n. split; [eexists; split; [apply elem_of_list_here|]; auto|]. intros (y & ->%elem_of_list_singleton & H). auto.
  - rewrite EB. intros n. split; [eexists; split; [apply elem_of_list_here|]; auto|]. intros (y & ->%elem_of_list_singleton & H). auto.
  - intros y f l ->%elem_of_list_singleton. rewrite Ex. intros ->. tauto.
  - intros y z f l g k ->%elem_of_list_singleton ->%elem_of_list_singleton. congruence.
Qed.

Lemma inv_2 h h' G x y f l g k A B : Inv h G -> x <> y -> eff h h' A B ->
  (forall n, n ∈ A <-> n ∈ gfp G x \/ n ∈ gfp G y) ->
  (forall n, n ∈ B <-> n ∈ fp f l \/ n ∈ fp g k) ->
  Rep h' f l -> Rep h' g k -> fdisj f l g k ->
  Inv h' (<[x := (f, l)]> (<[y := (g, k)]> G)).
Proof.
  intros I Hxy F HA HB R R' Hd. set (G' := <[x := _]> _).
  assert (Ex : G' !! x = Some (f, l)) by apply lookup_insert.
  assert (Ey : G' !! y = Some (g, k)).
  { unfold G'. rewrite lookup_insert_ne by auto. apply lookup_insert. }
  apply (inv_upd h h' G G' [x; y] A B); auto.
  - intros z Hz. unfold G'. rewrite !lookup_insert_ne; auto; intros ->; apply Hz.
    + apply elem_of_list_further, elem_of_list_here. + apply elem_of_list_here.
  - intros n. rewrite HA. split.
    + intros [H|H]; eexists; (split; [|exact H]); [apply elem_of_list_here|apply elem_of_list_further, elem_of_list_here].
    + intros (z & [-> | ->%elem_of_list_singleton]%elem_of_cons & H); auto.
  - intros n. rewrite HB. rewrite <- (gfp_some _ _ _ _ Ex), <- (gfp_some _ _ _ _ Ey). split.
    + intros [H|H]; eexists; (split; [|exact H]); [apply elem_of_list_here|apply elem_of_list_further, elem_of_list_here].
    + intros (z & [-> | ->%elem_of_list_singleton]%elem_of_cons & H); auto.
  - intros z f' l' [-> | ->%elem_of_list_singleton]%elem_of_cons; rewrite ?Ex, ?Ey; intros [= <- <-]; auto.
  - intros z z' f' l' g' k' [-> | ->%elem_of_list_singleton]%elem_of_cons
      [-> | ->%elem_of_list_singleton]%elem_of_cons; try congruence; rewrite Ex, Ey; intros _ [= <- <-] [= <- <-]; auto.
    apply fdisj_sym. auto.
Qed.

(** ** views and ghost states *)
Definition objs_of G : gmap nat fobj := fst <$> G.
Definition abs_of G : aworld V := (fun p => (f_tail p.1, p.2)) <$> G.
Definition gview w M G : Prop := Inv (w_heap w) G /\ w_objs w = objs_of G /\ M = abs_of G.

Lemma gview_view w M G : gview w M G -> view w M.
Proof.
  intros (I & EO & ->). constructor.
  - intros x. rewrite EO. unfold abs_of, objs_of. rewrite !lookup_fmap.
    destruct (G !! x) as [[f l]|] eqn:E; simpl; auto. split; auto. apply (inv_rep _ _ I _ _ _ E).
  - intros x y t l s k Hxy. unfold abs_of. rewrite !lookup_fmap.
    destruct (G !! x) as [[f l']|] eqn:E; simpl; [|intros [=]]. intros [= <- <-].
    destruct (G !! y) as [[g k']|] eqn:E'; simpl; [|intros [=]]. intros [= <- <-].
    intros n Hn Hn'. apply (inv_disj _ _ I _ _ _ _ _ _ Hxy E E' n); apply elem_fp; apply elem_of_cons; auto.
  - intros n Hn. destruct (inv_own _ _ I n Hn) as (x & f & l & E & Hl).
    exists x, (f_tail f), l. unfold abs_of. rewrite lookup_fmap, E. split; auto.
Qed.

Lemma view_gview w M : view w M -> exists G, gview w M G.
Proof.
  intros [HO HD HW].
  exists (map_zip_with (fun p f => (f, p.2)) M (w_objs w)).
  set (G := map_zip_with _ _ _).
  assert (HG : forall x, G !! x = match M !! x, w_objs w !! x with Some (t, l), Some f => Some (f, l) | _, _ => None end).
  { intros x. unfold G. rewrite map_lookup_zip_with. destruct (M !! x) as [[t l]|]; simpl; auto. }
  assert (EM : M = abs_of G).
  { apply map_eq. intros x. unfold abs_of. rewrite lookup_fmap, HG. specialize (HO x).
    destruct (M !! x) as [[t l]|]; simpl; auto. destruct (w_objs w !! x) as [f|]; [|tauto]. simpl. destruct HO as [-> _]. auto. }
  assert (Hlk : forall x f l, G !! x = Some (f, l) -> M !! x = Some (f_tail f, l)).
  { intros x f l E. rewrite EM. unfold abs_of. rewrite lookup_fmap, E. auto. }
  split; [|split; [|exact EM]].
  - constructor.
    + intros x f l E. rewrite HG in E. specialize (HO x). destruct (M !! x) as [[t l']|]; [|congruence].
      destruct (w_objs w !! x); [|congruence]. injection E as -> ->. tauto.
    + intros x y f l g k Hxy E E' n Hn Hn'. rewrite elem_fp, <- elem_of_cons in Hn, Hn'.
      eapply (HD x y); eauto.
    + intros n Hn. destruct (HW n Hn) as (x & t & l & E & Hl). specialize (HO x). rewrite E in HO.
      destruct (w_objs w !! x) as [f|] eqn:Ef; [|tauto]. destruct HO as [Ht _].
      exists x, f, l. rewrite HG, E, Ef. split; auto. apply elem_fp, elem_of_cons. rewrite Ht. auto.
  - apply map_eq. intros x. unfold objs_of. rewrite lookup_fmap, HG. specialize (HO x).
    destruct (M !! x) as [[t l]|]; simpl; destruct (w_objs w !! x) as [f|]; simpl; tauto.
Qed.

Lemma abs_lookup G x t l : abs_of G !! x = Some (t, l) -> exists f, G !! x = Some (f, l) /\ f_tail f = t.
Proof.
  unfold abs_of. rewrite lookup_fmap. destruct (G !! x) as [[f l']|]; simpl; [|intros [=]]. intros [= <- <-]. eauto.
Qed.
Lemma abs_none G x : abs_of G !! x = None -> G !! x = None.
Proof. unfold abs_of. rewrite lookup_fmap. destruct (G !! x); auto. intros [=]. Qed.
Lemma obj_of w G x f l : w_objs w = objs_of G -> G !! x = Some (f, l) -> obj w x = Ok f.
Proof. intros E Ex. unfold obj. rewrite E. unfold objs_of. rewrite lookup_fmap, Ex. auto. Qed.

Lemma fresh_afresh h G n : Inv h G -> h !! n = None -> afresh (abs_of G) n.
Proof.
  intros I Hn x t l (f & E & <-)%abs_lookup. pose proof (inv_rep _ _ I _ _ _ E) as R.
  split; [intros ->|intros Hm]; (destruct (rep_live h f l (f_tail f) R) as [? ?]; [apply elem_fp; auto|]); try congruence.
  destruct (rep_live h f l n R) as [? ?]; [apply elem_fp; auto|]; congruence.
Qed.

(** Fuel: the nodes of a forest are distinct live cells. *)
Lemma rep_size_le h f l : Rep h f l -> fcount l + 1 <= base.size h.
Proof.
  intros R. pose proof (rep_nodup _ _ _ R) as Hd.
  assert (E : length (fp f l) = fcount l + 1).
  { Local Transparent fp. unfold fp. simpl. rewrite fnodes_length. lia. Local Opaque fp. }
  rewrite <- E, <- size_dom, <- (size_list_to_set (C := gset nat) (fp f l)) by auto.
  apply subseteq_size. intros n Hn. apply elem_of_list_to_set in Hn. apply elem_of_dom.
  apply (rep_live h f l); auto.
Qed.

Lemma ins_alter G x f l : partial_alter (fun _ => Some (f, l)) x G = <[x := (f, l)]> G.
Proof. reflexivity. Qed.
Lemma abs_insert G x f l : abs_of (<[x := (f, l)]> G) = <[x := (f_tail f, l)]> (abs_of G).
Proof. unfold abs_of. rewrite fmap_insert. auto. Qed.
Lemma objs_insert G x f l : objs_of (<[x := (f, l)]> G) = <[x := f]> (objs_of G).
Proof. unfold objs_of. rewrite fmap_insert. auto. Qed.

(** ** splice of one node *)
Lemma splice_one_diff_eff h f g C a n v cs b D c d e :
  Rep h g (plug C (a ++ Node n v cs :: b)) -> Rep h f (plug D (c ++ d)) ->
  fdisj f (plug D (c ++ d)) g (plug C (a ++ Node n v cs :: b)) ->
  let tf := f_tail f in let tg := f_tail g in
  exists h' f' g', splice_one h f g false (gap tf D d) (Iter n e) = Ok (h', f', g', L n) /\
    f_tail f' = tf /\ f_tail g' = tg /\
    Rep h' f' (plug D (c ++ Node n v cs :: d)) /\ Rep h' g' (plug C (a ++ b)) /\
    fdisj f' (plug D (c ++ Node n v cs :: d)) g' (plug C (a ++ b)) /\
    eff h h' (fp f (plug D (c ++ d)) ++ fp g (plug C (a ++ Node n v cs :: b)))
             (fp f' (plug D (c ++ Node n v cs :: d)) ++ fp g' (plug C (a ++ b))).
Proof.
  intros Rg Rf Hd tf tg. unfold splice_one, leading_of. simpl.
  pose proof (child_inc h g C a (Node n v cs) b Rg) as E1. unfold root_of in E1. rewrite E1. simpl.
  rewrite (has_children_spec h g C a n v cs b leading Rg). simpl.
  destruct (splice_diff_eff h f g C a [Node n v cs] b D c d (if bool_decide (cs <> []) then 0%Z else 1%Z) Rg Rf Hd)
    as (h' & f' & g' & E & H); [discriminate| |].
  { case_bool_decide as Hc; auto. right. subst cs. reflexivity. }
  simpl in *. exists h', f', g'. split; auto.
Qed.

Lemma splice_one_same_eff h f g C a n v cs b D c d e :
  Rep h f (plug C (a ++ Node n v cs :: b)) -> plug C (a ++ b) = plug D (c ++ d) ->
  let t := f_tail f in
  exists h', splice_one h f g true (gap t D d) (Iter n e) = Ok (h', f, g, L n) /\
    Rep h' f (plug D (c ++ Node n v cs :: d)) /\
    eff h h' (fp f (plug C (a ++ Node n v cs :: b))) (fp f (plug D (c ++ Node n v cs :: d))).
Proof.
  intros Rg Ep t. unfold splice_one, leading_of. simpl.
  pose proof (child_inc h f C a (Node n v cs) b Rg) as E1. unfold root_of in E1. rewrite E1. simpl.
  rewrite (has_children_spec h f C a n v cs b leading Rg). simpl.
  destruct (splice_same_eff h f g C a [Node n v cs] b D c d (if bool_decide (cs <> []) then 0%Z else 1%Z) Rg Ep)
    as (h' & E & H); [discriminate|].
  exists h'. split; auto.
Qed.

Lemma splice_one_none_eff h f g C a n v cs b e :
  Rep h f (plug C (a ++ Node n v cs :: b)) ->
  splice_one h f g true (L n) (Iter n e) = Ok (h, f, g, L n).
Proof.
  intros Rg. unfold splice_one, leading_of. simpl.
  pose proof (child_inc h f C a (Node n v cs) b Rg) as E1. unfold root_of in E1. rewrite E1. simpl.
  rewrite (has_children_spec h f C a n v cs b leading Rg). simpl.
  unfold splice. destruct (decide _); auto. rewrite decide_True by auto. auto.
Qed.

Lemma abs_ext (m1 m2 : aworld V) : m1 = m2 -> m2 = m1. Proof. auto. Qed.

(** ** one command *)
Lemma gstep1 w M G o x f l h' A B : gview w M G ->
  eff (w_heap w) h' A B -> A = gfp G x -> Rep h' f l -> B = fp f l ->
  sstep M o (<[x := (f_tail f, l)]> M) -> 
  exists M', sstep M o M' /\ view (put1 w h' x f) M'.
Proof.
  intros (I & EO & EM) F EA R EB Hs. eexists. split; [exact Hs|].
  apply (gview_view _ _ (<[x := (f, l)]> G)). split; [|split]; simpl.
  - rewrite <- ins_alter. eapply inv_1; eauto.
  - rewrite objs_insert, EO. auto.
  - rewrite abs_insert, EM. auto.
Qed.

Lemma gstep2 w M G o x y f l g k h' A B : gview w M G -> x <> y ->
  eff (w_heap w) h' A B ->
  (forall n, n ∈ A <-> n ∈ gfp G x \/ n ∈ gfp G y) ->
  B = fp f l ++ fp g k -> Rep h' f l -> Rep h' g k -> fdisj f l g k ->
  sstep M o (<[x := (f_tail f, l)]> (<[y := (f_tail g, k)]> M)) -> 
  exists M', sstep M o M' /\ view (put2 w h' x f y g) M'.
Proof.
  intros (I & EO & EM) Hxy F EA EB R R' Hd Hs. eexists. split; [exact Hs|].
  apply (gview_view _ _ (<[x := (f, l)]> (<[y := (g, k)]> G))). split; [|split]; simpl.
  - eapply inv_2; eauto. intros n. rewrite EB, elem_of_app. tauto.
  - rewrite !objs_insert, EO. auto.
  - rewrite !abs_insert, EM. auto.
Qed.

Lemma gstep0 w M G o x f l : gview w M G -> G !! x = Some (f, l) -> 
  forall f', f_tail f' = f_tail f -> Rep (w_heap w) f' l -> sstep M o M ->
  exists M', sstep M o M' /\ view (put1 w (w_heap w) x f') M'.
Proof.
  intros GV E f' Ht R Hs. eapply gstep1; [exact GV|apply eff_refl|reflexivity|exact R| |].
  - rewrite (gfp_some _ _ _ _ E). symmetry. apply fp_tail. auto.
  - destruct GV as (_ & _ & ->). rewrite insert_id; auto. unfold abs_of. rewrite lookup_fmap, E, Ht. auto.
Qed.

Lemma view_put2_same w M x y f g : w_objs w !! x = Some f -> w_objs w !! y = Some g ->
  view w M -> view (put2 w (w_heap w) x f y g) M.
Proof.
  intros Ex Ey Hv. destruct w as [h O]. unfold put2. simpl in *. rewrite !(insert_id O) by auto. auto.
Qed.

Theorem exec_step al w M o : good_alloc al -> view w M -> allowed M o ->
  exists w' M', exec al w o = Ok w' /\ sstep M o M' /\ view w' M'.
Proof.
  intros Hal Hv (M1 & Hs). destruct (view_gview _ _ Hv) as (G & GV).
  pose proof GV as (I & EO & EM).
  pose proof (Hal (w_heap w)) as Hf. pose proof (fresh_afresh _ _ _ I Hf) as Haf. rewrite <- EM in Haf.
  assert (HW : forall x t l, M !! x = Some (t, l) -> exists f, G !! x = Some (f, l) /\ f_tail f = t /\
     Rep (w_heap w) f l /\ obj w x = Ok f /\ 2 * fcount l + 2 <= wfuel w /\ gfp G x = fp f l).
  { intros x t l E. rewrite EM in E. apply abs_lookup in E as (f & E & Ht). exists f. split; auto. split; auto.
    pose proof (inv_rep _ _ I _ _ _ E) as R. split; auto. split; [apply (obj_of w G x f l); auto|].
    split; [|apply gfp_some; auto]. unfold wfuel. pose proof (rep_size_le _ _ _ R). lia. }
  cut (exists w', exec al w o = Ok w' /\ exists M', sstep M o M' /\ view w' M').
  { intros (w' & E & M' & H). exists w', M'. tauto. }
  destruct Hs; unfold exec.
  - (* new *) pose proof (new_forest_eff al (w_heap w) Hf) as Hn. destruct (new_forest al (w_heap w)) as [h' f].
    destruct Hn as (Ef & R & F). eexists; split; [reflexivity|]. eapply gstep1; eauto.
    + rewrite gfp_none; auto. apply abs_none. rewrite <- EM. auto.
    + constructor; auto. rewrite Ef. auto.
  - (* destroy *) destruct (HW _ _ _ H) as (f & Ex & Ht & R & Eo & Hfl & Eg). rewrite Eo. simpl.
    destruct (destroy_forest_eff (w_heap w) f l (wfuel w) R) as (h' & E & F); [lia|]. rewrite E. simpl.
    eexists; split; [reflexivity|]. eexists. split; [econstructor; eauto|].
    apply (gview_view _ _ (delete x G)). split; [|split]; simpl.
    + eapply inv_1 with (o := None); eauto.
    + unfold objs_of. rewrite fmap_delete, EO. auto.
    + unfold abs_of. rewrite fmap_delete, EM. auto.
  - (* copy *) destruct (HW _ _ _ H0) as (g & Ey & Ht & R & Eo & Hfl & Eg). rewrite Eo. simpl.
    destruct (copy_forest_eff al (w_heap w) g l (wfuel w) Hal R) as (h' & f' & k' & E & R' & Es & F & Et); [lia|].
    rewrite E. simpl. eexists; split; [reflexivity|]. eapply gstep1; eauto.
    + rewrite gfp_none; auto. apply abs_none. rewrite <- EM. auto.
    + econstructor; eauto. intros n Hn. rewrite EM. apply (fresh_afresh (w_heap w)); auto.
      destruct (eff_new _ _ _ _ F n) as [Hx|Hx]; [apply elem_fp, elem_of_cons; exact Hn|inversion Hx|auto].
  - (* move *) destruct (HW _ _ _ H0) as (g & Ey & Ht & R & Eo & Hfl & Eg). rewrite Eo. simpl.
    destruct (move_forest_eff al (w_heap w) g l (wfuel w) Hal R) as (h' & f' & x' & E & R1 & R2 & T1 & T2 & Hd & F); [lia|].
    rewrite E. simpl. eexists; split; [reflexivity|].
    assert (Ex : gfp G x = []) by (apply gfp_none, abs_none; rewrite <- EM; auto).
    eapply gstep2; eauto.
    + congruence.
    + intros n. rewrite Ex, Eg, elem_of_nil. tauto.
    + rewrite T1, T2, Ht. econstructor; eauto.
  - (* copy assign *) destruct (HW _ _ _ H0) as (f & Ex & Htf & Rf & Eof & Hflf & Egf). 
    destruct (HW _ _ _ H1) as (g & Ey & Htg & Rg & Eog & Hflg & Egg). rewrite Eof, Eog. simpl.
    destruct (copy_assign_eff al (w_heap w) f k g l (wfuel w) Hal Rf Rg) as (h' & f' & k' & E & R1 & R2 & Es & T1 & Hd & F); try lia.
    { apply (inv_disj _ _ I x y); auto. }
    rewrite E. simpl. eexists; split; [reflexivity|]. eapply gstep1; eauto.
    rewrite T1, Htf. econstructor; eauto. intros n Hn z t0 l0 [Hz Ez]%lookup_delete_Some.
    rewrite EM in Ez. apply abs_lookup in Ez as (g0 & Ez & Htz).
    destruct (eff_new _ _ _ _ F n) as [Hx|Hx]; [apply elem_fp; auto| |].
    + assert (Hno : n ∉ fp g0 l0) by (intros Hno; apply (inv_disj _ _ I x z _ _ _ _ Hz Ex Ez n); auto).
      rewrite elem_fp in Hno. subst t0. tauto.
    + assert (Hno : n ∉ fp g0 l0).
      { intros Hno. destruct (rep_live (w_heap w) g0 l0 n) as [? ?]; auto; [|congruence]. apply (inv_rep _ _ I z); auto. }
      rewrite elem_fp in Hno. subst t0. tauto.
  - (* move assign *) destruct (HW _ _ _ H0) as (f & Ex & Htf & Rf & Eof & Hflf & Egf). 
    destruct (HW _ _ _ H1) as (g & Ey & Htg & Rg & Eog & Hflg & Egg). rewrite Eof, Eog. simpl.
    rewrite bool_decide_false by auto.
    destruct (move_assign_eff al (w_heap w) f k g l (wfuel w) Hal Rf Rg) as (h' & f' & k' & E & R1 & R2 & T1 & T2 & Hd & F); try lia.
    { apply (inv_disj _ _ I x y); auto. }
    rewrite E. simpl. eexists; split; [reflexivity|]. eapply gstep2; eauto.
    + intros n. rewrite Egf, Egg, elem_of_app. tauto.
    + rewrite T1, T2, Htf, Htg. econstructor; eauto.
  - (* move assign to itself *) destruct (HW _ _ _ H) as (f & Ex & Htf & Rf & Eof & Hflf & Egf). 
    rewrite Eof. simpl. rewrite bool_decide_true by auto.
    destruct (move_assign_self_eff al (w_heap w) f k f (wfuel w) Hal Rf) as (h' & f' & E & R1 & T1 & F); [lia|].
    rewrite E. simpl. eexists; split; [reflexivity|]. unfold put2. rewrite insert_insert.
    eapply (gstep1 w M G); eauto. rewrite insert_id; [econstructor; eauto|]. rewrite T1, Htf. auto.
  - (* swap *) destruct (HW _ _ _ H0) as (f & Ex & Htf & Rf & Eof & Hflf & Egf). 
    destruct (HW _ _ _ H1) as (g & Ey & Htg & Rg & Eog & Hflg & Egg). rewrite Eof, Eog. simpl.
    destruct (swap_forest_eff al (w_heap w) f k g l (wfuel w) Hal Rf Rg) as (h' & f' & k' & E & R1 & R2 & T1 & T2 & Hd & F); try lia.
    { apply (inv_disj _ _ I x y); auto. }
    rewrite E. simpl. eexists; split; [reflexivity|]. eapply gstep2; eauto.
    + intros n. rewrite Egf, Egg, elem_of_app. tauto.
    + rewrite T1, T2, Htf, Htg. econstructor; eauto.
  - (* size *) destruct (HW _ _ _ H) as (f & Ex & Htf & Rf & Eof & Hflf & Egf). rewrite Eof. simpl.
    destruct (size_spec (w_heap w) f l (wfuel w) Rf) as (f' & E & T1 & R1 & _); [lia|]. rewrite E. simpl.
    eexists; split; [reflexivity|]. eapply gstep0; eauto. econstructor; eauto.
  - (* clear *) destruct (HW _ _ _ H) as (f & Ex & Htf & Rf & Eof & Hflf & Egf). rewrite Eof. simpl.
    destruct (clear_eff (w_heap w) f l (wfuel w) Rf) as (h' & f' & E & T1 & R1 & F); [lia|]. rewrite E. simpl.
    eexists; split; [reflexivity|]. eapply gstep1; eauto. rewrite T1, Htf. econstructor; eauto.
  - (* insert *) destruct (HW _ _ _ H) as (f & Ex & Htf & Rf & Eof & Hflf & Egf). rewrite Eof. simpl.
    destruct (insert_eff al (w_heap w) f C l r v Rf Hf) as (h' & f' & E & T1 & R1 & F).
    rewrite <- Htf, E. simpl. eexists; split; [reflexivity|]. eapply gstep1; eauto. rewrite T1.
    apply s_insert; auto. rewrite Htf. auto.
  - (* erase *) destruct (HW _ _ _ H) as (f & Ex & Htf & Rf & Eof & Hflf & Egf). rewrite Eof. simpl.
    destruct (erase_eff (w_heap w) f C l n v cs r e Rf) as (h' & f' & E & T1 & R1 & _ & F).
    rewrite E. simpl. eexists; split; [reflexivity|]. eapply gstep1; eauto. rewrite T1, Htf.
    eapply s_erase; eauto.
  - (* erase range *) destruct (HW _ _ _ H) as (f & Ex & Htf & Rf & Eof & Hflf & Egf). rewrite Eof. simpl.
    destruct (erase_range_eff (w_heap w) f l p r q (wfuel w) Rf H0) as (h' & f' & E & T1 & R1 & _ & F).
    { assert (Hl : length (fword l) = 2 * fcount l) by apply fword_length. rewrite H0, !app_length in Hl. lia. }
    rewrite <- Htf, E. simpl. eexists; split; [reflexivity|]. eapply gstep1; eauto. rewrite T1.
    eapply s_erase_range; eauto. rewrite Htf; auto.
  - (* splice *) destruct (HW _ _ _ H0) as (g & Ey & Htg & Rg & Eog & Hflg & Egg).
    destruct (HW _ _ _ H1) as (f & Ex & Htf & Rf & Eof & Hflf & Egf). rewrite Eof, Eog. simpl.
    rewrite bool_decide_false by auto.
    destruct (splice_diff_eff (w_heap w) f g C a s b D c d count Rg Rf) as (h' & f' & g' & E & T1 & T2 & R1 & R2 & Hd & F); auto.
    { apply (inv_disj _ _ I x y); auto. }
    rewrite <- Htf, <- Htg, E. simpl. eexists; split; [reflexivity|]. eapply gstep2; eauto.
    + intros n. rewrite Egf, Egg, elem_of_app. tauto.
    + rewrite T1, T2. eapply s_splice; eauto; congruence.
  - (* splice within *) destruct (HW _ _ _ H) as (f & Ex & Htf & Rf & Eof & Hflf & Egf). rewrite Eof. simpl.
    rewrite bool_decide_true by auto.
    destruct (splice_same_eff (w_heap w) f f C a s b D c d count Rf) as (h' & E & R1 & F); auto.
    rewrite <- Htf, E. simpl. eexists; split; [reflexivity|]. unfold put2. rewrite insert_insert.
    eapply (gstep1 w M G); eauto. eapply s_splice_same; eauto. congruence.
  - (* splice of nothing *)
    destruct H as [[t1 l1] Hx], H0 as [[t2 l2] Hy].
    destruct (HW _ _ _ Hx) as (f & Ex & Htf & Rf & Eof & Hflf & Egf).
    destruct (HW _ _ _ Hy) as (g & Ey & Htg & Rg & Eog & Hflg & Egg). rewrite Eof, Eog. simpl.
    assert (E : splice (w_heap w) f g (bool_decide (x = y)) pos i last count = Ok (w_heap w, f, g, pos)).
    { unfold splice. destruct (decide (i = last)); auto. rewrite decide_True; auto. tauto. }
    rewrite E. simpl. eexists; split; [reflexivity|]. exists M. split; [apply s_splice_none; eauto|].
    apply view_put2_same; auto; rewrite EO; unfold objs_of; rewrite lookup_fmap, ?Ex, ?Ey; auto.
  - (* splice all *) destruct (HW _ _ _ H0) as (g & Ey & Htg & Rg & Eog & Hflg & Egg).
    destruct (HW _ _ _ H1) as (f & Ex & Htf & Rf & Eof & Hflf & Egf). rewrite Eof, Eog. simpl.
    destruct (splice_all_eff (w_heap w) f g k D c d (wfuel w) Rg Rf) as (h' & f' & g' & E & T1 & T2 & R1 & R2 & Hd & F); auto.
    { apply (inv_disj _ _ I x y); auto. } { lia. }
    rewrite <- Htf, E. simpl. eexists; split; [reflexivity|]. eapply gstep2; eauto.
    + intros n. rewrite Egf, Egg, elem_of_app. tauto.
    + rewrite T1, T2. eapply s_splice_all; eauto; congruence.
  - (* splice one *) destruct (HW _ _ _ H0) as (g & Ey & Htg & Rg & Eog & Hflg & Egg).
    destruct (HW _ _ _ H1) as (f & Ex & Htf & Rf & Eof & Hflf & Egf). rewrite Eof, Eog. simpl.
    rewrite bool_decide_false by auto.
    destruct (splice_one_diff_eff (w_heap w) f g C a n v cs b D c d e Rg Rf) as (h' & f' & g' & E & T1 & T2 & R1 & R2 & Hd & F); auto.
    { apply (inv_disj _ _ I x y); auto. }
    rewrite <- Htf, E. simpl. eexists; split; [reflexivity|]. eapply gstep2; eauto.
    + intros m. rewrite Egf, Egg, elem_of_app. tauto.
    + rewrite T1, T2. eapply s_splice_one; eauto; congruence.
  - (* splice one within *) destruct (HW _ _ _ H) as (f & Ex & Htf & Rf & Eof & Hflf & Egf). rewrite Eof. simpl.
    rewrite bool_decide_true by auto.
    destruct (splice_one_same_eff (w_heap w) f f C a n v cs b D c d e Rf) as (h' & E & R1 & F); auto.
    rewrite <- Htf, E. simpl. eexists; split; [reflexivity|]. unfold put2. rewrite insert_insert.
    eapply (gstep1 w M G); eauto. eapply s_splice_one_same; eauto. congruence.
  - (* splice before itself *) destruct (HW _ _ _ H) as (f & Ex & Htf & Rf & Eof & Hflf & Egf). rewrite Eof. simpl.
    rewrite bool_decide_true by auto.
    rewrite (splice_one_none_eff (w_heap w) f f C a n v cs b e Rf). simpl.
    eexists; split; [reflexivity|]. exists M. split; [eapply s_splice_one_none; eauto|].
    apply view_put2_same; auto; rewrite EO; unfold objs_of; rewrite lookup_fmap, ?Ex; auto.
  - (* insert_parent *) destruct (HW _ _ _ H) as (f & Ex & Htf & Rf & Eof & Hflf & Egf). rewrite Eof. simpl.
    destruct (insert_parent_eff al (w_heap w) f C a s b v Rf Hf) as (h' & f' & E & T1 & R1 & F).
    rewrite <- Htf, E. simpl. eexists; split; [reflexivity|]. eapply gstep1; eauto. rewrite T1.
    apply s_insert_parent; auto. rewrite Htf. auto.
  - (* insert range *) destruct (HW _ _ _ H0) as (g & Ey & Htg & Rg & Eog & Hflg & Egg).
    destruct (HW _ _ _ H1) as (f & Ex & Htf & Rf & Eof & Hflf & Egf). rewrite Eof, Eog. simpl.
    pose proof (rep_word _ _ _ Rg) as W. rewrite fword_gap3 in W.
    assert (Hlen : length (fword s) <= wfuel w).
    { pose proof (fword_length (plug C (a ++ s ++ b))) as Hl. rewrite fword_gap3, !app_length in Hl. lia. }
    destruct (insert_range_tree al (f_tail g) (gap t2 C b) s Hal (pre C ++ fword a) (fword b ++ post C)
      (w_heap w) f D c d (wfuel w - length (fword s))) as (h' & f' & k' & E & T1 & R1 & Es & F); auto.
    + intros n v Hn. apply (rep_vals _ _ _ Rg). apply fpre_plug. rewrite !fpre_app, !elem_of_app. auto.
    + rewrite <- Htg, gap_firstp. pose proof (wr_nodup _ _ _ W) as Hnd. rewrite ring3 in Hnd.
      destruct (firstp_split (f_tail g) (fword b ++ post C)) as (q & Eq). rewrite Eq in Hnd.
      apply nd3 in Hnd as (_ & _ & Hnd & _). intros Hin. apply (Hnd _ Hin), elem_of_list_here.
    + intros m Hm Hm'. rewrite <- fword_gap3, elem_wnodes_fword, <- elem_fp in Hm'.
      apply (inv_disj _ _ I x y _ _ _ _ H Ex Ey m); auto.
    + replace (length (fword s) + (wfuel w - length (fword s))) with (wfuel w) in E by lia.
      rewrite Htf, Htg in E. rewrite (gap_firstp t2 C (s ++ b)), fword_app, <- app_assoc. rewrite E.
      rewrite (gap_firstp t2 C b).
      assert (E' : forall fuel p q, insert_range fuel al h' f' p q q = Ok (h', f', p)).
      { intros [|fuel] p q; simpl; rewrite decide_True; auto. }
      rewrite E'. simpl. eexists; split; [reflexivity|]. eapply gstep1; eauto.
      rewrite T1, Htf, <- (gap_firstp t2 C b).
      replace (firstp t2 (fword s ++ fword b ++ post C)) with (gap t2 C (s ++ b))
        by (rewrite gap_firstp, fword_app, <- app_assoc; auto).
      eapply s_insert_range; eauto. intros n Hn.
      rewrite EM. apply (fresh_afresh (w_heap w)); auto.
      destruct (eff_new _ _ _ _ F n) as [Hx|Hx]; auto.
      { apply elem_fp. right. rewrite fnodes_plug, !fnodes_app, !elem_of_app. auto. }
      exfalso. pose proof (rep_nodup _ _ _ R1) as Hnd. Local Transparent fp. unfold fp in Hnd. Local Opaque fp.
      apply NoDup_cons in Hnd as [Hnt Hnd]. apply elem_fp in Hx as [Hx|Hx].
      * apply Hnt. rewrite T1, <- Hx. rewrite fnodes_plug, !fnodes_app, !elem_of_app. auto.
      * eapply plug_disj; eauto.
Qed.

End pworld.
