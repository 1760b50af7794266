(** Effects of operations on footprints; copy, move, assignment, swap. *)
From stdpp Require Import gmap list.
From Coq Require Import ZArith.
From Verif.Forest Require Import Model Spec Rep ProofWord ProofHeap ProofOps ProofOps2 ProofTree ProofEdge.

Section copy.
Context {V : Type}.
Implicit Types (h : heap V) (f g : fobj) (l r k : list (tree V)) (C D : list (@frame V)) (A B R : list nat).

Lemma eff_refl h A : eff h h A A.
Proof. constructor; auto. Qed.

Lemma eff_trans h h1 h2 A B (C : list nat) : eff h h1 A B -> eff h1 h2 B C -> eff h h2 A C.
Proof.
  intros [F1 N1 O1] [F2 N2 O2]. constructor.
  - intros m HA HC. destruct (decide (m ∈ B)) as [HB|HB].
    + destruct (N1 m HB) as [?|E1]; [tauto|]. destruct (O2 m HB) as [?|E2]; [tauto|]. congruence.
    + rewrite F2, F1; auto.
  - intros m HC. destruct (N2 m HC) as [HB|E].
    + auto.
    + destruct (decide (m ∈ A)) as [HA|HA]; auto. destruct (decide (m ∈ B)) as [HB|HB]; auto.
      right. rewrite <- F1; auto.
  - intros m HA. destruct (O1 m HA) as [HB|E]; auto.
    destruct (decide (m ∈ C)) as [HC|HC]; auto. destruct (decide (m ∈ B)) as [HB|HB].
    + destruct (O2 m HB); auto.
    + right. rewrite F2; auto.
Qed.

Lemma eff_ext h h' A B A' B' : (forall m, m ∈ A <-> m ∈ A') -> (forall m, m ∈ B <-> m ∈ B') ->
  eff h h' A B -> eff h h' A' B'.
Proof.
  intros EA EB [F N O]. constructor.
  - intros m. rewrite <- EA, <- EB. auto.
  - intros m. rewrite <- EA, <- EB. auto.
  - intros m. rewrite <- EA, <- EB. auto.
Qed.

Lemma eff_app_r h h' A B R : eff h h' A B -> eff h h' (A ++ R) (B ++ R).
Proof.
  intros [F N O]. constructor; intros m; rewrite ?elem_of_app.
  - intros. apply F; tauto.
  - intros [H|H]; [|tauto]. destruct (N m H); tauto.
  - intros [H|H]; [|tauto]. destruct (O m H); tauto.
Qed.

Lemma eff_rep h h' A B g k : eff h h' A B -> Rep h g k -> (forall m, m ∈ fp g k -> m ∉ A) ->
  Rep h' g k /\ (forall m, m ∈ fp g k -> m ∉ B).
Proof.
  intros [F N O] H Hd.
  assert (HB : forall m, m ∈ fp g k -> m ∉ B).
  { intros m Hm Hb. destruct (N m Hb) as [?|E]; [eapply Hd; eauto|].
    destruct (rep_alive _ _ _ _ H Hm) as [c Hc]. congruence. }
  split; auto. eapply Rep_frame; [|exact H]. intros n Hn. apply F; auto.
Qed.

Lemma fp_tail f f' l : f_tail f' = f_tail f -> fp f' l = fp f l.
Proof. unfold fp. congruence. Qed.

Lemma fnodes_gap n C a b : n ∈ fnodes (plug C (a ++ b)) <->
  n ∈ fnodes a \/ n ∈ fnodes b \/ n ∈ fnodes (plug C []).
Proof. rewrite fnodes_plug, fnodes_app, elem_of_app. tauto. Qed.

Lemma elem_fp n f l : n ∈ fp f l <-> n = f_tail f \/ n ∈ fnodes l.
Proof. unfold fp. apply elem_of_cons. Qed.

(** Nodes of a sibling range are not elsewhere in the forest. *)
Lemma plug_disj C a s b n : NoDup (fnodes (plug C (a ++ s ++ b))) -> n ∈ fnodes s ->
  n ∈ fnodes (plug C (a ++ b)) -> False.
Proof.
  intros Hd Hs Hn. apply fword_NoDup in Hd. rewrite fword_gap3 in Hd.
  apply (elem_fword (V:=V) _ n leading) in Hs. apply (elem_fword (V:=V) _ n leading) in Hn. rewrite fword_gap in Hn.
  apply nd3 in Hd as (N1 & N2 & N3 & _). apply elem_of_app in Hn as [Hn|Hn].
  - apply (N1 _ Hn Hs).
  - apply (N3 _ Hs Hn).
Qed.

(** ** effects of the basic operations *)
Lemma insert_eff al h f C l r x :
  Rep h f (plug C (l ++ r)) -> h !! al h = None ->
  let n := al h in
  exists h' f', insert al h f (gap (f_tail f) C r) x = Ok (h', f', L n) /\
    f_tail f' = f_tail f /\
    Rep h' f' (plug C (l ++ Node n x [] :: r)) /\
    eff h h' (fp f (plug C (l ++ r))) (fp f' (plug C (l ++ Node n x [] :: r))).
Proof.
  intros R Hn n. destruct (insert_tree al h f C l r x R Hn) as (h' & f' & E & Tf & R' & F).
  fold n in E, R', F. exists h', f'. split; auto. split; auto. split; auto.
  assert (Hfp : forall m, m ∈ fp f' (plug C (l ++ Node n x [] :: r)) <-> m = n \/ m ∈ fp f (plug C (l ++ r))).
  { intros m. rewrite !elem_fp, Tf, !fnodes_gap, fnodes_cons, fnodes_nil. simpl. rewrite elem_of_cons. tauto. }
  constructor.
  - intros m HA HB. rewrite Hfp in HB. apply F; tauto.
  - intros m HB. rewrite Hfp in HB. destruct HB as [->|HB]; auto.
  - intros m HA. left. apply Hfp. auto.
Qed.

Lemma erase_eff h f C a n v cs b e :
  Rep h f (plug C (a ++ Node n v cs :: b)) ->
  let t := f_tail f in
  exists h' f', erase h f (Iter n e) =
      Ok (h', f', match e with leading => gap t C (cs ++ b) | trailing => gap t C b end) /\
    f_tail f' = t /\
    Rep h' f' (plug C (a ++ cs ++ b)) /\ h' !! n = None /\
    eff h h' (fp f (plug C (a ++ Node n v cs :: b))) (fp f' (plug C (a ++ cs ++ b))).
Proof.
  intros R t. destruct (erase_tree h f C a n v cs b e R) as (h' & f' & E & Tf & R' & Hn & F).
  exists h', f'. split; auto. split; auto. split; auto. split; auto.
  assert (Hfp : forall m, m ∈ fp f (plug C (a ++ Node n v cs :: b)) <-> m = n \/ m ∈ fp f' (plug C (a ++ cs ++ b))).
  { intros m. rewrite !elem_fp, Tf, !fnodes_gap, fnodes_cons, fnodes_app, elem_of_cons, !elem_of_app. tauto. }
  constructor.
  - intros m HA HB. auto.
  - intros m HB. left. apply Hfp. auto.
  - intros m HA. apply Hfp in HA as [->|HA]; auto.
Qed.

Lemma insert_parent_eff al h f C a s b x :
  Rep h f (plug C (a ++ s ++ b)) -> h !! al h = None ->
  let n := al h in let t := f_tail f in
  exists h' f', insert_parent al h f (gap t C (s ++ b)) (gap t C b) x = Ok (h', f', L n) /\
    f_tail f' = t /\
    Rep h' f' (plug C (a ++ Node n x s :: b)) /\
    eff h h' (fp f (plug C (a ++ s ++ b))) (fp f' (plug C (a ++ Node n x s :: b))).
Proof.
  intros R Hn n t. destruct (insert_parent_tree al h f C a s b x R Hn) as (h' & f' & E & Tf & R' & F).
  fold n in E, R', F. exists h', f'. split; auto. split; auto. split; auto.
  assert (Hfp : forall m, m ∈ fp f' (plug C (a ++ Node n x s :: b)) <-> m = n \/ m ∈ fp f (plug C (a ++ s ++ b))).
  { intros m. rewrite !elem_fp, Tf, !fnodes_gap, fnodes_cons, fnodes_app, elem_of_cons, !elem_of_app. tauto. }
  constructor.
  - intros m HA HB. rewrite Hfp in HB. apply F; tauto.
  - intros m HB. rewrite Hfp in HB. destruct HB as [->|HB]; auto.
  - intros m HA. left. apply Hfp. auto.
Qed.

Lemma splice_diff_eff h f g C a s b D c d count :
  Rep h g (plug C (a ++ s ++ b)) -> Rep h f (plug D (c ++ d)) ->
  fdisj f (plug D (c ++ d)) g (plug C (a ++ s ++ b)) -> s <> [] ->
  count = 0%Z \/ count = Z.of_nat (fcount s) ->
  let tf := f_tail f in let tg := f_tail g in
  exists h' f' g', splice h f g false (gap tf D d) (gap tg C (s ++ b)) (gap tg C b) count
      = Ok (h', f', g', gap tg C (s ++ b)) /\
    f_tail f' = tf /\ f_tail g' = tg /\
    Rep h' f' (plug D (c ++ s ++ d)) /\ Rep h' g' (plug C (a ++ b)) /\
    fdisj f' (plug D (c ++ s ++ d)) g' (plug C (a ++ b)) /\
    eff h h' (fp f (plug D (c ++ d)) ++ fp g (plug C (a ++ s ++ b)))
             (fp f' (plug D (c ++ s ++ d)) ++ fp g' (plug C (a ++ b))).
Proof.
  intros Rg Rf Hd Hne Hc tf tg.
  destruct (splice_diff_tree h f g C a s b D c d count Rg Rf Hd Hne Hc)
    as (h' & f' & g' & E & Tf & Tg & Rf' & Rg' & F).
  exists h', f', g'. do 5 (split; [assumption|]).
  pose proof (rep_nodup _ _ _ Rg) as Ng. unfold fp in Ng. apply NoDup_cons in Ng as [Ng1 Ng].
  split.
  - intros m H1 H2. rewrite elem_fp, fnodes_gap, fnodes_app, elem_of_app, Tf in H1.
    assert (H1' : m ∈ fp f (plug D (c ++ d)) \/ m ∈ fnodes s).
    { rewrite elem_fp, fnodes_gap. tauto. }
    assert (H2' : m ∈ fp g (plug C (a ++ s ++ b))).
    { rewrite elem_fp, fnodes_gap, Tg in H2. rewrite elem_fp, fnodes_gap, fnodes_app, elem_of_app. tauto. }
    destruct H1' as [H1'|H1']; [apply (Hd m H1' H2')|].
    rewrite elem_fp, Tg in H2. destruct H2 as [->|H2].
    + apply Ng1. fold tg. rewrite fnodes_gap, fnodes_app, elem_of_app. tauto.
    + eapply plug_disj; eauto.
  - assert (Hfp : forall m, m ∈ fp f' (plug D (c ++ s ++ d)) ++ fp g' (plug C (a ++ b)) <->
               m ∈ fp f (plug D (c ++ d)) ++ fp g (plug C (a ++ s ++ b))).
    { intros m. rewrite !elem_of_app, !elem_fp, !fnodes_gap, !fnodes_app, !elem_of_app, Tf, Tg. tauto. }
    constructor.
    + intros m HA HB. rewrite elem_of_app in HA. apply F; tauto.
    + intros m HB. left. apply Hfp. auto.
    + intros m HA. left. apply Hfp. auto.
Qed.

Lemma splice_same_eff h f g C a s b D c d count :
  Rep h f (plug C (a ++ s ++ b)) -> plug C (a ++ b) = plug D (c ++ d) -> s <> [] ->
  let t := f_tail f in
  exists h', splice h f g true (gap t D d) (gap t C (s ++ b)) (gap t C b) count
      = Ok (h', f, g, gap t C (s ++ b)) /\
    Rep h' f (plug D (c ++ s ++ d)) /\
    eff h h' (fp f (plug C (a ++ s ++ b))) (fp f (plug D (c ++ s ++ d))).
Proof.
  intros R Hpl Hne t.
  destruct (splice_same_tree h f g C a s b D c d count R Hpl Hne (plug_pre_eq _ _ _ _ _ _ Hpl))
    as (h' & E & R' & F).
  exists h'. split; auto. split; auto.
  assert (Hfp : forall m, m ∈ fp f (plug C (a ++ s ++ b)) <-> m ∈ fp f (plug D (c ++ s ++ d))).
  { intros m. assert (Hm : m ∈ fnodes (plug C (a ++ b)) <-> m ∈ fnodes (plug D (c ++ d))) by (rewrite Hpl; tauto).
    rewrite !fnodes_gap in Hm. rewrite !elem_fp, !fnodes_gap, !fnodes_app, !elem_of_app. tauto. }
  constructor.
  - intros m HA HB. auto.
  - intros m HB. left. apply Hfp. auto.
  - intros m HA. left. apply Hfp. auto.
Qed.

Lemma clear_eff h f l fuel :
  Rep h f l -> 2 * fcount l <= fuel ->
  exists h' f', clear fuel h f = Ok (h', f') /\ f_tail f' = f_tail f /\ Rep h' f' [] /\
    eff h h' (fp f l) (fp f' (@nil (tree V))).
Proof.
  intros R Hf. destruct (clear_tree h f l fuel R Hf) as (h' & f' & E & Tf & R' & Hn & F).
  exists h', f'. do 3 (split; [assumption|]).
  constructor.
  - intros m HA HB. auto.
  - intros m. rewrite !elem_fp, Tf, fnodes_nil, elem_of_nil. tauto.
  - intros m. rewrite !elem_fp, Tf. intros [->|HA]; auto.
Qed.

Lemma erase_range_eff h f l (p r q : list iter) fuel :
  Rep h f l -> fword l = p ++ r ++ q -> length r <= fuel ->
  let t := f_tail f in
  exists h' f', erase_range fuel h f (firstp t (r ++ q)) (firstp t q) = Ok (h', f', firstp t q) /\
    f_tail f' = t /\
    Rep h' f' (prune (both r) l) /\ (forall n, both r n -> h' !! n = None) /\
    eff h h' (fp f l) (fp f' (prune (both r) l)).
Proof.
  intros R Ew Hf t. destruct (erase_range_tree h f l p r q fuel R Ew Hf) as (h' & f' & E & Tf & R' & Hn & F).
  exists h', f'. do 4 (split; [assumption|]).
  assert (Hfp : forall m, m ∈ fnodes (prune (both r) l) <-> m ∈ fnodes l /\ ~ both r m).
  { intros m. rewrite !fnodes_fpre. setoid_rewrite fpre_prune. setoid_rewrite elem_of_list_filter. simpl.
    split; [intros (v & ? & ?); eauto|intros [(v & ?) ?]; eauto]. }
  constructor.
  - intros m HA HB. auto.
  - intros m. rewrite !elem_fp, Hfp, Tf. tauto.
  - intros m. rewrite !elem_fp, Hfp, Tf. intros [->|HA]; auto.
    destruct (decide (both r m)); auto.
Qed.

(** ** new and destroyed forests *)
Lemma new_forest_eff al h : h !! al h = None ->
  let '(h', f) := new_forest al h in
  f = FObj (al h) 0%Z /\ Rep h' f [] /\ eff h h' [] (fp f (@nil (tree V))).
Proof.
  intros Hn. unfold new_forest, new_node. split; auto. split.
  - assert (Hl : forall e d, lk (<[al h:=fresh_cell (al h) None]> h) (al h) e d = Some (al h)).
    { intros e d. unfold lk. rewrite lookup_insert. destruct e, d; auto. }
    constructor; simpl.
    + rewrite fword_nil. constructor.
      * simpl. unfold nxt. simpl. rewrite !Hl. auto.
      * unfold nxt. simpl. rewrite !Hl. auto.
      * constructor.
      * unfold ring. simpl. apply NoDup_cons. rewrite elem_of_list_singleton. split; [discriminate|].
        apply NoDup_singleton.
      * intros n Hx. inversion Hx.
      * unfold dt. rewrite lookup_insert. auto.
    + intros n v. rewrite fpre_nil. intros Hx. inversion Hx.
    + left. auto.
  - constructor.
    + intros m _ Hm. rewrite elem_fp in Hm. simpl in Hm. rewrite lookup_insert_ne; auto.
    + intros m. rewrite elem_fp, fnodes_nil, elem_of_nil. simpl. intros [->|[]]. auto.
    + intros m Hm. inversion Hm.
Qed.

Lemma destroy_forest_eff h f l fuel : Rep h f l -> 2 * fcount l <= fuel ->
  exists h', destroy_forest fuel h f = Ok h' /\ eff h h' (fp f l) [].
Proof.
  intros R Hf. unfold destroy_forest. destruct (clear_eff h f l fuel R Hf) as (h1 & f1 & E & Tf & R' & EF).
  rewrite E. simpl. eexists. split; [reflexivity|]. eapply eff_trans; [exact EF|].
  constructor.
  - intros m Hm _. rewrite elem_fp in Hm. rewrite lookup_delete_ne; auto.
  - intros m Hm. inversion Hm.
  - intros m. rewrite elem_fp, fnodes_nil, elem_of_nil. intros [->|[]]. right. apply lookup_delete.
Qed.

(** ** range insertion from another forest *)

Lemma insert_range_tree al tg lst s : good_alloc al -> forall (p q : list iter) h f D c d fuel,
  WRep h tg (p ++ fword s ++ q) -> (forall n v, (n, v) ∈ fpre s -> dt h n = Some (Some v)) ->
  lst ∉ fword s ->
  Rep h f (plug D (c ++ d)) ->
  (forall m, m ∈ fp f (plug D (c ++ d)) -> m = tg \/ m ∈ wnodes (p ++ fword s ++ q) -> False) ->
  exists h' f' s',
    insert_range (length (fword s) + fuel) al h f (gap (f_tail f) D d) (firstp tg (fword s ++ q)) lst
      = insert_range fuel al h' f' (gap (f_tail f) D d) (firstp tg q) lst /\
    f_tail f' = f_tail f /\ Rep h' f' (plug D (c ++ s' ++ d)) /\ map strip s' = map strip s /\
    eff h h' (fp f (plug D (c ++ d))) (fp f' (plug D (c ++ s' ++ d))).
Proof.
  intros Hal. induction s as [|n v cs s IHc IHs] using forest_ind'; intros p q h f D c d fuel W Vs Hl R Hd.
  - exists h, f, []. rewrite fword_nil. simpl. do 4 (split; [auto|]). apply eff_refl.
  - rewrite fword_cons in *.
    set (w2 := fword cs ++ T n :: fword s) in *.
    assert (Hlen : length (L n :: w2) + fuel = S (length (fword cs) + S (length (fword s) + fuel))).
    { unfold w2. simpl. rewrite app_length. simpl. lia. }
    rewrite Hlen. simpl. rewrite decide_False by (intros E; apply Hl; rewrite <- E; apply elem_of_list_here).
    assert (Hv : dt h n = Some (Some v)). { apply Vs. rewrite fpre_cons. apply elem_of_list_here. }
    assert (Hder : deref h (L n) = Ok v).
    { unfold deref, load. unfold dt in Hv. simpl. destruct (h !! n) as [cl|]; simpl in *; [|discriminate].
      injection Hv as ->. auto. }
    rewrite Hder. simpl.
    destruct (insert_eff al h f D c d v R (Hal h)) as (h1 & f1 & E1 & Tf1 & R1 & EF1).
    set (m := al h) in *. rewrite E1. simpl.
    (* the source is untouched *)
    assert (Hsrc : forall k : nat, k = tg \/ k ∈ wnodes (p ++ (L n :: w2) ++ q) -> h1 !! k = h !! k).
    { intros k Hk. apply (eff_frame _ _ _ _ EF1).
      - intros Hin. eapply Hd; eauto.
      - intros Hin. destruct (eff_new _ _ _ _ EF1 k Hin) as [Hin'|Hn]; [eapply Hd; eauto|].
        assert (is_Some (h !! k)) as [x Hx]; [|congruence].
        destruct Hk as [->|Hk]; [eapply dt_alive, W|].
        destruct (wr_data _ _ _ W k Hk) as [x Hx]. eapply dt_alive; eauto. }
    assert (W1 : WRep h1 tg (p ++ (L n :: w2) ++ q)) by (eapply WRep_frame; eauto).
    simpl in W1. rewrite (increment_cons h1 tg p (L n) (w2 ++ q) W1). simpl.
    assert (Einc : increment h1 (L m) = Ok (T m)).
    { destruct R1 as [WW _ _]. change (Node m v [] :: d) with ([Node m v []] ++ d) in WW.
      rewrite fword_gap3, fword_cons, !fword_nil in WW. simpl in WW. rewrite Tf1 in WW.
      rewrite (increment_cons _ _ _ _ _ WW). auto. }
    rewrite Einc. simpl.
    set (D' := (c, m, v, d) :: D).
    assert (HD' : plug D' [] = plug D (c ++ Node m v [] :: d)) by reflexivity.
    assert (Hp1 : p ++ (L n :: w2) ++ q = (p ++ [L n]) ++ fword cs ++ (T n :: fword s ++ q)).
    { unfold w2. rewrite <- app_assoc. simpl. rewrite <- app_assoc. auto. }
    assert (Hfp1 : forall k : nat, k ∈ fp f1 (plug D' ([] ++ [])) ->
        k = tg \/ k ∈ wnodes (p ++ (L n :: w2) ++ q) -> False).
    { intros k Hk1 Hk2. destruct (eff_new _ _ _ _ EF1 k Hk1) as [Hin'|Hn]; [eapply Hd; eauto|].
      assert (is_Some (h !! k)) as [x Hx]; [|congruence].
      destruct Hk2 as [->|Hk2]; [eapply dt_alive, W|].
      destruct (wr_data _ _ _ W k Hk2) as [x Hx]. eapply dt_alive; eauto. }
    destruct (IHc (p ++ [L n]) (T n :: fword s ++ q) h1 f1 D' [] [] (S (length (fword s) + fuel)))
      as (h2 & f2 & cs' & E2 & Tf2 & R2 & Es2 & EF2).
    { rewrite <- Hp1. auto. }
    { intros k x Hk. unfold dt. rewrite Hsrc.
      - apply Vs. rewrite fpre_cons, elem_of_cons, elem_of_app. auto.
      - right. unfold w2. rewrite !wnodes_app, wnodes_cons, !wnodes_app, !elem_of_app, elem_of_cons, !elem_of_app.
        assert (k ∈ wnodes (fword cs)); [|tauto]. apply elem_wnodes_fword, fnodes_fpre. eauto. }
    { intros Hin. apply Hl. unfold w2. rewrite elem_of_cons, elem_of_app. auto. }
    { exact R1. }
    { rewrite <- Hp1. auto. }
    change (gap (f_tail f1) D' []) with (T m) in E2.
    assert (Efst : firstp tg (w2 ++ q) = firstp tg (fword cs ++ T n :: fword s ++ q)).
    { unfold w2. rewrite <- app_assoc. auto. }
    rewrite Efst, E2. simpl.
    (* the trailing edge of the source node *)
    rewrite decide_False.
    2:{ intros E. apply Hl. rewrite <- E. unfold w2. rewrite elem_of_cons, elem_of_app, elem_of_cons. auto. }
    assert (EF12 : eff h h2 (fp f (plug D (c ++ d))) (fp f2 (plug D' ([] ++ cs' ++ [])))).
    { eapply eff_trans; eauto. }
    assert (Hsrc2 : forall k : nat, k = tg \/ k ∈ wnodes (p ++ (L n :: w2) ++ q) -> h2 !! k = h !! k).
    { intros k Hk. apply (eff_frame _ _ _ _ EF12).
      - intros Hin. eapply Hd; eauto.
      - intros Hin. destruct (eff_new _ _ _ _ EF12 k Hin) as [Hin'|Hn]; [eapply Hd; eauto|].
        assert (is_Some (h !! k)) as [x Hx]; [|congruence].
        destruct Hk as [->|Hk]; [eapply dt_alive, W|].
        destruct (wr_data _ _ _ W k Hk) as [x Hx]. eapply dt_alive; eauto. }
    assert (W2 : WRep h2 tg (p ++ (L n :: w2) ++ q)) by (eapply WRep_frame; eauto).
    assert (Hp2 : p ++ (L n :: w2) ++ q = (p ++ L n :: fword cs ++ [T n]) ++ fword s ++ q).
    { unfold w2. rewrite <- !app_assoc. simpl. rewrite <- !app_assoc. auto. }
    assert (Hp2' : p ++ (L n :: w2) ++ q = (p ++ L n :: fword cs) ++ T n :: (fword s ++ q)).
    { unfold w2. rewrite <- !app_assoc. simpl. rewrite <- !app_assoc. auto. }
    rewrite (increment_cons h2 tg (p ++ L n :: fword cs) (T n) (fword s ++ q)) by (rewrite <- Hp2'; auto).
    simpl.
    assert (R2' : Rep h2 f2 (plug D ((c ++ [Node m v cs']) ++ d))).
    { unfold D' in R2. simpl in R2. rewrite app_nil_r in R2. rewrite <- app_assoc. auto. }
    assert (Einc2 : increment h2 (T m) = Ok (gap (f_tail f) D d)).
    { rewrite gap_firstp. pose proof R2' as [WW _ _]. rewrite fword_gap, fword_app, fword_cons, fword_nil in WW.
      rewrite Tf2, Tf1 in WW.
      apply (increment_cons h2 (f_tail f) (pre D ++ fword c ++ L m :: fword cs') (T m)).
      rewrite <- !app_assoc in *. simpl in *. rewrite <- ?app_assoc in *. auto. }
    rewrite Einc2. simpl.
    destruct (IHs (p ++ L n :: fword cs ++ [T n]) q h2 f2 D (c ++ [Node m v cs']) d fuel)
      as (h3 & f3 & s' & E3 & Tf3 & R3 & Es3 & EF3).
    { rewrite <- Hp2. auto. }
    { intros k x Hk. unfold dt. rewrite Hsrc2.
      - apply Vs. rewrite fpre_cons, elem_of_cons, elem_of_app. auto.
      - right. rewrite Hp2, !wnodes_app, !elem_of_app.
        assert (k ∈ wnodes (fword s)); [|tauto]. apply elem_wnodes_fword, fnodes_fpre. eauto. }
    { intros Hin. apply Hl. unfold w2. rewrite elem_of_cons, elem_of_app, elem_of_cons. auto. }
    { exact R2'. }
    { rewrite <- Hp2. intros k Hk1 Hk2.
      assert (Hk1' : k ∈ fp f2 (plug D' ([] ++ cs' ++ []))).
      { unfold D'. simpl. rewrite app_nil_r. rewrite <- app_assoc in Hk1. auto. }
      destruct (eff_new _ _ _ _ EF12 k Hk1') as [Hin'|Hn]; [eapply Hd; eauto|].
      assert (is_Some (h !! k)) as [x Hx]; [|congruence].
      destruct Hk2 as [->|Hk2]; [eapply dt_alive, W|].
      destruct (wr_data _ _ _ W k Hk2) as [x Hx]. eapply dt_alive; eauto. }
    assert (Et : f_tail f2 = f_tail f) by congruence. rewrite Et in E3.
    exists h3, f3, (Node m v cs' :: s'). split; [exact E3|]. split; [congruence|].
    rewrite <- app_assoc in R3, EF3. simpl in R3, EF3. split; [exact R3|].
    split; [simpl; rewrite Es2, Es3; auto|].
    eapply eff_trans; [exact EF12|].
    unfold D'. simpl. rewrite app_nil_r. rewrite <- app_assoc in EF3. exact EF3.
Qed.

End copy.
