(** Copies that throw. *)
From stdpp Require Import gmap list.
From Coq Require Import ZArith Lia.
From Verif.Forest Require Import Model Spec Rep ProofWord ProofHeap ProofOps ProofOps2 ProofTree ProofEdge ProofCopy ProofCopy2 Throw ThrowSpec.

Section throw.
Context {V : Type}.
Implicit Types (h : heap V) (f g : fobj) (l r k : list (tree V)) (C D : list (@frame V)) (A B R : list nat).

Lemma fcut_0 l : fcut l 0 = [].
Proof. induction l as [|[n v cs] l IH]; auto. Qed.
Lemma fcut_cons n v cs l b : fcut (Node n v cs :: l) (S b) = Node n v (fcut cs b) :: fcut l (b - fcount cs).
Proof.
  reflexivity.
Qed.
Lemma fcut_pre l : forall b, fpre (fcut l b) = take b (fpre l).
Proof.
  induction l as [|n v cs l IHc IHl] using forest_ind'; intros [|b]; rewrite ?fcut_0, ?fpre_nil; auto.
  rewrite fcut_cons, !fpre_cons, IHc, IHl. simpl. rewrite List.firstn_app, fpre_length. auto.
Qed.
Lemma fcut_count l b : fcount (fcut l b) = Nat.min b (fcount l).
Proof. rewrite <- !fpre_length, fcut_pre, take_length. auto. Qed.
Lemma fcut_all l : forall b, fcount l <= b -> fcut l b = l.
Proof.
  induction l as [|n v cs l IHc IHl] using forest_ind'; intros [|b] Hb; auto; rewrite fcount_cons in Hb; [lia|].
  rewrite fcut_cons, IHc, IHl by lia. auto.
Qed.

Lemma insert_range_t_tree al tg lst s : good_alloc al -> forall (p q : list iter) h f D c d fuel b,
  WRep h tg (p ++ fword s ++ q) -> (forall n v, (n, v) ∈ fpre s -> dt h n = Some (Some v)) ->
  lst ∉ fword s ->
  Rep h f (plug D (c ++ d)) ->
  (forall m, m ∈ fp f (plug D (c ++ d)) -> m = tg \/ m ∈ wnodes (p ++ fword s ++ q) -> False) ->
  exists h' f' s',
    insert_range_t (length (fword s) + fuel) al b h f (gap (f_tail f) D d) (firstp tg (fword s ++ q)) lst
      = (if fcount s <=? b then insert_range_t fuel al (b - fcount s) h' f' (gap (f_tail f) D d) (firstp tg q) lst
         else Ok (h', f', None)) /\
    f_tail f' = f_tail f /\ Rep h' f' (plug D (c ++ s' ++ d)) /\ map strip s' = map strip (fcut s b) /\
    eff h h' (fp f (plug D (c ++ d))) (fp f' (plug D (c ++ s' ++ d))).
Proof.
  intros Hal. induction s as [|n v cs s IHc IHs] using forest_ind'; intros p q h f D c d fuel bud W Vs Hl R Hd.
  - exists h, f, []. rewrite fword_nil, (fcount_nil (V:=V)), Nat.sub_0_r. simpl. do 4 (split; [auto|]). apply eff_refl.
  - rewrite fword_cons in *.
    set (w2 := fword cs ++ T n :: fword s) in *.
    assert (Hlen : length (L n :: w2) + fuel = S (length (fword cs) + S (length (fword s) + fuel))).
    { unfold w2. simpl. rewrite app_length. simpl. lia. }
    rewrite Hlen. simpl. rewrite decide_False by (intros E; apply Hl; rewrite <- E; apply elem_of_list_here).
    assert (Hv : dt h n = Some (Some v)). { apply Vs. rewrite fpre_cons. apply elem_of_list_here. }
    assert (Hder : deref h (L n) = Ok v).
    { unfold deref, load. unfold dt in Hv. simpl. destruct (h !! n) as [cl|]; simpl in *; [|discriminate].
      injection Hv as ->. auto. }
    rewrite Hder. simpl.
    destruct bud as [|bud].
    { exists h, f, []. rewrite fcount_cons. simpl. split; [auto|]. split; [auto|]. split; [auto|].
      split; [rewrite fcut_0; auto|apply eff_refl]. }
    destruct (insert_eff al h f D c d v R (Hal h)) as (h1 & f1 & E1 & Tf1 & R1 & EF1).
    set (m := al h) in *. rewrite E1. simpl.
    (* the source is untouched *)
    assert (Hsrc : forall k : nat, k = tg \/ k ∈ wnodes (p ++ (L n :: w2) ++ q) -> h1 !! k = h !! k).
    { intros k Hk. apply (eff_frame _ _ _ _ EF1).
      - intros Hin. eapply Hd; eauto.
      - intros Hin. destruct (eff_new _ _ _ _ EF1 k Hin) as [Hin'|Hn]; [eapply Hd; eauto|].
        assert (is_Some (h !! k)) as [x Hx]; [|congruence].
        destruct Hk as [->|Hk]; [eapply dt_alive, W|].
        destruct (wr_data _ _ _ W k Hk) as [x Hx]. eapply dt_alive; eauto. }
    assert (W1 : WRep h1 tg (p ++ (L n :: w2) ++ q)) by (eapply WRep_frame; eauto).
    simpl in W1. rewrite (increment_cons h1 tg p (L n) (w2 ++ q) W1). simpl.
    assert (Einc : increment h1 (L m) = Ok (T m)).
    { destruct R1 as [WW _ _]. change (Node m v [] :: d) with ([Node m v []] ++ d) in WW.
      rewrite fword_gap3, fword_cons, !fword_nil in WW. simpl in WW. rewrite Tf1 in WW.
      rewrite (increment_cons _ _ _ _ _ WW). auto. }
    rewrite Einc. simpl.
    set (D' := (c, m, v, d) :: D).
    assert (HD' : plug D' [] = plug D (c ++ Node m v [] :: d)) by reflexivity.
    assert (Hp1 : p ++ (L n :: w2) ++ q = (p ++ [L n]) ++ fword cs ++ (T n :: fword s ++ q)).
    { unfold w2. rewrite <- app_assoc. simpl. rewrite <- app_assoc. auto. }
    assert (Hfp1 : forall k : nat, k ∈ fp f1 (plug D' ([] ++ [])) ->
        k = tg \/ k ∈ wnodes (p ++ (L n :: w2) ++ q) -> False).
    { intros k Hk1 Hk2. destruct (eff_new _ _ _ _ EF1 k Hk1) as [Hin'|Hn]; [eapply Hd; eauto|].
      assert (is_Some (h !! k)) as [x Hx]; [|congruence].
      destruct Hk2 as [->|Hk2]; [eapply dt_alive, W|].
      destruct (wr_data _ _ _ W k Hk2) as [x Hx]. eapply dt_alive; eauto. }
    destruct (IHc (p ++ [L n]) (T n :: fword s ++ q) h1 f1 D' [] [] (S (length (fword s) + fuel)) bud)
      as (h2 & f2 & cs' & E2 & Tf2 & R2 & Es2 & EF2).
    { rewrite <- Hp1. auto. }
    { intros k x Hk. unfold dt. rewrite Hsrc.
      - apply Vs. rewrite fpre_cons, elem_of_cons, elem_of_app. auto.
      - right. unfold w2. rewrite !wnodes_app, wnodes_cons, !wnodes_app, !elem_of_app, elem_of_cons, !elem_of_app.
        assert (k ∈ wnodes (fword cs)); [|tauto]. apply elem_wnodes_fword, fnodes_fpre. eauto. }
    { intros Hin. apply Hl. unfold w2. rewrite elem_of_cons, elem_of_app. auto. }
    { exact R1. }
    { rewrite <- Hp1. auto. }
    change (gap (f_tail f1) D' []) with (T m) in E2.
    assert (Efst : firstp tg (w2 ++ q) = firstp tg (fword cs ++ T n :: fword s ++ q)).
    { unfold w2. rewrite <- app_assoc. auto. }
    rewrite Efst, E2. rewrite fcount_cons.
    destruct (fcount cs <=? bud) eqn:Eb.
    2:{ apply Nat.leb_gt in Eb. rewrite (proj2 (Nat.leb_gt _ (S bud))) by lia.
        exists h2, f2, [Node m v cs']. split; [auto|]. split; [congruence|].
        unfold D' in R2, EF2. simpl in R2, EF2. rewrite app_nil_r in R2, EF2.
        split; [exact R2|]. split.
        - change (map strip [Node m v cs'] = map strip (fcut (Node n v cs :: s) (S bud))).
          rewrite fcut_cons. cbn [map strip]. rewrite Es2. replace (bud - fcount cs) with 0 by lia. rewrite fcut_0. auto.
        - eapply eff_trans; [exact EF1|exact EF2]. }
    apply Nat.leb_le in Eb. simpl.
    (* the trailing edge of the source node *)
    rewrite decide_False.
    2:{ intros E. apply Hl. rewrite <- E. unfold w2. rewrite elem_of_cons, elem_of_app, elem_of_cons. auto. }
    assert (EF12 : eff h h2 (fp f (plug D (c ++ d))) (fp f2 (plug D' ([] ++ cs' ++ [])))).
    { eapply eff_trans; eauto. }
    assert (Hsrc2 : forall k : nat, k = tg \/ k ∈ wnodes (p ++ (L n :: w2) ++ q) -> h2 !! k = h !! k).
    { intros k Hk. apply (eff_frame _ _ _ _ EF12).
      - intros Hin. eapply Hd; eauto.
      - intros Hin. destruct (eff_new _ _ _ _ EF12 k Hin) as [Hin'|Hn]; [eapply Hd; eauto|].
        assert (is_Some (h !! k)) as [x Hx]; [|congruence].
        destruct Hk as [->|Hk]; [eapply dt_alive, W|].
        destruct (wr_data _ _ _ W k Hk) as [x Hx]. eapply dt_alive; eauto. }
    assert (W2 : WRep h2 tg (p ++ (L n :: w2) ++ q)) by (eapply WRep_frame; eauto).
    assert (Hp2 : p ++ (L n :: w2) ++ q = (p ++ L n :: fword cs ++ [T n]) ++ fword s ++ q).
    { unfold w2. rewrite <- !app_assoc. simpl. rewrite <- !app_assoc. auto. }
    assert (Hp2' : p ++ (L n :: w2) ++ q = (p ++ L n :: fword cs) ++ T n :: (fword s ++ q)).
    { unfold w2. rewrite <- !app_assoc. simpl. rewrite <- !app_assoc. auto. }
    rewrite (increment_cons h2 tg (p ++ L n :: fword cs) (T n) (fword s ++ q)) by (rewrite <- Hp2'; auto).
    simpl.
    assert (R2' : Rep h2 f2 (plug D ((c ++ [Node m v cs']) ++ d))).
    { unfold D' in R2. simpl in R2. rewrite app_nil_r in R2. rewrite <- app_assoc. auto. }
    assert (Einc2 : increment h2 (T m) = Ok (gap (f_tail f) D d)).
    { rewrite gap_firstp. pose proof R2' as [WW _ _]. rewrite fword_gap, fword_app, fword_cons, fword_nil in WW.
      rewrite Tf2, Tf1 in WW.
      apply (increment_cons h2 (f_tail f) (pre D ++ fword c ++ L m :: fword cs') (T m)).
      rewrite <- !app_assoc in *. simpl in *. rewrite <- ?app_assoc in *. auto. }
    rewrite Einc2. simpl.
    destruct (IHs (p ++ L n :: fword cs ++ [T n]) q h2 f2 D (c ++ [Node m v cs']) d fuel (bud - fcount cs))
      as (h3 & f3 & s' & E3 & Tf3 & R3 & Es3 & EF3).
    { rewrite <- Hp2. auto. }
    { intros k x Hk. unfold dt. rewrite Hsrc2.
      - apply Vs. rewrite fpre_cons, elem_of_cons, elem_of_app. auto.
      - right. rewrite Hp2, !wnodes_app, !elem_of_app.
        assert (k ∈ wnodes (fword s)); [|tauto]. apply elem_wnodes_fword, fnodes_fpre. eauto. }
    { intros Hin. apply Hl. unfold w2. rewrite elem_of_cons, elem_of_app, elem_of_cons. auto. }
    { exact R2'. }
    { rewrite <- Hp2. intros k Hk1 Hk2.
      assert (Hk1' : k ∈ fp f2 (plug D' ([] ++ cs' ++ []))).
      { unfold D'. simpl. rewrite app_nil_r. rewrite <- app_assoc in Hk1. auto. }
      destruct (eff_new _ _ _ _ EF12 k Hk1') as [Hin'|Hn]; [eapply Hd; eauto|].
      assert (is_Some (h !! k)) as [x Hx]; [|congruence].
      destruct Hk2 as [->|Hk2]; [eapply dt_alive, W|].
      destruct (wr_data _ _ _ W k Hk2) as [x Hx]. eapply dt_alive; eauto. }
    assert (Et : f_tail f2 = f_tail f) by congruence. rewrite Et in E3.
    exists h3, f3, (Node m v cs' :: s'). split.
    { rewrite E3. destruct (fcount s <=? bud - fcount cs) eqn:Eb'.
      - apply Nat.leb_le in Eb'. rewrite (proj2 (Nat.leb_le _ bud)) by lia.
        replace (bud - (fcount cs + fcount s)) with (bud - fcount cs - fcount s) by lia. auto.
      - apply Nat.leb_gt in Eb'. rewrite (proj2 (Nat.leb_gt _ bud)) by lia. auto. }
    split; [congruence|].
    rewrite <- app_assoc in R3, EF3. simpl in R3, EF3. split; [exact R3|].
    split.
    { change (map strip (Node m v cs' :: s') = map strip (fcut (Node n v cs :: s) (S bud))).
      rewrite fcut_cons. cbn [map strip]. rewrite Es2, Es3. auto. }
    eapply eff_trans; [exact EF12|].
    unfold D'. simpl. rewrite app_nil_r. rewrite <- app_assoc in EF3. exact EF3.
Qed.

(** ** the beginning of a forest *)
Lemma elem_of_take_in {X} (x : X) n (w : list X) : x ∈ take n w -> x ∈ w.
Proof. intros H. rewrite <- (take_drop n w). apply elem_of_app. auto. Qed.
Lemma filter_ext_in {X} (P Q : X -> Prop) `{forall x, Decision (P x)} `{forall x, Decision (Q x)} (w : list X) :
  (forall x, x ∈ w -> P x <-> Q x) -> filter P w = filter Q w.
Proof.
  induction w as [|y w IH]; intros E; auto. rewrite !filter_cons.
  rewrite IH by (intros x Hx; apply E; right; auto).
  destruct (decide (P y)) as [a|a], (decide (Q y)) as [b|b]; auto; exfalso; apply (E y) in a || apply (E y) in b; auto; left.
Qed.
Lemma fcut_nodes l b : fnodes (fcut l b) = take b (fnodes l).
Proof. Transparent fnodes. unfold fnodes. rewrite fcut_pre. rewrite List.firstn_map. auto. Qed.
Opaque fnodes.
Lemma fcut_word l : NoDup (fnodes l) -> forall b,
  fword (fcut l b) = filter (fun x => it_node x ∈ take b (fnodes l)) (fword l).
Proof.
  induction l as [|n v cs l IHc IHl] using forest_ind'; intros ND b; [auto|].
  assert (He : forall (l : list (tree V)) x, x ∈ fword l -> it_node x ∈ fnodes l).
  { intros k [m e] Hx. apply elem_fword in Hx. auto. }
  destruct b as [|b].
  { rewrite fcut_0. simpl. symmetry. rewrite (filter_ext_in _ (fun _ => False)) by (intros x _; rewrite elem_of_nil; tauto).
    generalize (fword (Node n v cs :: l)). intros w. induction w; auto. }
  rewrite fnodes_cons in *. apply NoDup_cons in ND as [Hn ND]. apply NoDup_app in ND as (N1 & N2 & N3).
  rewrite fcut_cons, !fword_cons, IHc, IHl by auto. rewrite filter_cons, filter_app, filter_cons.
  rewrite !decide_True by (simpl; left). rewrite <- fcut_nodes in *. simpl take. rewrite List.firstn_app.
  assert (Hlen : length (fnodes cs) = fcount cs).
  { Transparent fnodes. unfold fnodes. Opaque fnodes. rewrite map_length, fpre_length. auto. }
  rewrite Hlen. rewrite elem_of_app in Hn. rewrite !fcut_nodes.
  f_equal. f_equal; [|f_equal].
  - apply filter_ext_in. intros x Hx. apply He in Hx. rewrite elem_of_cons, elem_of_app. split; [tauto|].
    intros [E|[E|E]]; [subst n; tauto|auto|]. exfalso. apply (N2 _ Hx). eapply elem_of_take_in; eauto.
  - apply filter_ext_in. intros x Hx. apply He in Hx. rewrite elem_of_cons, elem_of_app. split; [tauto|].
    intros [E|[E|E]]; [subst n; tauto| |auto]. exfalso. apply (N2 (it_node x)); [eapply elem_of_take_in; eauto|auto].
Qed.

(** ** copy construction *)
Lemma copy_forest_t_eff al h x k fuel b : good_alloc al -> Rep h x k -> 2 * fcount k <= fuel ->
  exists h' k' f', f_tail f' = al h /\ map strip k' = map strip (fcut k b) /\ Rep h' f' k' /\ eff h h' [] (fp f' k') /\
    copy_forest_t fuel al b h x = (if fcount k <=? b then Ok (h', Some f') else Ok (delete (f_tail f') h', None)).
Proof.
  intros Hal R Hf. unfold copy_forest_t.
  pose proof (new_forest_eff al h (Hal h)) as HN. destruct (new_forest al h) as [h0 f0].
  destruct HN as (-> & R0 & EF0).
  destruct (eff_rep _ _ _ _ _ _ EF0 R) as [Rx Hd]. { intros m _ Hm. inversion Hm. }
  rewrite (f_begin_spec h0 x _ (rep_word _ _ _ Rx)). simpl.
  destruct (insert_range_t_tree al (f_tail x) (f_end x) k Hal [] [] h0 (FObj (al h) 0%Z) [] [] [] (fuel - 2 * fcount k) b)
    as (h1 & f1 & k' & E & Tf & R1 & Es & EF1).
  - simpl. rewrite app_nil_r. apply Rx.
  - apply Rx.
  - apply (wr_notin_tail _ _ _ _ (rep_word _ _ _ Rx)).
  - exact R0.
  - simpl. rewrite app_nil_r. intros m H1 H2. apply (Hd m); auto. rewrite elem_fp, <- elem_wnodes_fword. auto.
  - rewrite fword_length in E.
    replace (2 * fcount k + (fuel - 2 * fcount k)) with fuel in E by lia.
    simpl in *. rewrite !app_nil_r in *.
    unfold f_end in E. unfold f_end. simpl in E |- *. rewrite E.
    assert (Efin : forall fuel b h f pos, insert_range_t fuel al b h f pos (T (f_tail x)) (T (f_tail x)) = Ok (h, f, Some pos)).
    { intros [|fl] *; simpl; rewrite decide_True; auto. }
    exists h1, k', f1. do 3 (split; [auto|]). split; [eapply eff_trans; eauto|].
    destruct (fcount k <=? b); [rewrite Efin|]; auto.
Qed.

Lemma strip_count l k : map strip l = map strip k -> fcount l = fcount k.
Proof. intros E. rewrite !fcount_strip, E. auto. Qed.

Lemma copy_forest_t_lost al h x k fuel b : good_alloc al -> Rep h x k -> 2 * fcount k <= fuel -> b < fcount k ->
  exists h' lost, copy_forest_t fuel al b h x = Ok (h', None) /\ length lost = b /\ with_lost h h' lost.
Proof.
  intros Hal R Hf Hb. destruct (copy_forest_t_eff al h x k fuel b Hal R Hf) as (h' & k' & f' & Et & Es & R' & EF & E).
  rewrite E, (proj2 (Nat.leb_gt _ b)) by lia. eexists _, (fnodes k'). split; [reflexivity|].
  assert (Hnd : NoDup (fp f' k')) by (eapply rep_nodup; eauto).
  apply NoDup_cons in Hnd as [Hnt Hnd].
  split. { Transparent fnodes. unfold fnodes. Opaque fnodes. rewrite map_length, fpre_length, (strip_count _ _ Es), fcut_count. lia. }
  split; [auto|]. split.
  - intros m Hm. assert (Hm' : m ∈ fp f' k') by (apply elem_fp; auto). split.
    + destruct (eff_new _ _ _ _ EF m Hm') as [H|H]; [inversion H|auto].
    + rewrite lookup_delete_ne by (intros <-; auto). eapply rep_alive; eauto.
  - intros m Hm. destruct (decide (m = f_tail f')) as [->|Hne].
    + rewrite lookup_delete. rewrite Et. symmetry. apply Hal.
    + rewrite lookup_delete_ne by auto. apply (eff_frame _ _ _ _ EF); [inversion 1|]. rewrite elem_fp. tauto.
Qed.

(** ** without an exception nothing differs *)
Lemma insert_range_t_some al fuel : forall b h f pos x y h' f' (r : iter),
  insert_range_t fuel al b h f pos x y = Ok (h', f', Some r) -> insert_range fuel al h f pos x y = Ok (h', f', r).
Proof.
  induction fuel as [|n IH]; intros b h f pos x y h' f' r H; simpl in *; case_decide; try discriminate.
  - injection H as <- <- <-. auto.
  - injection H as <- <- <-. auto.
  - destruct (is_leading x).
    + destruct (deref h x); try discriminate. simpl in *. destruct b; [discriminate|].
      destruct (insert al h f pos a) as [[[h1 f1] p1]| |]; try discriminate. simpl in *.
      destruct (increment h1 x); try discriminate. simpl in *. destruct (increment h1 p1); try discriminate. simpl in *. eauto.
    + simpl. destruct (increment h x); try discriminate. simpl in *. destruct (increment h pos); try discriminate. simpl in *. eauto.
Qed.
Lemma copy_forest_t_some al fuel b h x h' f' : copy_forest_t fuel al b h x = Ok (h', Some f') -> copy_forest fuel al h x = Ok (h', f').
Proof.
  unfold copy_forest_t, copy_forest. destruct (new_forest al h) as [h0 f0]. destruct (f_begin h0 x); try discriminate. simpl.
  destruct (insert_range_t _ _ _ _ _ _ _ _) as [[[h1 f1] [r|]]| |] eqn:E; try discriminate. simpl.
  intros H. injection H as <- <-. rewrite (insert_range_t_some _ _ _ _ _ _ _ _ _ _ _ E). auto.
Qed.

Lemma copy_forest_t_done al h x k fuel b : good_alloc al -> Rep h x k -> 2 * fcount k <= fuel -> fcount k <= b ->
  exists h' f', copy_forest_t fuel al b h x = Ok (h', Some f') /\ copy_forest fuel al h x = Ok (h', f').
Proof.
  intros Hal R Hf Hb. destruct (copy_forest_t_eff al h x k fuel b Hal R Hf) as (h' & k' & f' & _ & _ & _ & _ & E).
  rewrite (proj2 (Nat.leb_le _ b)) in E by lia. exists h', f'. split; [auto|]. eapply copy_forest_t_some; eauto.
Qed.

Lemma lost_rep h h' lost g l : with_lost h h' lost -> Rep h g l -> Rep h' g l.
Proof.
  intros (_ & Hl & Hf) R. eapply Rep_frame; [|exact R]. intros n Hn. apply Hf. intros Hi.
  destruct (Hl n Hi) as [E _]. destruct (rep_alive _ _ _ _ R Hn) as [c Hc]. congruence.
Qed.

Lemma copy_forest_t_final al h x k fuel b : good_alloc al -> Rep h x k -> 2 * fcount k <= fuel ->
  if fcount k <=? b then
    exists h' f', copy_forest_t fuel al b h x = Ok (h', Some f') /\ copy_forest fuel al h x = Ok (h', f')
  else
    exists h' lost, copy_forest_t fuel al b h x = Ok (h', None) /\ length lost = b /\ with_lost h h' lost /\
      forall g l, Rep h g l -> Rep h' g l.
Proof.
  intros Hal R Hf. destruct (fcount k <=? b) eqn:Eb.
  - apply Nat.leb_le in Eb. eapply copy_forest_t_done; eauto.
  - apply Nat.leb_gt in Eb. destruct (copy_forest_t_lost al h x k fuel b Hal R Hf Eb) as (h' & lost & E & L1 & L2).
    exists h', lost. repeat (split; [auto|]). intros. eapply lost_rep; eauto.
Qed.

Lemma copy_assign_t_final al h f l x k fuel b : good_alloc al -> Rep h f l -> Rep h x k -> fdisj f l x k ->
  2 * fcount k + 1 <= fuel -> 2 * fcount l <= fuel ->
  if fcount k <=? b then
    exists h' f', copy_assign_t fuel al b h f x = Ok (h', f', true) /\ copy_assign fuel al h f x = Ok (h', f')
  else
    exists h' lost, copy_assign_t fuel al b h f x = Ok (h', f, false) /\ length lost = b /\ with_lost h h' lost /\
      forall g l, Rep h g l -> Rep h' g l.
Proof.
  intros Hal Rf Rx Hd Hk Hl.
  destruct (copy_assign_eff al h f l x k fuel Hal Rf Rx Hd Hk Hl) as (h' & f' & k' & E & _).
  assert (Ht : bool_decide (f_tail f <> f_tail x) = true).
  { apply bool_decide_eq_true. intros Et. apply (Hd (f_tail f)); apply elem_fp; auto. }
  pose proof (copy_forest_t_final al h x k fuel b Hal Rx ltac:(lia)) as HC.
  unfold copy_assign_t, copy_assign in *. rewrite Ht in *. simpl in *.
  destruct (fcount k <=? b).
  - destruct HC as (h1 & c & E1 & E2). rewrite E1. rewrite E2 in *. simpl in *.
    destruct (move_assign fuel al h1 f c false) as [[[h2 f1] c1]| |]; try discriminate. simpl in *.
    destruct (destroy_forest fuel h2 c1); try discriminate. simpl in *. eauto.
  - destruct HC as (h1 & lost & E1 & L1 & L2 & L3). rewrite E1. simpl. eauto 10.
Qed.

(** ** a sibling range *)
Lemma insert_range_t_final al h f g C a s b D c d fuel n : good_alloc al ->
  Rep h g (plug C (a ++ s ++ b)) -> Rep h f (plug D (c ++ d)) -> fdisj f (plug D (c ++ d)) g (plug C (a ++ s ++ b)) ->
  2 * fcount s <= fuel ->
  let tf := f_tail f in let tg := f_tail g in
  exists h' f' s', insert_range_t fuel al n h f (gap tf D d) (gap tg C (s ++ b)) (gap tg C b)
      = Ok (h', f', if fcount s <=? n then Some (gap tf D d) else None) /\
    f_tail f' = tf /\ Rep h' f' (plug D (c ++ s' ++ d)) /\ map strip s' = map strip (fcut s n) /\
    Rep h' g (plug C (a ++ s ++ b)) /\
    eff h h' (fp f (plug D (c ++ d))) (fp f' (plug D (c ++ s' ++ d))).
Proof.
  intros Hal Rg Rf Hd Hf tf tg. pose proof (rep_word _ _ _ Rg) as W. rewrite fword_gap3 in W.
  destruct (insert_range_t_tree al tg (gap tg C b) s Hal (pre C ++ fword a) (fword b ++ post C) h f D c d (fuel - 2 * fcount s) n)
    as (h' & f' & s' & E & Tf & R' & Es & EF).
  - exact W.
  - intros m v Hm. apply (rep_vals _ _ _ Rg). apply fpre_plug. left. rewrite !fpre_app, !elem_of_app. auto.
  - rewrite gap_firstp. pose proof (wr_nodup _ _ _ W) as ND. unfold ring in ND. rewrite <- !app_assoc in ND.
    apply NoDup_cons in ND as [_ ND]. do 2 (apply NoDup_app in ND as (_ & _ & ND)).
    apply NoDup_app in ND as (_ & ND & _). intros Hi. apply (ND _ Hi).
    rewrite app_assoc. fold tg. destruct (fword b ++ post C); simpl; left.
  - exact Rf.
  - intros m H1 H2. apply (Hd m H1). apply elem_fp. rewrite <- elem_wnodes_fword, fword_gap3. exact H2.
  - exists h', f', s'. rewrite fword_length in E. replace (2 * fcount s + (fuel - 2 * fcount s)) with fuel in E by lia.
    assert (Eg : gap tg C (s ++ b) = firstp tg (fword s ++ fword b ++ post C)).
    { rewrite gap_firstp, fword_app, <- app_assoc. auto. }
    rewrite Eg. fold tf in E. rewrite E.
    split.
    { destruct (fcount s <=? n); [|auto]. rewrite <- gap_firstp.
      destruct (fuel - 2 * fcount s); simpl; rewrite decide_True; auto. }
    split; [auto|]. split; [auto|]. split; [auto|]. split; [|exact EF].
    eapply eff_rep; [exact EF|exact Rg|]. intros m H1 H2. apply (Hd m H2 H1).
Qed.

End throw.
