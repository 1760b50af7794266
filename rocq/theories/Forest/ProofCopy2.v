(** Whole-forest operations: splice of a forest, copy, move, assignment, swap. *)
From stdpp Require Import gmap list.
From Coq Require Import ZArith.
From Verif.Forest Require Import Model Spec Rep ProofWord ProofHeap ProofOps ProofOps2 ProofTree ProofEdge ProofCopy.

Section copy2.
Context {V : Type}.
Local Opaque fp.
Implicit Types (h : heap V) (f g : fobj) (l r k : list (tree V)) (C D : list (@frame V)) (A B R : list nat).

(** The number of nodes depends on the structure only. *)
Fixpoint vcount (t : vtree V) : nat := match t with VNode _ cs => S (sum_list (map vcount cs)) end.
Definition fvcount (l : list (vtree V)) : nat := sum_list (map vcount l).
Lemma fcount_strip l : fcount l = fvcount (map strip l).
Proof.
  induction l as [|n v cs l IHc IHl] using forest_ind'; [rewrite fcount_nil; auto|].
  rewrite fcount_cons. unfold fvcount in *. simpl. rewrite <- IHc, <- IHl. auto.
Qed.

Lemma fdisj_sym f l g k : fdisj f l g k -> fdisj g k f l.
Proof. intros H n H1 H2. eapply H; eauto. Qed.

Lemma splice_all_eff h f g k D c d fuel :
  Rep h g k -> Rep h f (plug D (c ++ d)) -> fdisj f (plug D (c ++ d)) g k ->
  2 * fcount k + 1 <= fuel ->
  let tf := f_tail f in let tg := f_tail g in
  exists h' f' g', splice_all fuel h f g (gap tf D d)
      = Ok (h', f', g', gap tf D (k ++ d)) /\
    f_tail f' = tf /\ f_tail g' = tg /\
    Rep h' f' (plug D (c ++ k ++ d)) /\ Rep h' g' [] /\
    fdisj f' (plug D (c ++ k ++ d)) g' [] /\
    eff h h' (fp f (plug D (c ++ d)) ++ fp g k) (fp f' (plug D (c ++ k ++ d)) ++ fp g' (@nil (tree V))).
Proof.
  intros Rg Rf Hd Hf tf tg. unfold splice_all.
  rewrite (f_begin_spec h g _ (rep_word _ _ _ Rg)). simpl.
  rewrite (size_valid_spec h g _ (rep_word _ _ _ Rg)). simpl.
  assert (Hsz : exists cnt, (if sv g (fword k) then size fuel h g else Ok (g, 0%Z)) = Ok (g, cnt) /\
            (cnt = 0%Z \/ cnt = Z.of_nat (fcount k))).
  { destruct (sv g (fword k)) eqn:E; [|eauto].
    destruct (size_spec h g k fuel Rg Hf) as (g' & E1 & _ & _ & E2 & _). rewrite E2 in E1 by auto. eauto. }
  destruct Hsz as (cnt & -> & Hc). simpl.
  destruct k as [|x k].
  - rewrite fword_nil. simpl. unfold f_end. rewrite splice_nil. exists h, f, g.
    simpl. do 4 (split; [auto|]). split; [auto|]. split; [auto|]. apply eff_refl.
  - destruct (splice_diff_eff h f g [] [] (x :: k) [] D c d cnt) as (h' & f' & g' & E & Tf & Tg & Rf' & Rg' & Hd' & EF);
      simpl; rewrite ?app_nil_r; auto.
    exists h', f', g'.
    simpl plug in EF, Rg', Hd'. simpl app in EF at 2. rewrite !app_nil_r in EF, E.
    split; [|auto 10].
    destruct x as [n v cs]. unfold f_end. rewrite fword_cons. exact E.
Qed.

Lemma Rep_ext h h' f l : h' = h -> Rep h f l -> Rep h' f l.
Proof. intros ->. auto. Qed.

Lemma disj_app_fp f l g k : fdisj f l g k <-> (forall m, m ∈ fp g k -> m ∉ fp f l).
Proof. unfold fdisj. split; intros H n H1 H2; eapply H; eauto. Qed.

(** *** copy construction: forest.hpp:798-800 *)
Lemma copy_forest_eff al h x k fuel : good_alloc al -> Rep h x k -> 2 * fcount k <= fuel ->
  exists h' f' k', copy_forest fuel al h x = Ok (h', f') /\ Rep h' f' k' /\ map strip k' = map strip k /\
    eff h h' [] (fp f' k') /\ (f_tail f') = al h.
Proof.
  intros Hal R Hf. unfold copy_forest.
  pose proof (new_forest_eff al h (Hal h)) as HN. destruct (new_forest al h) as [h0 f0].
  destruct HN as (-> & R0 & EF0).
  destruct (eff_rep _ _ _ _ _ _ EF0 R) as [Rx Hd]. { intros m _ Hm. inversion Hm. }
  rewrite (f_begin_spec h0 x _ (rep_word _ _ _ Rx)). simpl.
  destruct (insert_range_tree al (f_tail x) (f_end x) k Hal [] [] h0 (FObj (al h) 0%Z) [] [] [] (fuel - 2 * fcount k))
    as (h1 & f1 & k' & E & Tf & R1 & Es & EF1).
  - simpl. rewrite app_nil_r. apply Rx.
  - apply Rx.
  - apply (wr_notin_tail _ _ _ _ (rep_word _ _ _ Rx)).
  - exact R0.
  - simpl. rewrite app_nil_r. intros m H1 H2. apply (Hd m); auto. rewrite elem_fp, <- elem_wnodes_fword. auto.
  - rewrite fword_length in E.
    replace (2 * fcount k + (fuel - 2 * fcount k)) with fuel in E by lia.
    simpl in *. rewrite !app_nil_r in *.
    unfold f_end in E. unfold f_end. simpl in E |- *. rewrite E.
    assert (Efin : forall fuel h f pos, insert_range fuel al h f pos (T (f_tail x)) (T (f_tail x)) = Ok (h, f, pos)).
    { intros [|fl] *; simpl; rewrite decide_True; auto. }
    rewrite Efin. simpl. exists h1, f1, k'. do 3 (split; [auto|]). split; [|auto].
    eapply eff_trans; eauto.
Qed.

(** *** move construction: forest.hpp:801 *)
Lemma move_forest_eff al h x k fuel : good_alloc al -> Rep h x k -> 2 * fcount k + 1 <= fuel ->
  exists h' f' x', move_forest fuel al h x = Ok (h', f', x') /\ Rep h' f' k /\ Rep h' x' [] /\
    f_tail x' = f_tail x /\ f_tail f' = al h /\ fdisj f' k x' [] /\
    eff h h' (fp x k) (fp f' k ++ fp x' (@nil (tree V))).
Proof.
  intros Hal R Hf. unfold move_forest.
  pose proof (new_forest_eff al h (Hal h)) as HN. destruct (new_forest al h) as [h0 f0].
  destruct HN as (-> & R0 & EF0).
  destruct (eff_rep _ _ _ _ _ _ EF0 R) as [Rx Hd]. { intros m _ Hm. inversion Hm. }
  destruct (splice_all_eff h0 (FObj (al h) 0%Z) x k [] [] [] fuel) as (h1 & f1 & x1 & E & Tf & Tx & R1 & Rx1 & Hd1 & EF1); auto.
  { apply disj_app_fp. exact Hd. }
  simpl in E. unfold f_end. simpl. rewrite E. simpl. simpl in *. rewrite app_nil_r in *.
  exists h1, f1, x1. do 6 (split; [auto|]).
  eapply eff_trans; [|exact EF1].
  apply (eff_app_r _ _ _ _ (fp x k)) in EF0. exact EF0.
Qed.

(** *** move assignment: forest.hpp:808-813 *)
Lemma move_assign_eff al h f l x k fuel : good_alloc al -> Rep h f l -> Rep h x k -> fdisj f l x k ->
  2 * fcount k + 1 <= fuel -> 2 * fcount l <= fuel ->
  exists h' f' x', move_assign fuel al h f x false = Ok (h', f', x') /\ Rep h' f' k /\ Rep h' x' [] /\
    f_tail x' = f_tail x /\ f_tail f' = f_tail f /\ fdisj f' k x' [] /\
    eff h h' (fp f l ++ fp x k) (fp f' k ++ fp x' (@nil (tree V))).
Proof.
  intros Hal Rf Rx Hd Hk Hl. unfold move_assign.
  destruct (move_forest_eff al h x k fuel Hal Rx Hk) as (h1 & tmp & x1 & E1 & Rt1 & Rx1 & Tx & Ttmp & Hd1 & EF1).
  rewrite E1. simpl.
  destruct (eff_rep _ _ _ _ _ _ EF1 Rf) as [Rf1 Hf1]. { intros m Hm Hm'. apply (Hd m Hm Hm'). }
  destruct (clear_eff h1 f l fuel Rf1 Hl) as (h2 & f1 & E2 & Tf1 & Rf2 & EF2).
  rewrite E2. simpl.
  destruct (eff_rep _ _ _ _ _ _ EF2 Rt1) as [Rt2 Ht2].
  { intros m Hm Hm'. apply (Hf1 m Hm'), elem_of_app; auto. }
  destruct (eff_rep _ _ _ _ _ _ EF2 Rx1) as [Rx2 Hx2].
  { intros m Hm Hm'. apply (Hf1 m Hm'), elem_of_app; auto. }
  destruct (splice_all_eff h2 f1 tmp k [] [] [] fuel) as (h3 & f2 & tmp1 & E3 & Tf2 & Ttmp1 & Rf3 & Rt3 & Hd3 & EF3); auto.
  { apply disj_app_fp. exact Ht2. }
  simpl in E3. unfold f_end. simpl. rewrite E3. simpl in *. rewrite app_nil_r in *.
  destruct (eff_rep _ _ _ _ _ _ EF3 Rx2) as [Rx3 Hx3].
  { intros m Hm. rewrite elem_of_app. intros [Hm'|Hm']; [apply (Hx2 m Hm Hm')|apply (Hd1 m Hm' Hm)]. }
  destruct (destroy_forest_eff h3 tmp1 [] fuel Rt3) as (h4 & E4 & EF4).
  { rewrite (fcount_nil (V:=V)). lia. }
  rewrite E4. simpl.
  destruct (eff_rep _ _ _ _ _ _ EF4 Rx3) as [Rx4 _].
  { intros m Hm Hm'. apply (Hx3 m Hm), elem_of_app; auto. }
  destruct (eff_rep _ _ _ _ _ _ EF4 Rf3) as [Rf4 _]. { intros m Hm Hm'. apply (Hd3 m Hm Hm'). }
  exists h4, f2, x1. do 4 (split; [auto; congruence|]). split; [congruence|]. split.
  { intros m H1 H2. apply (Hx3 m H2), elem_of_app; auto. }
  eapply eff_trans.
  { eapply (eff_ext _ _ (fp x k ++ fp f l) ((fp tmp k ++ fp x1 (@nil (tree V))) ++ fp f l) _ (fp f l ++ (fp tmp k ++ fp x1 (@nil (tree V))))).
    - intros m. rewrite !elem_of_app. tauto.
    - intros m. rewrite !elem_of_app. tauto.
    - apply eff_app_r. exact EF1. }
  eapply eff_trans. { apply eff_app_r. exact EF2. }
  eapply eff_trans.
  { eapply (eff_ext _ _ ((fp f1 (@nil (tree V)) ++ fp tmp k) ++ fp x1 (@nil (tree V))) _ _ (fp tmp1 (@nil (tree V)) ++ (fp f2 k ++ fp x1 (@nil (tree V))))).
    - intros m. rewrite !elem_of_app. tauto.
    - reflexivity.
    - eapply eff_ext; [reflexivity| |apply eff_app_r; exact EF3]. intros m. rewrite !elem_of_app. tauto. }
  apply (eff_app_r _ _ _ _ (fp f2 k ++ fp x1 (@nil (tree V)))) in EF4. exact EF4.
Qed.

(** Self move assignment. *)
Lemma move_assign_self_eff al h f l x fuel : good_alloc al -> Rep h f l ->
  2 * fcount l + 1 <= fuel ->
  exists h' f', move_assign fuel al h f x true = Ok (h', f', f') /\ Rep h' f' l /\
    f_tail f' = f_tail f /\ eff h h' (fp f l) (fp f' l).
Proof.
  intros Hal Rf Hl. unfold move_assign.
  destruct (move_forest_eff al h f l fuel Hal Rf Hl) as (h1 & tmp & x1 & E1 & Rt1 & Rx1 & Tx & Ttmp & Hd1 & EF1).
  rewrite E1. simpl.
  destruct (clear_eff h1 x1 [] fuel Rx1) as (h2 & f1 & E2 & Tf1 & Rf2 & EF2).
  { rewrite (fcount_nil (V:=V)). lia. }
  rewrite E2. simpl.
  destruct (eff_rep _ _ _ _ _ _ EF2 Rt1) as [Rt2 Ht2].
  { intros m Hm Hm'. apply (Hd1 m Hm Hm'). }
  destruct (splice_all_eff h2 f1 tmp l [] [] [] fuel) as (h3 & f2 & tmp1 & E3 & Tf2 & Ttmp1 & Rf3 & Rt3 & Hd3 & EF3); auto.
  { apply disj_app_fp. exact Ht2. }
  simpl in E3. unfold f_end. simpl. rewrite E3. simpl in *. rewrite app_nil_r in *.
  destruct (destroy_forest_eff h3 tmp1 [] fuel Rt3) as (h4 & E4 & EF4).
  { rewrite (fcount_nil (V:=V)). lia. }
  rewrite E4. simpl.
  destruct (eff_rep _ _ _ _ _ _ EF4 Rf3) as [Rf4 _]. { intros m Hm Hm'. apply (Hd3 m Hm Hm'). }
  exists h4, f2. do 2 (split; [auto|]). split; [congruence|].
  eapply eff_trans; [exact EF1|]. eapply eff_trans.
  { eapply (eff_ext _ _ (fp x1 (@nil (tree V)) ++ fp tmp l) (fp f1 (@nil (tree V)) ++ fp tmp l)).
    - intros m. rewrite !elem_of_app. tauto.
    - reflexivity.
    - apply eff_app_r. exact EF2. }
  eapply eff_trans; [exact EF3|].
  apply (eff_app_r _ _ _ _ (fp f2 l)) in EF4.
  eapply eff_ext; [| |exact EF4]; intros m; rewrite !elem_of_app; simpl; [tauto|].
  rewrite elem_of_nil. tauto.
Qed.

(** *** copy assignment: forest.hpp:802-806 *)
Lemma copy_assign_eff al h f l x k fuel : good_alloc al -> Rep h f l -> Rep h x k -> fdisj f l x k ->
  2 * fcount k + 1 <= fuel -> 2 * fcount l <= fuel ->
  exists h' f' k', copy_assign fuel al h f x = Ok (h', f') /\ Rep h' f' k' /\ Rep h' x k /\
    map strip k' = map strip k /\ f_tail f' = f_tail f /\ fdisj f' k' x k /\
    eff h h' (fp f l) (fp f' k').
Proof.
  intros Hal Rf Rx Hd Hk Hl. unfold copy_assign.
  rewrite bool_decide_eq_true_2.
  2:{ intros E. apply (Hd (f_tail f)); rewrite elem_fp; [auto|]. rewrite E. auto. }
  simpl.
  destruct (copy_forest_eff al h x k fuel Hal Rx) as (h1 & c & k' & E1 & Rc & Es & EF1 & Tc). { lia. }
  rewrite E1. simpl.
  destruct (eff_rep _ _ _ _ _ _ EF1 Rf) as [Rf1 Hf1]. { intros m Hm Hm'. inversion Hm'. }
  destruct (eff_rep _ _ _ _ _ _ EF1 Rx) as [Rx1 Hx1]. { intros m Hm Hm'. inversion Hm'. }
  assert (Ec : fcount k' = fcount k).
  { pose proof (f_equal fvcount Es) as Hx. rewrite !fcount_strip. auto. }
  destruct (move_assign_eff al h1 f l c k' fuel) as (h2 & f1 & c1 & E2 & Rf2 & Rc2 & Tc2 & Tf2 & Hd2 & EF2); auto.
  { rewrite Ec. auto. }
  rewrite E2. simpl.
  destruct (eff_rep _ _ _ _ _ _ EF2 Rx1) as [Rx2 Hx2].
  { intros m Hm. rewrite elem_of_app. intros [Hm'|Hm']; [apply (Hd m Hm' Hm)|apply (Hx1 m Hm Hm')]. }
  destruct (destroy_forest_eff h2 c1 [] fuel Rc2) as (h3 & E3 & EF3).
  { rewrite (fcount_nil (V:=V)). lia. }
  rewrite E3. simpl.
  destruct (eff_rep _ _ _ _ _ _ EF3 Rf2) as [Rf3 _]. { intros m Hm Hm'. apply (Hd2 m Hm Hm'). }
  destruct (eff_rep _ _ _ _ _ _ EF3 Rx2) as [Rx3 _].
  { intros m Hm Hm'. apply (Hx2 m Hm), elem_of_app; auto. }
  exists h3, f1, k'. do 5 (split; [auto|]). split.
  { intros m H1 H2. apply (Hx2 m H2), elem_of_app; auto. }
  eapply eff_trans.
  { eapply (eff_ext _ _ ([] ++ fp f l) (fp c k' ++ fp f l) _ (fp f l ++ fp c k')).
    - reflexivity.
    - intros m. rewrite !elem_of_app. tauto.
    - apply eff_app_r. exact EF1. }
  eapply eff_trans; [exact EF2|].
  apply (eff_app_r _ _ _ _ (fp f1 k')) in EF3.
  eapply eff_ext; [| |exact EF3]; intros m; rewrite !elem_of_app; simpl; [tauto|].
  rewrite elem_of_nil. tauto.
Qed.

(** *** swap: forest.hpp:815 *)
Lemma swap_forest_eff al h f l x k fuel : good_alloc al -> Rep h f l -> Rep h x k -> fdisj f l x k ->
  2 * fcount k + 1 <= fuel -> 2 * fcount l + 1 <= fuel ->
  exists h' f' x', swap_forest fuel al h f x = Ok (h', f', x') /\ Rep h' f' k /\ Rep h' x' l /\
    f_tail f' = f_tail f /\ f_tail x' = f_tail x /\ fdisj f' k x' l /\
    eff h h' (fp f l ++ fp x k) (fp f' k ++ fp x' l).
Proof.
  intros Hal Rf Rx Hd Hk Hl. unfold swap_forest.
  destruct (move_forest_eff al h f l fuel Hal Rf Hl) as (h1 & tmp & f1 & E1 & Rt1 & Rf1 & Tf1 & Tt1 & Hd1 & EF1).
  rewrite E1. simpl.
  destruct (eff_rep _ _ _ _ _ _ EF1 Rx) as [Rx1 Hx1]. { intros m Hm Hm'. apply (Hd m Hm' Hm). }
  destruct (move_assign_eff al h1 f1 [] x k fuel) as (h2 & f2 & x1 & E2 & Rf2 & Rx2 & Tx2 & Tf2 & Hd2 & EF2); auto.
  { intros m H1 H2. apply (Hx1 m H2), elem_of_app; auto. }
  { rewrite (fcount_nil (V:=V)). lia. }
  rewrite E2. simpl.
  destruct (eff_rep _ _ _ _ _ _ EF2 Rt1) as [Rt2 Ht2].
  { intros m Hm. rewrite elem_of_app. intros [Hm'|Hm']; [apply (Hd1 m Hm Hm')|].
    apply (Hx1 m Hm'), elem_of_app; auto. }
  destruct (move_assign_eff al h2 x1 [] tmp l fuel) as (h3 & x2 & tmp1 & E3 & Rx3 & Rt3 & Tt3 & Tx3 & Hd3 & EF3); auto.
  { intros m H1 H2. apply (Ht2 m H2), elem_of_app; auto. }
  { rewrite (fcount_nil (V:=V)). lia. }
  rewrite E3. simpl.
  destruct (eff_rep _ _ _ _ _ _ EF3 Rf2) as [Rf3 Hf3].
  { intros m Hm. rewrite elem_of_app. intros [Hm'|Hm']; [apply (Hd2 m Hm Hm')|].
    apply (Ht2 m Hm'), elem_of_app; auto. }
  destruct (destroy_forest_eff h3 tmp1 [] fuel Rt3) as (h4 & E4 & EF4).
  { rewrite (fcount_nil (V:=V)). lia. }
  rewrite E4. simpl.
  destruct (eff_rep _ _ _ _ _ _ EF4 Rf3) as [Rf4 _].
  { intros m Hm Hm'. apply (Hf3 m Hm), elem_of_app; auto. }
  destruct (eff_rep _ _ _ _ _ _ EF4 Rx3) as [Rx4 _]. { intros m Hm Hm'. apply (Hd3 m Hm Hm'). }
  exists h4, f2, x2. do 3 (split; [auto|]). split; [congruence|]. split; [congruence|]. split.
  { intros m H1 H2. apply (Hf3 m H1), elem_of_app; auto. }
  eapply eff_trans. { apply eff_app_r. exact EF1. }
  eapply eff_trans.
  { apply (eff_app_r _ _ _ _ (fp tmp l)) in EF2.
    eapply eff_ext; [| |exact EF2].
    - intros m. rewrite !elem_of_app. tauto.
    - reflexivity. }
  eapply eff_trans.
  { apply (eff_app_r _ _ _ _ (fp f2 k)) in EF3.
    eapply eff_ext; [| |exact EF3].
    - intros m. rewrite !elem_of_app. tauto.
    - reflexivity. }
  apply (eff_app_r _ _ _ _ (fp f2 k ++ fp x2 l)) in EF4.
  eapply eff_ext; [| |exact EF4]; intros m; rewrite !elem_of_app; simpl; [tauto|].
  rewrite ?elem_of_nil, ?elem_of_app. tauto.
Qed.

End copy2.
