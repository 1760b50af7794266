(** What the properties of waiting inside the pool follow from. *)
From Coq Require Import List Bool Arith Lia.
From stdpp Require Import list.
From Verif.PoolWait Require Import Model Spec View Inv Cover Due Trace.

(** * Along an execution *)
Lemma run_inv m ls : forall tr s s' e, base s -> park s -> tinv tr s -> run m s ls = Some (s', e) -> base s' /\ park s' /\ tinv (tr ++ e) s'.
Proof.
  induction ls as [|l ls IH]; simpl; intros tr s s' e Hb Hp Ht Hr.
  - injection Hr as <- <-. rewrite app_nil_r. auto.
  - destruct (step m s l) as [[s1 e1]|] eqn:Es; [|discriminate]. destruct (run m s1 ls) as [[s2 e2]|] eqn:Er; [|discriminate]. injection Hr as <- <-.
    rewrite app_assoc. eapply IH; [eapply step_base|eapply step_park|eapply step_tinv|]; eauto.
Qed.
Lemma run_cov m ls : forall s s' e, base s -> covered s -> run m s ls = Some (s', e) -> Missed ∉ e -> Full ∉ e -> covered s'.
Proof.
  induction ls as [|l ls IH]; simpl; intros s s' e Hb Hc Hr Hm Hf.
  - injection Hr as <- <-. exact Hc.
  - destruct (step m s l) as [[s1 e1]|] eqn:Es; [|discriminate]. destruct (run m s1 ls) as [[s2 e2]|] eqn:Er; [|discriminate]. injection Hr as <- <-.
    rewrite elem_of_app in Hm, Hf. eapply IH; [eapply step_base; eauto| |exact Er|tauto|tauto]. eapply step_cov; eauto; tauto.
Qed.
Lemma run_init m c ls s tr : 0 < c -> run m (init c) ls = Some (s, tr) -> base s /\ park s /\ tinv tr s.
Proof. intros Hc Hr. apply (run_inv m ls [] (init c) s tr); auto using init_base, init_park, init_tinv. Qed.

(** * At rest *)
Lemma rest_act m s w a : at_rest m s -> get w s = Some a ->
  (exists k, w = C k /\ a = User) \/ exists o, a = Blocked o /\ forall y, o = Some y -> y ∉ fin s.
Proof.
  intros Hr Hg. destruct a as [|t i n|t i|j k|n o|n l o|o|o].
  - destruct w as [k|k]; [|eauto]. exfalso. rewrite get_T in Hg. specialize (Hr (End k) I). simpl in Hr.
    destruct (thr s !! k) as [[| | |t b]|]; try discriminate. injection Hg as ->. discriminate.
  - specialize (Hr (Step w false) I). simpl in Hr. rewrite Hg in Hr. discriminate.
  - specialize (Hr (Step w false) I). simpl in Hr. rewrite Hg in Hr. discriminate.
  - specialize (Hr (Step w false) I). simpl in Hr. rewrite Hg in Hr. discriminate.
  - specialize (Hr (Step w true) I). simpl in Hr. rewrite Hg in Hr. simpl in Hr. destruct (n =? count s); discriminate.
  - specialize (Hr (Step w true) I). simpl in Hr. rewrite Hg in Hr. simpl in Hr. destruct (n =? l); discriminate.
  - specialize (Hr (Step w true) I). simpl in Hr. rewrite Hg in Hr. simpl in Hr. destruct (length (thr s) =? m); discriminate.
  - right. exists o. split; [reflexivity|]. intros y -> Hy. specialize (Hr (Resume w) I). simpl in Hr. rewrite Hg in Hr.
    rewrite bool_decide_eq_true_2 in Hr by exact Hy. discriminate.
Qed.
Lemma eval_some k s : is_Some (eval_wait k 0 s).
Proof.
  unfold eval_wait. destruct (k <? count s) eqn:Ek; [|destruct (flag s !! k) as [[]|]; eauto].
  destruct (nothing k s) eqn:En; [destruct (flag s !! k) as [[]|]; eauto|].
  apply nothing_false in En as (q & Hq & Hne). unfold take_from. simpl. rewrite Hq. destruct q as [|[t b] q]; [congruence|]. eauto.
Qed.
Lemma rest_thr m s k p : at_rest m s -> thr s !! k = Some p -> p = Wait false \/ exists t o, p = Run t (Blocked o) /\ forall y, o = Some y -> y ∉ fin s.
Proof.
  intros Hr Hk. destruct p as [n| |b|t a].
  - specialize (Hr (Poll k true 0) I). simpl in Hr. unfold poll in Hr. rewrite Hk in Hr. discriminate.
  - specialize (Hr (Poll k true 0) I). simpl in Hr. unfold poll in Hr. rewrite Hk in Hr. destruct (eval_some k (set_flag k true s)) as [? Hx]. congruence.
  - destruct b; [|auto]. specialize (Hr (Poll k true 0) I). simpl in Hr. unfold poll in Hr. rewrite Hk in Hr. destruct (eval_some k s) as [? Hx]. congruence.
  - right. assert (Hg : get (T k) s = Some a) by (rewrite get_T, Hk; reflexivity). destruct (rest_act m s _ _ Hr Hg) as [(k' & ? & _)|(o & -> & Ho)]; [discriminate|]. eauto.
Qed.
Lemma rest_notify m s w j kk : at_rest m s -> get w s = Some (Notify j kk) -> False.
Proof. intros Hr Hg. destruct (rest_act m s w _ Hr Hg) as [(k & _ & ?)|(o & ? & _)]; discriminate. Qed.
Lemma rest_cov m s j : base s -> park s -> at_rest m s -> cov s j -> False.
Proof.
  intros Hb Hp Hr [(w & a & H1 & H2)|[(k & n & d & H1 & _)|(k & b & H1 & H2)]].
  - destruct (rest_act m s w a Hr H1) as [(k & -> & ->)|(o & -> & _)]; discriminate.
  - destruct (rest_thr m s k _ Hr H1) as [?|(t & o & ? & _)]; discriminate.
  - destruct (rest_thr m s k _ Hr H1) as [[= ->]|(t & o & ? & _)]; [|discriminate].
    destruct (Hp k H1 (or_intror H2)) as (w & kk & Hg). eapply rest_notify; eauto.
Qed.
Lemma taken m c ls s tr : 0 < c -> run m (init c) ls = Some (s, tr) -> Missed ∉ tr -> Full ∉ tr -> at_rest m s ->
  forall t, aged tr t -> Started t ∈ tr.
Proof.
  intros Hc Hr Hm Hf Hrest t Ha. destruct (run_init _ _ _ _ _ Hc Hr) as (Hb & Hp & Ht).
  pose proof (run_cov m ls _ _ _ (init_base c Hc) (init_cov c) Hr Hm Hf) as Hcov.
  destruct (i_aged _ _ Ht t Ha) as [|(j & q & Hq & Hin)]; [assumption|]. exfalso. eapply (rest_cov m s j); eauto. apply Hcov. exists q, t. auto.
Qed.
(** fork and join: nothing is left *)
Lemma no_blocked m c ls s tr : 0 < c -> run m (init c) ls = Some (s, tr) -> Missed ∉ tr -> Full ∉ tr -> structured tr -> at_rest m s ->
  forall d x, next s - x <= d -> running s x -> False.
Proof.
  intros Hc Hr Hm Hf Hstr Hrest. destruct (run_init _ _ _ _ _ Hc Hr) as (Hb & Hp & Ht).
  induction d as [|d IH]; intros x Hd (k & a & Hk).
  - assert (Hx : actor s (Some x) a) by (exists (T k); split; [rewrite get_T, Hk|simpl; rewrite Hk]; reflexivity).
    destruct (i_act _ _ Ht _ _ Hx) as (H1 & _). specialize (H1 x eq_refl). lia.
  - destruct (rest_thr m s k _ Hrest Hk) as [?|(x' & o & [= <- ->] & Ho)]; [discriminate|].
    assert (Hx : actor s (Some x) (Blocked o)) by (exists (T k); split; [rewrite get_T, Hk|simpl; rewrite Hk]; reflexivity).
    destruct (i_act _ _ Ht _ _ Hx) as (H1 & _ & H3). specialize (H1 x eq_refl). specialize (H3 o eq_refl).
    apply elem_of_list_split in H3 as (tr1 & tr2 & He). destruct (Hstr _ _ _ _ He) as (y & -> & Hy).
    assert (Hst : Started y ∈ tr). { eapply taken; eauto. exists tr1, (Some x), (Some y), tr2, (Some x). auto. }
    assert (Hpy : Pushed (Some x) y ∈ tr) by (rewrite He; apply elem_of_app; auto).
    destruct (i_run _ _ Ht y Hst) as [He'|Hry]; [exact (Ho y eq_refl (i_fin _ _ Ht y He'))|].
    pose proof (i_kid _ _ Ht x y Hpy). pose proof (i_old _ _ Ht _ y Hpy). apply (IH y); [lia|exact Hry].
Qed.
Lemma joined m c ls s tr : 0 < c -> run m (init c) ls = Some (s, tr) -> Missed ∉ tr -> Full ∉ tr -> structured tr -> at_rest m s ->
  forall x t, Pushed x t ∈ tr -> Ended t ∈ tr.
Proof.
  intros Hc Hr Hm Hf Hstr Hrest x t Hx. destruct (run_init _ _ _ _ _ Hc Hr) as (Hb & Hp & Ht).
  assert (Hno : forall y, running s y -> False) by (intros y; eapply no_blocked; eauto).
  assert (Hs : Started t ∈ tr).
  { destruct (i_queued _ _ Ht x t Hx) as [|(j & q & b & Hq & Hin)]; [assumption|]. exfalso. apply lookup_lt_Some in Hq as Hj.
    pose proof (b_cnt _ Hb) as Hcn. unfold count in Hcn. assert (Hlt : j < length (thr s)) by lia. apply lookup_lt_is_Some in Hlt as [p Hpj].
    destruct (rest_thr m s j p Hrest Hpj) as [->|(y & o & -> & _)]; [|apply (Hno y); exists j, (Blocked o); exact Hpj].
    destruct (Hp j Hpj) as (w & kk & Hg); [|eapply rest_notify; eauto]. left. split; [exact Hj|]. apply nothing_false. exists q. split; [exact Hq|].
    intros ->. apply elem_of_nil in Hin. exact Hin. }
  destruct (i_run _ _ Ht t Hs) as [|Hrt]; [assumption|]. destruct (Hno t Hrt).
Qed.

(** * Deciding these for given states and traces *)
Global Instance event_dec : EqDecision event.
Proof. solve_decision. Defined.
Definition restp (s : st) (p : pos) : bool :=
  match p with
  | Wait false => true
  | Run _ (Blocked o) => match o with None => true | Some y => bool_decide (y ∉ fin s) end
  | _ => false
  end.
Definition resta (s : st) (a : act) : bool :=
  match a with
  | User => true
  | Blocked o => match o with None => true | Some y => bool_decide (y ∉ fin s) end
  | _ => false
  end.
Definition restb (s : st) : bool := forallb (restp s) (thr s) && forallb (resta s) (cl s).
Lemma restb_ok m s : restb s = true -> at_rest m s.
Proof.
  intros H. apply andb_true_iff in H as [H1 H2]. rewrite forallb_forall in H1, H2.
  assert (HT : forall k p, thr s !! k = Some p -> restp s p = true) by (intros k p Hk; apply H1, elem_of_list_In, elem_of_list_lookup; eauto).
  assert (HC : forall k a, cl s !! k = Some a -> resta s a = true) by (intros k a Hk; apply H2, elem_of_list_In, elem_of_list_lookup; eauto).
  assert (HG : forall w a, get w s = Some a -> a = User \/ exists o, a = Blocked o /\ forall y, o = Some y -> y ∉ fin s).
  { intros [k|k] a Hg.
    - rewrite get_T in Hg. destruct (thr s !! k) as [[| | |t b]|] eqn:E; try discriminate. injection Hg as ->. specialize (HT k _ E). simpl in HT.
      destruct a as [| | | | | | |[y|]]; try discriminate; right; eexists; (split; [reflexivity|]); [|discriminate]. intros y' [= <-]. apply bool_decide_eq_true in HT. exact HT.
    - unfold get in Hg. specialize (HC k _ Hg). destruct a as [| | | | | | |[y|]]; try discriminate; [auto| |]; right; eexists; (split; [reflexivity|]); [|discriminate].
      intros y' [= <-]. apply bool_decide_eq_true in HC. exact HC. }
  intros l Hl. destruct l as [|w|w o|w|w f|k f c|k|w|k]; simpl in Hl; try contradiction; simpl.
  - destruct (get w s) as [a|] eqn:E; [|reflexivity]. destruct (HG w a E) as [->|(o & -> & _)]; reflexivity.
  - unfold poll. destruct (thr s !! k) as [p|] eqn:E; [|reflexivity]. specialize (HT k p E). destruct p as [| |[]|]; try discriminate HT; reflexivity.
  - destruct (thr s !! k) as [p|] eqn:E; [|reflexivity]. specialize (HT k p E). destruct p as [| | |t []]; try discriminate HT; reflexivity.
  - destruct (get w s) as [a|] eqn:E; [|reflexivity]. destruct (HG w a E) as [->|(o & -> & Ho)]; [reflexivity|]. destruct o as [y|]; [|reflexivity].
    rewrite bool_decide_eq_false_2; [reflexivity|]. apply Ho. reflexivity.
Qed.
Fixpoint structb (pre tr : list event) : bool :=
  match tr with
  | [] => true
  | ev :: tr' => match ev with
                 | Awaits (Some x) o => match o with Some y => bool_decide (Pushed (Some x) y ∈ pre) | None => false end
                 | _ => true
                 end && structb (pre ++ [ev]) tr'
  end.
Lemma structb_ok tr : structb [] tr = true -> structured tr.
Proof.
  assert (H : forall tr pre, structb pre tr = true -> forall tr1 x o tr2, tr = tr1 ++ Awaits (Some x) o :: tr2 -> exists y, o = Some y /\ Pushed (Some x) y ∈ pre ++ tr1).
  { induction tr0 as [|ev tr0 IH]; intros pre Hs tr1 x o tr2 He; [destruct tr1; discriminate|]. simpl in Hs. apply andb_true_iff in Hs as [Hs1 Hs2].
    destruct tr1 as [|ev1 tr1]; injection He as -> He.
    - destruct o as [y|]; [|discriminate]. apply bool_decide_eq_true in Hs1. rewrite app_nil_r. eauto.
    - destruct (IH _ Hs2 _ _ _ _ He) as (y & -> & Hy). rewrite <- app_assoc in Hy. eauto. }
  intros Hs tr1 x o tr2 He. exact (H tr [] Hs tr1 x o tr2 He).
Qed.
