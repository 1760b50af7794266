(** The theorems about futures. *)
From Coq Require Import List Bool Lia ZArith.
From stdpp Require Import list relations.
From Verif.Lib Require Import Perm.
From Verif.Future Require Import Model Spec Step Lin LinInv Loc LocInv Hist Count Trace Moved Order Detach Quiet.

Lemma cnt_once f x tr : cnt x (tr ≫= f) <= 1 -> at_most_once (fun v => x ∈ f v) tr.
Proof.
  intros H t1 v t2 w t3 -> Hv Hw. rewrite bind_app, bind_cons, bind_app, bind_cons, !cnt_app in H. apply cnt_in in Hv, Hw. lia.
Qed.
Lemma once_weak (P Q : event -> Prop) tr : (forall v, P v -> Q v) -> at_most_once Q tr -> at_most_once P tr.
Proof. intros H A t1 v t2 w t3 E Hv Hw. eapply A; eauto. Qed.
Lemma in_split v (tr : list event) : v ∈ tr -> exists t1 t2, tr = t1 ++ v :: t2.
Proof. apply elem_of_list_split. Qed.

(** ** C30 *)
Lemma resolved_once ls s tr c : run init ls = Some (s, tr) -> at_most_once (fun v => exists o, v = Resolved c o) tr.
Proof.
  intros R%run_reach. eapply once_weak; [|apply (cnt_once e_res c), (hr_once _ _ (reach_hres _ _ R))]. intros v (o & ->). by left.
Qed.
Lemma resolved_uniq tr s c o o' : reach tr s -> Resolved c o ∈ tr -> Resolved c o' ∈ tr -> o = o'.
Proof.
  intros R H H'. pose proof (once_eq _ _ _ _ _ (hr_once _ _ (reach_hres _ _ R) c) H H' ltac:(by left) ltac:(by left)). congruence.
Qed.
Lemma observe ls s tr c : run init ls = Some (s, tr) ->
  always (fun t1 v => forall r, v = Got c r -> match r with Some o => Resolved c o ∈ t1 | None => forall o, Resolved c o ∉ t1 end) tr.
Proof. intros R%run_reach t1 v t2 E r ->. by eapply got_prefix. Qed.
Lemma stable ls s tr c o : run init ls = Some (s, tr) -> forall t1 t2 r, tr = t1 ++ Got c (Some o) :: t2 -> Got c r ∈ t2 -> r = Some o.
Proof.
  intros R%run_reach t1 t2 r E H. pose proof (got_prefix _ _ R _ _ _ _ E) as H1. simpl in H1. apply in_split in H as (a & b & ->).
  assert (tr = (t1 ++ Got c (Some o) :: a) ++ Got c r :: b) as E2 by (rewrite E, <- app_assoc; done).
  pose proof (got_prefix _ _ R _ _ _ _ E2) as H2. destruct r as [o'|].
  - f_equal. eapply resolved_uniq; [exact R| |]; rewrite E2; apply in_l; [done|by apply in_l].
  - destruct (H2 o). by apply in_l.
Qed.
Lemma ub_null s l s' e : no_ub s -> tstep s l s' e -> Ub ∈ e -> exists i, l = L i ANull.
Proof.
  intros U T HE. revert HE. tcases T; intros HE; evn HE; try discriminate HE; eauto.
  all: destruct (U r a); [by eapply elem_of_list_lookup_2|exact Hu].
Qed.
Lemma no_ub_run ls s tr : run init ls = Some (s, tr) -> (forall i, L i ANull ∉ ls) -> Ub ∉ tr.
Proof.
  assert (forall tr0 s0 e, reach tr0 s0 -> run s0 ls = Some (s, e) -> (forall i, L i ANull ∉ ls) -> Ub ∉ e) as H.
  { induction ls as [|l ls IH]; intros tr0 s0 e R0 R N; simpl in R; [simplify_eq; apply not_elem_of_nil|].
    destruct (step s0 l) as [[s1 e1]|] eqn:E; [|done]. destruct (run s1 ls) as [[s2 e2]|] eqn:E2; [|done]. simplify_eq.
    apply step_t in E. intros [H|H]%elem_of_app.
    - destruct (reach_u _ _ R0) as [U F]. destruct (ub_null _ _ _ _ U E H) as (i & ->). eapply N. by left.
    - eapply IH; [by econstructor|done| |done]. intros i Hi. eapply N. right. exact Hi. }
  intros R. eapply H; [apply reach_init|done].
Qed.
Lemma not_moved ls s tr c : run init ls = Some (s, tr) -> GotMoved c ∉ tr.
Proof. intros R%run_reach. by eapply no_got_moved. Qed.

(** ** C31 *)
Lemma handed_once' ls s tr d : run init ls = Some (s, tr) -> at_most_once (fun v => v = Handed d) tr.
Proof. intros R%run_reach. eapply once_weak; [|by apply (cnt_once e_handed d), (handed_once _ s)]. intros v ->. by left. Qed.
Lemma handed_after ls s tr : run init ls = Some (s, tr) ->
  always (fun t1 v => forall d, v = Handed d -> exists a o, follows t1 d a /\ Resolved a o ∈ t1) tr.
Proof.
  intros R%run_reach t1 v t2 E d ->. destruct (handed_prefix _ _ R _ _ _ E) as (k & a & o & ? & ? & ?). exists a, o. split; [by exists k|done].
Qed.
Lemma handed_fate ls s tr d a o : run init ls = Some (s, tr) -> follows tr d a -> Resolved a o ∈ tr ->
  (forall h l, Hand h l ∈ rs s -> KTask d ∉ l) -> Handed d ∈ tr \/ Freed d ∈ tr.
Proof.
  intros R%run_reach (k & Hn & Ha) Ho HN. destruct (cont_fate _ _ R _ _ _ Hn Ha) as [?|[W|?]]; [auto| |auto]. exfalso.
  destruct W as [(b & x & Hx & Hk)|(h & l & Hh & Hk)]; [|by eapply HN].
  destruct (hk_then _ _ (reach_hk _ _ R) _ _ _ Hx Hk) as (k' & Hn' & Ha').
  rewrite (hf_uniq _ _ (reach_hfn _ _ R) _ _ _ Hn Hn') in Ha. simplify_eq. destruct (reach_inv _ _ R) as [I V].
  pose proof (hr_out _ _ (reach_hres _ _ R) _ _ _ Ho Hx). rewrite (v_then _ V _ _ Hx) in H; [done|]. intros E. rewrite E in Hk. by apply elem_of_nil in Hk.
Qed.
Lemma handed_order' ls s tr a : run init ls = Some (s, tr) -> handed_of a tr `prefix_of` early a tr.
Proof. intros R%run_reach. by eapply handed_order. Qed.
Lemma handed_all' ls s tr a o : run init ls = Some (s, tr) -> Resolved a o ∈ tr -> (forall l, Hand (Some a) l ∉ rs s) -> handed_of a tr = early a tr.
Proof. intros R%run_reach. by eapply handed_all. Qed.

(** ** C32 *)
Lemma called_with ls s tr : run init ls = Some (s, tr) ->
  always (fun t1 v => forall c arg, v = Called c arg -> exists k, New c k ∈ t1 /\
    match k with
    | User => arg = None
    | Then a => exists w, arg = Some (Val w) /\ Resolved a (Val w) ∈ t1
    | Recover a => exists o, arg = Some o /\ Resolved a o ∈ t1
    | Forward _ _ => False
    end) tr.
Proof. intros R%run_reach t1 v t2 E c arg ->. by eapply called_prefix. Qed.
Lemma called_ok_in tr s c arg : reach tr s -> Called c arg ∈ tr -> called_ok tr c arg.
Proof.
  intros R (t1 & t2 & ->)%in_split. destruct (called_prefix _ _ R _ _ _ _ eq_refl) as (k & Hn & Hk). exists k. split; [by apply in_l|].
  eapply arg_ok_mono; [|exact Hk]. intros. by apply in_l.
Qed.
Lemma then_cause tr s c a o : reach tr s -> New c (Then a) ∈ tr -> Resolved c o ∈ tr ->
  (Abandoned c ∈ tr /\ o = Exc Broken) \/ (exists e, Resolved a (Exc e) ∈ tr /\ o = Exc e) \/ exists v, Resolved a (Val v) ∈ tr.
Proof.
  intros R Hn Ho. pose proof (fun k => hf_uniq _ _ (reach_hfn _ _ R) _ _ k Hn) as HU.
  destruct (reach_cause _ _ R _ _ Ho) as [(a' & e & _ & -> & Hn' & Ha)|[(Ha & [->|[Hn' _]])|[(r & arg & _ & Hc & _)|(t & q & _ & Hn')]]].
  - apply HU in Hn'. simplify_eq. eauto.
  - auto.
  - by apply HU in Hn'.
  - destruct (called_ok_in _ _ _ _ R Hc) as (k & Hn' & Hk). apply HU in Hn'. subst k. destruct Hk as (v & _ & ?). eauto.
  - by apply HU in Hn'.
Qed.
Lemma propagate ls s tr c a e : run init ls = Some (s, tr) -> New c (Then a) ∈ tr -> Resolved a (Exc e) ∈ tr ->
  (forall arg, Called c arg ∉ tr) /\ forall o, Resolved c o ∈ tr -> o = Exc e \/ Abandoned c ∈ tr /\ o = Exc Broken.
Proof.
  intros R%run_reach Hn Ha. split.
  - intros arg Hc. destruct (called_ok_in _ _ _ _ R Hc) as (k & Hn' & Hk). rewrite <- (hf_uniq _ _ (reach_hfn _ _ R) _ _ _ Hn Hn') in Hk.
    destruct Hk as (v & _ & Hv). pose proof (resolved_uniq _ _ _ _ _ R Ha Hv). done.
  - intros o Ho. destruct (then_cause _ _ _ _ _ R Hn Ho) as [?|[(e' & He & ->)|(v & Hv)]]; [auto| |].
    + rewrite (resolved_uniq _ _ _ _ _ R Ha He). auto.
    + pose proof (resolved_uniq _ _ _ _ _ R Ha Hv). done.
Qed.
Lemma propagate_chain ls s tr a c e : run init ls = Some (s, tr) -> (forall d, Abandoned d ∉ tr) -> Resolved a (Exc e) ∈ tr -> then_chain tr a c ->
  (forall arg, Called c arg ∉ tr) /\ forall o, Resolved c o ∈ tr -> o = Exc e.
Proof.
  intros R N Ha C. induction C as [c Hn|b c C IH Hn].
  - destruct (propagate _ _ _ _ _ _ R Hn Ha) as [H1 H2]. split; [done|]. intros o Ho. destruct (H2 _ Ho) as [?|[HA _]]; [done|by apply N in HA].
  - destruct IH as [_ IH]. pose proof (run_reach _ _ _ R) as R'.
    assert (forall e', Resolved b (Exc e') ∈ tr -> e' = e) as Hb by (intros e' He; apply IH in He; congruence).
    split.
    + intros arg Hc. destruct (called_ok_in _ _ _ _ R' Hc) as (k & Hn' & Hk). rewrite <- (hf_uniq _ _ (reach_hfn _ _ R') _ _ _ Hn Hn') in Hk.
      destruct Hk as (v & _ & Hv). by apply IH in Hv.
    + intros o Ho. destruct (then_cause _ _ _ _ _ R' Hn Ho) as [[HA _]|[(e' & He & ->)|(v & Hv)]]; [by apply N in HA| |].
      * f_equal. by apply Hb.
      * by apply IH in Hv.
Qed.
Lemma returned_res tr s : reach tr s -> forall c r, Returned c r ∈ tr -> match r with RVal v => Resolved c (Val v) ∈ tr | RExc e => Resolved c (Exc (Err e)) ∈ tr | RFut _ => True end.
Proof.
  induction 1 as [|tr s l s' e R IH T]; intros c r H; [by apply elem_of_nil in H|]. destruct (reach_u _ _ R) as [U F].
  apply elem_of_app in H as [H|H]; [apply IH in H; destruct r; auto using in_l|].
  destruct (ev_returned_step _ _ _ _ _ _ U F T H) as [_ HR]. destruct r; auto using in_r.
Qed.
Lemma result ls s tr c r : run init ls = Some (s, tr) -> Returned c r ∈ tr ->
  match r with RVal v => Resolved c (Val v) ∈ tr | RExc e => Resolved c (Exc (Err e)) ∈ tr | RFut q => forall o, Resolved c o ∈ tr -> Resolved q o ∈ tr end.
Proof.
  intros R%run_reach H. pose proof (returned_res _ _ R _ _ H) as HR. destruct r as [v|x|q]; [done..|]. intros o Ho.
  pose proof (ret_once _ _ c R) as HO.
  destruct (reach_cause _ _ R _ _ Ho) as [(? & ? & Hs & _)|[(Ha & _)|[(r & arg & Hr & _ & Hx)|(? & ? & Hs & _)]]].
  - by pose proof (once_eq _ _ _ _ _ HO H Hs ltac:(by left) ltac:(by left)).
  - by pose proof (once_eq _ _ _ _ _ HO H Ha ltac:(by left) ltac:(by left)).
  - pose proof (once_eq _ _ _ _ _ HO H Hr ltac:(by left) ltac:(by left)). by simplify_eq.
  - by pose proof (once_eq _ _ _ _ _ HO H Hs ltac:(by left) ltac:(by left)).
Qed.
(** every resolution has one of five reasons *)
Lemma origin ls s tr c o : run init ls = Some (s, tr) -> Resolved c o ∈ tr ->
  (exists v, o = Val v /\ Returned c (RVal v) ∈ tr) \/ (exists e, o = Exc (Err e) /\ Returned c (RExc e) ∈ tr) \/
  (exists q, Returned c (RFut q) ∈ tr /\ Resolved q o ∈ tr) \/
  (exists a e, New c (Then a) ∈ tr /\ o = Exc e /\ Resolved a (Exc e) ∈ tr) \/
  (Abandoned c ∈ tr /\ (o = Exc Broken \/ New c User ∈ tr /\ exists n, o = Exc (Err n))) \/
  exists t q, New c (Forward t q) ∈ tr.
Proof.
  intros R%run_reach Ho.
  destruct (reach_cause _ _ R _ _ Ho) as [(? & ? & Hs & -> & ? & ?)|[(Ha & ?)|[(r & arg & Hr & _ & Hx)|(? & ? & Hs & ?)]]].
  - do 3 right. left. eauto.
  - do 4 right. left. eauto.
  - destruct r; subst; eauto 10.
  - do 5 right. eauto.
Qed.
Lemma once_called ls s tr c : run init ls = Some (s, tr) -> at_most_once (fun v => exists a, v = Called c a) tr /\
  at_most_once (fun v => exists r, v = Returned c r) tr.
Proof.
  intros R%run_reach. split.
  - eapply once_weak; [|apply (cnt_once e_done c)]; [|by eapply done_once]. intros v (a & ->). by left.
  - eapply once_weak; [|apply (cnt_once e_ret c)]; [|by eapply ret_once]. intros v (a & ->). by left.
Qed.

(** ** C33 *)
Lemma drop_breaks ls s tr i c x : run init ls = Some (s, tr) -> rs s !! i = Some (Tok c) \/ rs s !! i = Some (Job c) ->
  get_cell s c = Some x -> (forall t q l, fn x <> Some (Forward t q, l)) ->
  exists s', step s (L i ADrop) = Some (s', [Abandoned c; Resolved c (Exc Broken)]).
Proof.
  intros R%run_reach Hi Hx Hf. destruct (reach_inv _ _ R) as [I V].
  assert (out x = None) as Ho.
  { destruct (out x) as [o|] eqn:Ho; [|done]. exfalso. destruct Hi as [Hi|Hi]; apply elem_of_list_lookup_2 in Hi; eapply (M3_frame _ _ _ c _ _ I Hi); eauto; by left; left. }
  assert (forall s0, get_cell s0 c = Some x -> exists s', abandon c Broken s0 = Some (s', [Abandoned c; Resolved c (Exc Broken)])) as HA.
  { intros s0 H0. unfold abandon, resolve. rewrite H0. rewrite (get_put_eq _ _ _ _ H0). simpl. rewrite Ho. eauto. }
  destruct Hi as [Hi|Hi]; simpl; rewrite Hi; simpl; [by apply HA|].
  rewrite Hx. destruct x as [? ? ? [[[| | |t q] l0]|] ? ?]; try by apply HA. by destruct (Hf t q l0).
Qed.
Lemma quiet_ready ls s tr : run init ls = Some (s, tr) -> only_futures s -> none_lost tr -> no_cycle tr ->
  forall c, Fut c ∈ rs s -> exists o, Resolved c o ∈ tr.
Proof.
  intros R%run_reach Q L A c Hc. destruct (reach_inv _ _ R) as [I V]. destruct (ref_alive _ _ c (i_ref _ _ I) Hc ltac:(by left)) as (x & Hx).
  destruct (quiet_resolved _ _ R Q L A _ _ Hx) as (o & Ho). exists o. by eapply (hr_ev _ _ (reach_hres _ _ R)).
Qed.
Lemma run_app l1 : forall s s1 e1 l2, run s l1 = Some (s1, e1) -> run s (l1 ++ l2) = match run s1 l2 with Some (s2, e2) => Some (s2, e1 ++ e2) | None => None end.
Proof.
  induction l1 as [|l l1 IH]; intros s s1 e1 l2 H; simpl in *; [simplify_eq; by destruct (run s1 l2) as [[]|]|].
  destruct (step s l) as [[s0 e0]|]; [|done]. destruct (run s0 l1) as [[s3 e3]|] eqn:E; [|done]. simplify_eq.
  rewrite (IH _ _ _ _ E). destruct (run s1 l2) as [[]|]; [|done]. by rewrite app_assoc.
Qed.
Lemma lost_for_ever ls s tr c ls' s' tr' o : run init ls = Some (s, tr) -> Lost c ∈ tr -> run s ls' = Some (s', tr') -> Resolved c o ∉ tr ++ tr'.
Proof.
  intros R L R'. assert (run init (ls ++ ls') = Some (s', tr ++ tr')) as R2 by (rewrite (run_app _ _ _ _ _ R), R'; done).
  apply run_reach in R2. eapply lost_never; [exact R2|by apply in_l].
Qed.

(** ** C34 *)
Lemma freed_end ls s tr : run init ls = Some (s, tr) ->
  always (fun t1 v => forall c, (exists a, v = Called c a) \/ (exists o, v = Resolved c o) \/ (exists r, v = Got c r) \/ v = Freed c -> Freed c ∉ t1) tr.
Proof.
  intros R%run_reach t1 v t2 E c H. eapply (live_prefix _ _ R _ _ _ _ E).
  destruct H as [(? & ->)|[(? & ->)|[(? & ->)| ->]]]; by left.
Qed.
Lemma cancelled_freed ls s tr : run init ls = Some (s, tr) -> always (fun t1 v => forall c, v = Cancelled c -> Freed c ∈ t1) tr.
Proof. intros R%run_reach t1 v t2 E c ->. by eapply cancelled_prefix. Qed.
Lemma detached_kept ls s tr c : run init ls = Some (s, tr) -> Detached c ∈ tr \/ (exists k, DetachedF k c ∈ tr) -> (forall o, Resolved c o ∉ tr) ->
  alive s c /\ Freed c ∉ tr.
Proof.
  intros R%run_reach H N. assert (alive s c) as (x & Hx).
  { destruct H as [H|(k & H)].
    - destruct (det_alive _ _ R _ H N) as (x & ? & _). by exists x.
    - destruct (reach_inv _ _ R) as [I V]. assert (isres s c -> False) as HI.
      { intros (o & y & Hy & Ho). eapply N. by eapply (hr_ev _ _ (reach_hres _ _ R)). }
      destruct (hd_pend _ _ (reach_hdet _ _ R) _ _ H) as [[(a & y & Hy & Hk)|(o & l & Hh & Hk)]|[D|(o & D)]].
      + pose proof (v_self _ V _ _ _ Hy Hk) as E. simpl in E. subst a. by exists y.
      + destruct HI. by eapply (v_hand _ V).
      + destruct HI. by eapply (v_det _ V).
      + apply in_split in D as (t1 & t2 & ->). destruct (detcalled_prefix _ _ R _ _ _ _ eq_refl) as (c' & Hc & Ho).
        rewrite (hd_uniq _ _ (reach_hdet _ _ R) _ _ _ H (in_l _ _ _ Hc)) in N. destruct (N o). by apply in_l. }
  split; [by exists x|]. intros HF. destruct (hd_dead _ _ (reach_hfree _ _ R) _ HF). congruence.
Qed.
Lemma detached_called ls s tr : run init ls = Some (s, tr) ->
  always (fun t1 v => forall k o, v = DetCalled k o -> exists c, DetachedF k c ∈ t1 /\ Resolved c o ∈ t1) tr /\
  forall k, at_most_once (fun v => exists o, v = DetCalled k o) tr.
Proof.
  intros R%run_reach. split; [intros t1 v t2 E k o ->; by eapply detcalled_prefix|]. intros k.
  eapply once_weak; [|apply (cnt_once e_det k)]; [|by eapply det_once]. intros v (o & ->). by left.
Qed.
Lemma detached_will ls s tr k c : run init ls = Some (s, tr) -> only_futures s -> none_lost tr -> no_cycle tr -> DetachedF k c ∈ tr ->
  exists o, DetCalled k o ∈ tr.
Proof.
  intros R%run_reach Q L A H. destruct (reach_inv _ _ R) as [I V].
  destruct (hd_pend _ _ (reach_hdet _ _ R) _ _ H) as [[(a & y & Hy & Hk)|(o & l & Hh & Hk)]|[D|D]]; [| | |done].
  - destruct (quiet_resolved _ _ R Q L A _ _ Hy) as (o & Ho). rewrite (v_then _ V _ _ Hy) in Ho; [done|]. intros E. rewrite E in Hk. by apply elem_of_nil in Hk.
  - by destruct (Q _ Hh).
  - by destruct (Q _ D).
Qed.

(** ** C35 *)
Lemma flat_before tr s : reach tr s -> forall t1 c o t2 q, tr = t1 ++ Resolved c o :: t2 -> Returned c (RFut q) ∈ tr -> Resolved q o ∈ t1.
Proof.
  induction 1 as [|tr s l s' e R IH T]; intros t1 c o t2 q E HR; [by destruct t1|].
  pose proof (reach_step _ _ _ _ _ R T) as R'. destruct (reach_u _ _ R) as [U F]. destruct (reach_inv _ _ R) as [I V].
  pose proof (ret_once _ _ c R') as HO. rewrite E in HR. rewrite E in HO. 
  apply split_app in E as E'. destruct E' as [(t & ->)|(t & -> & Et)].
  - assert (t2 = t ++ e) as -> by (rewrite <- app_assoc in E; by simplify_list_eq).
    apply elem_of_app in HR as [HR|[HR|[HR|HR]%elem_of_app]%elem_of_cons]; [|done| |].
    + eapply IH; [done|]. by apply in_l.
    + eapply IH; [done|]. by apply in_r; right.
    + exfalso. destruct (ev_returned_step _ _ _ _ _ _ U F T HR) as [Hb _]. destruct (frame_alive _ _ _ (i_ref _ _ I) Hb) as (x & Hx).
      pose proof (hr_out _ _ (reach_hres _ _ R) c o x) as Hout. eapply (M3_frame _ _ _ c x o I Hb); [by right; left|done|]. apply Hout; [|done]. apply in_r. by left.
  - assert (Resolved c o ∈ e) as Ho by (rewrite Et; apply in_r; by left).
    assert (forall v, v ∈ e -> c ∈ e_ret v -> v = Returned c (RFut q)) as HX.
    { intros v Hv Hc. rewrite <- E in HO, HR. eapply (once_eq _ _ _ _ _ HO); [by apply in_r|done|done|by left]. }
    apply in_l. destruct (ev_cause_step _ _ _ _ _ _ U F V T Ho) as [(x & a & l0 & ex & Hs & _)|[(x & f & Ha & _)|[(Hb & v & -> & Hr)|[(Hb & v & -> & Hr)|[(h & x & q' & l0 & Hx & Hf & Hq)|(Hb & ->)]]]]].
    + apply HX in Hs; [done|by left].
    + apply HX in Ha; [done|by left].
    + apply HX in Hr; [done|by left].
    + apply HX in Hr; [done|by left].
    + destruct (hf_fwd _ _ (reach_hfn _ _ R) _ _ _ _ _ Hx Hf) as (Hr & _). rewrite <- E in HO, HR.
      pose proof (once_eq _ _ _ _ _ HO (in_l _ _ _ Hr) HR ltac:(by left) ltac:(by left)). simplify_eq. by eapply resolved_ev.
    + destruct (hf_ret _ _ (reach_hfn _ _ R) _ Hb) as (Hs & _). rewrite <- E in HO, HR.
      by pose proof (once_eq _ _ _ _ _ HO (in_l _ _ _ Hs) HR ltac:(by left) ltac:(by left)).
Qed.
Lemma flat ls s tr c q : run init ls = Some (s, tr) -> Returned c (RFut q) ∈ tr ->
  always (fun t1 v => forall o, v = Resolved c o -> Resolved q o ∈ t1) tr.
Proof. intros R%run_reach H t1 v t2 E o ->. by eapply flat_before. Qed.
Lemma flat_live ls s tr c q o : run init ls = Some (s, tr) -> only_futures s -> none_lost tr -> no_cycle tr -> Returned c (RFut q) ∈ tr ->
  Resolved q o ∈ tr -> Resolved c o ∈ tr \/ Freed c ∈ tr.
Proof.
  intros R Q L A H Hq. pose proof (run_reach _ _ _ R) as R'. assert (exists a, Called c a ∈ tr) as (a & Hc).
  { clear R A Q L Hq. induction R' as [|tr s0 l s' e R IH T]; [by apply elem_of_nil in H|]. destruct (reach_u _ _ R) as [U F].
    apply elem_of_app in H as [H|H]; [destruct (IH H) as (a & ?); exists a; by apply in_l|].
    destruct (ev_returned_step _ _ _ _ _ _ U F T H) as [Hb _]. destruct (hf_body _ _ (reach_hfn _ _ R) _ Hb) as (a & ?). exists a. by apply in_l. }
  destruct (called_ok_in _ _ _ _ R' Hc) as (k & Hn & _). pose proof (hf_len _ _ (reach_hfn _ _ R') _ _ Hn) as Hl.
  destruct (get_cell s c) as [x|] eqn:Hx; [|right; by apply (hd_ev _ _ (reach_hfree _ _ R'))]. left.
  destruct (quiet_resolved _ _ R' Q L A _ _ Hx) as (o' & Ho). pose proof (hr_ev _ _ (reach_hres _ _ R') _ _ _ Hx Ho) as Ho'.
  pose proof (result _ _ _ _ _ R H _ Ho') as Hq'. by rewrite (resolved_uniq _ _ _ _ _ R' Hq Hq').
Qed.

(** ** C36 *)
Lemma keeps_referred tr s c : reach tr s -> keeps s c <-> referred s c.
Proof.
  intros R. destruct (reach_inv _ _ R) as [I V]. split.
  - intros [H|p H|l H|H|k H|o l k H Hk Hc|x k H Hk Hc|d y f H Hf Hc|d y H Hh].
    1-5: left; eexists; split; [exact H|]; simpl; try (by left); destruct p; by left.
    + left. eexists. split; [exact H|]. simpl. apply elem_of_app. right. apply elem_of_list_bind. exists k. split; [|done].
      destruct Hc as [->|(n & ->)]; by left.
    + right. eexists _, _. split; [exact H|]. unfold c_strong. rewrite !elem_of_app. right. right. apply elem_of_list_bind. exists k. split; [|done].
      destruct Hc as [->|(n & ->)]; by left.
    + right. eexists _, _. split; [exact H|]. unfold c_strong. rewrite Hf, !elem_of_app. by left.
    + right. eexists _, _. split; [exact H|]. unfold c_strong. rewrite Hh, !elem_of_app. right. left. by left.
  - intros [(r & Hr & Hc)|(d & y & Hy & Hc)].
    + destruct r as [d|d|d|d p|o l|d|d|d|k d]; simpl in Hc; try by apply elem_of_nil in Hc.
      * apply elem_of_list_singleton in Hc as ->. by apply k_fut.
      * assert (c = d) as -> by (destruct p; simpl in Hc; by apply elem_of_list_singleton in Hc). by eapply k_call.
      * apply elem_of_app in Hc as [Hc|(k & Hk & Hin)%elem_of_list_bind].
        -- destruct o as [d|]; simpl in Hc; [|by apply elem_of_nil in Hc]. apply elem_of_list_singleton in Hc as ->. by eapply k_hand.
        -- eapply k_cont; [exact Hr|exact Hin|]. destruct k; simpl in Hk; [by apply elem_of_nil in Hk|apply elem_of_list_singleton in Hk as ->; eauto..].
      * apply elem_of_list_singleton in Hc as ->. by apply k_drop.
      * apply elem_of_list_singleton in Hc as ->. by eapply k_det.
    + unfold c_strong in Hc. rewrite !elem_of_app in Hc. destruct Hc as [Hc|[Hc|Hc]].
      * destruct (fn y) as [f|] eqn:Hf; simpl in Hc; [|by apply elem_of_nil in Hc]. by eapply k_fn.
      * destruct (hold y) as [h|] eqn:Hf; simpl in Hc; [|by apply elem_of_nil in Hc]. apply elem_of_list_singleton in Hc as ->. by eapply k_hold.
      * apply elem_of_list_bind in Hc as (k & Hk & Hin). pose proof (v_self _ V _ _ _ Hy Hin) as HO.
        destruct k as [|c'|n c']; simpl in Hk; [by apply elem_of_nil in Hk|..]; apply elem_of_list_singleton in Hk as ->; simpl in HO; subst; eapply k_self; eauto.
Qed.
Lemma alive_keeps ls s tr c : run init ls = Some (s, tr) -> alive s c <-> keeps s c.
Proof. intros R%run_reach. rewrite (keeps_referred _ _ _ R). by eapply alive_referred. Qed.
Lemma freed_alive ls s tr c k : run init ls = Some (s, tr) -> New c k ∈ tr -> Freed c ∈ tr <-> ~ alive s c.
Proof.
  intros R%run_reach Hn. split.
  - intros H. destruct (hd_dead _ _ (reach_hfree _ _ R) _ H) as [_ E]. intros (x & Hx). congruence.
  - intros H. apply (hd_ev _ _ (reach_hfree _ _ R)); [by eapply (hf_len _ _ (reach_hfn _ _ R))|]. destruct (get_cell s c) as [x|] eqn:E; [|done]. destruct H. by exists x.
Qed.
Lemma final_empty ls s tr : run init ls = Some (s, tr) -> rs s = [] -> none_lost tr -> no_cycle tr -> forall c k, New c k ∈ tr -> Freed c ∈ tr.
Proof. intros R Q L A c k Hn. rewrite (freed_alive _ _ _ _ _ R Hn). apply run_reach in R. by eapply quiet_empty. Qed.
Lemma cancel ls s tr c k : run init ls = Some (s, tr) -> New c k ∈ tr -> ~ keeps s c ->
  Freed c ∈ tr /\ forall ls' s' tr', run s ls' = Some (s', tr') -> (forall a, Called c a ∉ tr') /\ forall o, Resolved c o ∉ tr'.
Proof.
  intros R Hn K. assert (Freed c ∈ tr) as HF by (rewrite (freed_alive _ _ _ _ _ R Hn), (alive_keeps _ _ _ _ R); done).
  split; [done|]. intros ls' s' tr' R'. assert (run init (ls ++ ls') = Some (s', tr ++ tr')) as R2 by (rewrite (run_app _ _ _ _ _ R), R'; done).
  split; intros a (t1 & t2 & ->)%in_split.
  - eapply (freed_end _ _ _ R2 (tr ++ t1) (Called c a) t2); [by rewrite <- app_assoc|left; eauto|by apply in_l].
  - eapply (freed_end _ _ _ R2 (tr ++ t1) (Resolved c a) t2); [by rewrite <- app_assoc|right; left; eauto|by apply in_l].
Qed.

(** for examples: [waits] computed *)
Definition wait_pairs (tr : list event) : list (nat * nat) :=
  tr ≫= fun e => match e with
                 | New d k => match ante k with Some a => [(d, a)] | None => [] end
                 | Returned d (RFut a) => [(d, a)]
                 | _ => []
                 end.
Lemma waits_pairs tr d a : waits tr d a -> (d, a) ∈ wait_pairs tr.
Proof.
  intros [(k & Hn & Ha)|H]; apply elem_of_list_bind; eexists; (split; [|eassumption]); simpl; [rewrite Ha|]; by left.
Qed.
Lemma rank_no_cycle (rank : nat -> nat) tr : forallb (fun p => rank p.2 <? rank p.1) (wait_pairs tr) = true -> no_cycle tr.
Proof.
  intros H. rewrite forallb_forall in H. assert (forall d a, tc (waits tr) d a -> rank a < rank d) as HL.
  { induction 1 as [d a W|d b a W _ IH].
    - apply waits_pairs, elem_of_list_In, H in W. by apply Nat.ltb_lt in W.
    - apply waits_pairs, elem_of_list_In, H in W. apply Nat.ltb_lt in W. simpl in W. lia. }
  intros d W. apply HL in W. lia.
Qed.
Lemma lost_none tr : forallb (fun e => match e with Lost _ => false | _ => true end) tr = true -> none_lost tr.
Proof. intros H c Hc. rewrite forallb_forall in H. apply elem_of_list_In, H in Hc. done. Qed.
