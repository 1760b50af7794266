From Coq Require Import ZArith List Bool Lia.
From stdpp Require Import list list_numbers.
From Verif.Lib Require Import Perm.
From Verif.Executor Require Import Queue QueueProof Pool PoolProof PoolInv PoolWake.

(** ** each task at most once *)
Lemma pushes_nodup c m tr s : inv c m tr s -> NoDup (pushes tr).
Proof.
  intros H. destruct (i_flow _ _ _ _ H) as [F _ _]. apply cnt_nodup. intros x. apply perm_cnt with (x := x) in F.
  rewrite cnt_app in F. pose proof (proj1 (cnt_nodup _) (NoDup_seq 0 (next s)) x). lia.
Qed.
Lemma at_most_once c m ls s tr : 0 < c -> run (init c m) ls = Some (s, tr) ->
  NoDup (starts tr) /\ starts tr ⊆+ pushes tr /\ ends tr ⊆+ starts tr /\ (forall t, t ∈ pushes tr -> t < next s).
Proof.
  intros Hc R. pose proof (reach_inv _ _ _ _ _ Hc R) as H. pose proof (pushes_nodup _ _ _ _ H) as N.
  destruct (i_flow _ _ _ _ H) as [F1 F2 F3]. split_and!.
  - rewrite F2 in N. apply NoDup_app in N as (_ & _ & N). by apply NoDup_app in N as (N & _ & _).
  - rewrite F2. rewrite (comm (++) (qs s ≫= q_tasks)), <- (assoc (++)). apply submseteq_inserts_r. done.
  - rewrite F3. by apply submseteq_inserts_r.
  - intros t Ht. assert (t ∈ seq 0 (next s)) as ?%elem_of_seq; [|lia]. rewrite <- F1. apply elem_of_app. auto.
Qed.

(** ** join() *)
Lemma all_exited c m tr s : inv c m tr s -> jn s = JReturned -> running s = [] /\ qs s = [].
Proof.
  intros H J. split.
  - unfold running. assert (forall l, (forall i p, l !! i = Some p -> p = Exited) -> l ≫= w_task = []) as A.
    { induction l as [|x l IH]; intros Hx; [done|]. simpl. rewrite (Hx 0 x eq_refl). simpl. apply IH. intros i p. apply (Hx (S i)). }
    assert (forall l, (forall i p, l !! i = Some p -> p = EExited) -> l ≫= e_task = []) as B.
    { induction l as [|x l IH]; intros Hx; [done|]. simpl. rewrite (Hx 0 x eq_refl). simpl. apply IH. intros i p. apply (Hx (S i)). }
    rewrite A, B; auto; intros i p Hp.
    + eapply (o_thr_e _ _ _ (i_ord _ _ _ _ H)); eauto. by rewrite J.
    + eapply (o_thr _ _ _ (i_ord _ _ _ _ H)); eauto. by rewrite J.
  - pose proof (sh_qs _ _ _ (i_shape _ _ _ _ H)) as L. rewrite J in L. by apply nil_length_inv.
Qed.
Lemma early_mono s l s' e t : step s l = Some (s', e) -> t ∈ early s -> t ∈ early s'.
Proof.
  intros H%step_t Ht. destruct H; notify_cases; simpl; auto. destruct (no_join s); auto. apply elem_of_app. auto.
Qed.
Lemma early_mono_run ls : forall s s' e t, run s ls = Some (s', e) -> t ∈ early s -> t ∈ early s'.
Proof.
  induction ls as [|l ls IH]; simpl; intros s s' e t R Ht.
  - by injection R as <- <-.
  - destruct (step s l) as [[s1 e1]|] eqn:E; [|done]. destruct (run s1 ls) as [[s2 e2]|] eqn:R'; [|done]. injection R as <- <-.
    eapply IH; eauto. eapply early_mono; eauto.
Qed.
Lemma join_drains c m ls1 s1 tr1 ls2 s2 tr2 t : 0 < c -> run (init c m) ls1 = Some (s1, tr1) -> jn s1 = JIdle ->
  run s1 ls2 = Some (s2, tr2) -> jn s2 = JReturned -> t ∈ pushes tr1 -> t ∈ ends (tr1 ++ tr2).
Proof.
  intros Hc R1 J1 R2 J2 Ht. pose proof (reach_inv _ _ _ _ _ Hc R1) as H1. pose proof (run_inv _ _ _ _ _ _ _ H1 R2) as H2.
  rewrite <- (e_idle _ _ (i_erl _ _ _ _ H1) J1) in Ht. apply (early_mono_run _ _ _ _ _ R2) in Ht.
  destruct (all_exited _ _ _ _ H2 J2) as [A B]. destruct (e_where _ _ (i_erl _ _ _ _ H2) _ Ht) as [Hs|(i & q & Hq & _)].
  - pose proof (f_run _ _ (i_flow _ _ _ _ H2)) as F. rewrite A, app_nil_r in F. by rewrite <- F.
  - by rewrite B in Hq.
Qed.
(** nothing runs any more *)
Lemma join_quiet c m ls s tr : 0 < c -> run (init c m) ls = Some (s, tr) -> jn s = JReturned ->
  ends tr ≡ₚ starts tr /\ pushes tr ≡ₚ ends tr ++ dropped s.
Proof.
  intros Hc R J. pose proof (reach_inv _ _ _ _ _ Hc R) as H. destruct (all_exited _ _ _ _ H J) as [A B].
  destruct (i_flow _ _ _ _ H) as [F1 F2 F3]. rewrite A, app_nil_r in F3. rewrite B in F2. simpl in F2. split; [by symmetry|].
  by rewrite F2, F3.
Qed.
Lemma run_app l1 : forall l2 s s1 e1 s2 e2, run s l1 = Some (s1, e1) -> run s1 l2 = Some (s2, e2) -> run s (l1 ++ l2) = Some (s2, e1 ++ e2).
Proof.
  induction l1 as [|l l1 IH]; simpl; intros l2 s s1 e1 s2 e2 R1 R2.
  - by injection R1 as <- <-.
  - destruct (step s l) as [[s3 e3]|]; [|done]. destruct (run s3 l1) as [[s4 e4]|] eqn:R; [|done]. injection R1 as <- <-.
    by rewrite (IH _ _ _ _ _ _ R R2), app_assoc.
Qed.
(** no queue is used after it has been destroyed, unless a member function is used after or while join() returns *)
Lemma no_ub c m ls s tr : 0 < c -> run (init c m) ls = Some (s, tr) -> Ub ∈ tr -> jn s = JReturned.
Proof.
  intros Hc. assert (forall tr0 s0 s tr, inv c m tr0 s0 -> (Ub ∈ tr0 -> jn s0 = JReturned) -> run s0 ls = Some (s, tr) ->
    Ub ∈ tr0 ++ tr -> jn s = JReturned) as G.
  { induction ls as [|l ls IH]; simpl; intros tr0 s0 s1 tr1 H0 HU R.
    - injection R as <- <-. rewrite app_nil_r. auto.
    - destruct (step s0 l) as [[s3 e3]|] eqn:E; [|done]. destruct (run s3 ls) as [[s4 e4]|] eqn:R4; [|done]. injection R as <- <-.
      rewrite app_assoc. eapply IH; [| |exact R4]; [eapply step_inv; eauto|].
      intros [?|?]%elem_of_app; eapply returned_stays; eauto. eapply step_ub; eauto. apply H0. }
  intros R HU. eapply (G []); eauto using init_inv. by intros ?%elem_of_nil.
Qed.

(** ** wake-ups *)
Lemma no_lost_wakeup c m ls s tr i : 0 < c -> run (init c m) ls = Some (s, tr) ->
  ws s !! i = Some (Wait false) -> Notify i ∉ calls s -> jn s <> JNote i ->
  exists q, qs s !! i = Some q /\ items q = [] /\ done q = false.
Proof.
  intros Hc R W N J. pose proof (reach_inv _ _ _ _ _ Hc R) as H.
  destruct (p_w _ (i_park _ _ _ _ H) i W) as [(q & ? & ? & ? & ?)|[?|?]]; [eauto|done|done].
Qed.

(** ** progress *)
Definition pool (l : label) : Prop := match l with Call _ _ | Worker _ _ _ | Expand _ _ _ => True | _ => False end.
Lemma call_step c m s k x b : shape c m s -> calls s !! k = Some x -> exists s' e, step s (Call k b) = Some (s', e).
Proof.
  intros HS H. simpl. unfold call. rewrite H. destruct x; repeat case_match; eauto.
Qed.
Lemma eval_step i q k s : items q = [] \/ (exists r, pop_at k (set_waiting false q) = Some r) -> exists s' e, pop_eval i q k s = Some (s', e).
Proof.
  intros H. unfold pop_eval. destruct (is_empty q && negb (done q) && waiting q); eauto.
  destruct (is_empty (set_waiting false q)) eqn:E; eauto.
  destruct H as [H|[[t q'] ->]]; eauto. unfold is_empty in E. simpl in E. by rewrite H in E.
Qed.
Lemma eval_step_ex i q s : exists k s' e, pop_eval i q k s = Some (s', e).
Proof.
  destruct (is_empty (set_waiting false q)) eqn:E.
  - exists 0. apply eval_step. left. by apply is_empty_t in E.
  - apply pop_enabled in E as (k & r & E). exists k. apply eval_step. eauto.
Qed.
Lemma worker_step c m s i p : shape c m s -> jn s <> JReturned -> ws s !! i = Some p -> p <> Wait false -> p <> Exited ->
  exists k s' e, step s (Worker i true k) = Some (s', e).
Proof.
  intros HS J H N1 N2. simpl. unfold worker. rewrite H.
  assert (exists q, qs s !! i = Some q) as [q Hq].
  { apply lookup_lt_is_Some_2. rewrite (sh_qs _ _ _ HS). apply lookup_lt_Some in H. rewrite (sh_ws _ _ _ HS) in H. by destruct (jn s). }
  destruct p as [n| |[]|t|]; try done.
  - simpl. exists 0. case_match; eauto.
  - rewrite Hq. apply eval_step_ex.
  - rewrite Hq. apply eval_step_ex.
  - eauto.
Qed.
Lemma expand_step c m s i p : shape c m s -> es s !! i = Some p -> p <> EWait false -> p <> EExited ->
  exists k s' e, step s (Expand i true k) = Some (s', e).
Proof.
  intros HS H N1 N2. simpl. unfold expand. rewrite H. exists 0.
  destruct p as [n| |[]|t|]; try done; simpl; unfold wait_eval; repeat case_match; eauto.
Qed.
(** while join() has not returned it can go on, or a thread or call it waits for can *)
Lemma join_progress c m ls s tr : 0 < c -> run (init c m) ls = Some (s, tr) -> jn s <> JIdle -> jn s <> JReturned ->
  exists l s' e, (pool l \/ l = Join) /\ step s l = Some (s', e).
Proof.
  intros Hc R J0 J1. pose proof (reach_inv _ _ _ _ _ Hc R) as [HS _ HO _ HP].
  destruct (jn s) as [|k|k|k|k|k|] eqn:J; try done;
    try (exists Join; simpl; unfold join; rewrite J; repeat case_match; by eauto 6).
  destruct (decide (k < length (ws s))) as [L|L].
  - destruct (lookup_lt_is_Some_2 _ _ L) as [p Hp].
    assert (p = Exited \/ p = Wait false \/ (p <> Wait false /\ p <> Exited)) as [->|[->|[N1 N2]]].
    { destruct p as [| |[]| |]; auto; right; right; done. }
    + exists Join. simpl. unfold join. rewrite J. apply Nat.ltb_lt in L as ->. rewrite Hp. eauto 6.
    + destruct (p_w _ HP _ Hp) as [(q & Hq & _ & D & _)|[Hn|?]]; [| |congruence].
      * rewrite (o_jq _ _ _ HO _ _ Hq) in D; [done|]. rewrite J. simpl. by rewrite (sh_ws _ _ _ HS) in L.
      * apply elem_of_list_lookup_1 in Hn as [x Hx]. destruct (call_step _ _ _ _ _ true HS Hx) as (s' & e & E).
        exists (Call x true), s', e. simpl. auto.
    + destruct (worker_step _ _ _ _ _ HS ltac:(congruence) Hp N1 N2) as (k' & s' & e & E). exists (Worker k true k'), s', e. simpl. auto.
  - destruct (es s !! (k - length (ws s))) as [p|] eqn:Hp.
    + assert (p = EExited \/ p = EWait false \/ (p <> EWait false /\ p <> EExited)) as [->|[->|[N1 N2]]].
      { destruct p as [| |[]| |]; auto; right; right; done. }
      * exists Join. simpl. unfold join. rewrite J. apply Nat.ltb_nlt in L as ->. rewrite Hp. eauto 6.
      * destruct (p_e _ HP _ Hp) as [(q & Hq & D & _)|[Hn|?]]; [| |congruence].
        -- rewrite (o_jw _ _ _ HO _ _ Hq) in D; [done|]. rewrite J. simpl. apply lookup_lt_Some in Hq. by rewrite (sh_wt _ _ _ HS) in Hq.
        -- apply elem_of_list_lookup_1 in Hn as [x Hx]. destruct (call_step _ _ _ _ _ true HS Hx) as (s' & e & E).
           exists (Call x true), s', e. simpl. auto.
      * destruct (expand_step _ _ _ _ _ HS Hp N1 N2) as (k' & s' & e & E). exists (Expand (k - length (ws s)) true k'), s', e. simpl. auto.
    + exists Join. simpl. unfold join. rewrite J. apply Nat.ltb_nlt in L as ->. rewrite Hp. eauto 6.
Qed.
(** when nothing more happens by itself, everything submitted has been executed *)
Lemma quiescent c m ls s tr : 0 < c -> run (init c m) ls = Some (s, tr) -> jn s = JIdle ->
  (forall l, pool l -> step s l = None) -> calls s = [] /\ ends tr ≡ₚ seq 0 (next s).
Proof.
  intros Hc R J Q. pose proof (reach_inv _ _ _ _ _ Hc R) as [HS HF HO _ HP].
  assert (calls s = []) as C.
  { destruct (calls s) as [|x l] eqn:E; [done|]. destruct (call_step c m s 0 x true HS) as (s' & e & E'); [by rewrite E|].
    by rewrite (Q (Call 0 true)) in E'. }
  assert (forall i p, ws s !! i = Some p -> p = Wait false) as W.
  { intros i p Hp. assert (p = Exited \/ p = Wait false \/ (p <> Wait false /\ p <> Exited)) as [->|[->|[N1 N2]]]; [| |done|].
    - destruct p as [| |[]| |]; auto; right; right; done.
    - destruct (lookup_lt_is_Some_2 (qs s) i) as [q Hq].
      { rewrite (sh_qs _ _ _ HS), J. apply lookup_lt_Some in Hp. by rewrite (sh_ws _ _ _ HS) in Hp. }
      pose proof (o_exit _ _ _ HO _ _ Hp Hq) as D. destruct (o_idle _ _ _ HO J) as [A _]. by rewrite (A _ _ Hq) in D.
    - destruct (worker_step _ _ _ _ _ HS ltac:(congruence) Hp N1 N2) as (k' & s' & e & E). by rewrite Q in E. }
  assert (forall i p, es s !! i = Some p -> p = EWait false) as EW.
  { intros i p Hp. assert (p = EExited \/ p = EWait false \/ (p <> EWait false /\ p <> EExited)) as [->|[->|[N1 N2]]]; [| |done|].
    - destruct p as [| |[]| |]; auto; right; right; done.
    - destruct (lookup_lt_is_Some_2 (wt s) i) as [q Hq].
      { apply lookup_lt_Some in Hp. pose proof (sh_es _ _ _ HS). rewrite (sh_wt _ _ _ HS). lia. }
      pose proof (o_exit_e _ _ _ HO _ _ Hp Hq) as D. destruct (o_idle _ _ _ HO J) as [_ A]. by rewrite (A _ _ Hq) in D.
    - destruct (expand_step _ _ _ _ _ HS Hp N1 N2) as (k' & s' & e & E). by rewrite Q in E. }
  split; [done|]. destruct HF as [F1 F2 F3]. rewrite C in F1. simpl in F1.
  assert (qs s ≫= q_tasks = []) as QE.
  { assert (forall l, (forall i q, l !! i = Some q -> q_tasks q = []) -> l ≫= q_tasks = []) as A.
    { induction l as [|x l IH]; intros Hx; [done|]. simpl. rewrite (Hx 0 x eq_refl). simpl. apply IH. intros i p. apply (Hx (S i)). }
    apply A. intros i q Hq. destruct (lookup_lt_is_Some_2 (ws s) i) as [p Hp].
    { apply lookup_lt_Some in Hq. rewrite (sh_qs _ _ _ HS), J in Hq. by rewrite (sh_ws _ _ _ HS). }
    rewrite (W _ _ Hp) in Hp. destruct (p_w _ HP _ Hp) as [(q1 & Hq1 & I & _)|[Hn|?]]; [|rewrite C in Hn; by apply elem_of_nil in Hn|congruence].
    assert (q1 = q) as -> by congruence. unfold q_tasks. by rewrite I. }
  assert (running s = []) as RN.
  { unfold running. assert (forall l, (forall i p, l !! i = Some p -> p = Wait false) -> l ≫= w_task = []) as A.
    { induction l as [|x l IH]; intros Hx; [done|]. simpl. rewrite (Hx 0 x eq_refl). simpl. apply IH. intros i p. apply (Hx (S i)). }
    assert (forall l, (forall i p, l !! i = Some p -> p = EWait false) -> l ≫= e_task = []) as B.
    { induction l as [|x l IH]; intros Hx; [done|]. simpl. rewrite (Hx 0 x eq_refl). simpl. apply IH. intros i p. apply (Hx (S i)). }
    by rewrite A, B. }
  assert (dropped s = []) as D.
  { clear -R J. revert R. assert (forall ls s0 s tr, jn s = JIdle -> dropped s0 = [] -> run s0 ls = Some (s, tr) -> dropped s = []) as G;
      [|by intros; eapply (G ls (init c m))].
    intros ls0. induction ls0 as [|l ls0 IH]; simpl; intros s0 s1 tr1 J1 D R.
    - by injection R as <- <-.
    - destruct (step s0 l) as [[s3 e3]|] eqn:E; [|done]. destruct (run s3 ls0) as [[s4 e4]|] eqn:R4; [|done]. injection R as <- <-.
      eapply IH; [done| |exact R4]. apply step_t in E. destruct E; notify_cases; simpl; auto.
      exfalso. clear -R4 J1. assert (forall ls s s' e, jn s = JReturned -> run s ls = Some (s', e) -> jn s' = JReturned) as G.
      { intros ls1. induction ls1 as [|l1 ls1 IH1]; simpl; intros s1 s2 e2 J2 R; [by injection R as <- <-|].
        destruct (step s1 l1) as [[s3 e3]|] eqn:E; [|done]. destruct (run s3 ls1) as [[s5 e5]|] eqn:R5; [|done]. injection R as <- <-.
        eapply IH1; [|exact R5]. eapply returned_stays; eauto. }
      apply G in R4; [congruence|done]. }
  rewrite QE, D, app_nil_r in F2. rewrite RN, app_nil_r in F3. simpl in F2. by rewrite <- F3, <- F2.
Qed.
