(** From the invariants to the properties. *)
From Coq Require Import List Bool Arith Lia.
From stdpp Require Import list.
From Verif.Process Require Import Model Spec Count Move Inv Trace.

Definition calm (l : label) : Prop := match l with LRet _ r => timed (state_of r) = false | _ => True end.
Record all (c : conf) (p : pstate) (s : st) (tr : list event) : Prop := All {
  a_held : held s; a_inv : inv c s; a_stream : stream c s tr; a_turn : turn p s tr; a_pacing : pacing s tr;
  a_fair : fair s tr; a_drops : drops s tr; a_over : over s tr; a_told : told c s tr; a_ending : ending c s tr
}.
Lemma all_run c p ls s tr : sane c -> avoids timed p ls -> run c (init p) ls = Some (s, tr) -> all c p s tr.
Proof.
  intros W [P L] R.
  assert (L' : Forall calm ls) by (eapply Forall_impl; [exact L|]; intros []; done).
  clear L. revert ls s tr L' R. apply run_ind.
  - constructor; try done; try (by apply inv_init); try (by exists false).
    split; [done|]. by intros [].
  - intros s tr l s' e [A1 A2 A3 A4 A5 A6 A7 A8 A9 A10] Hl H.
    constructor; [eapply held_step|eapply inv_step|eapply stream_step|eapply turn_step|eapply pacing_step|eapply fair_step|eapply drops_step|eapply over_step|eapply told_step|eapply ending_step]; eauto.
Qed.
Lemma stream_run c p ls s tr : run c (init p) ls = Some (s, tr) -> stream c s tr.
Proof.
  intros R. assert (L : Forall (fun _ : label => True) ls) by by apply Forall_forall.
  revert ls s tr L R. apply run_ind; [done|]. intros s tr l s' e I _ H. by eapply stream_step.
Qed.
Lemma wanted_app c a b : wanted c (a ++ b) = wanted c a ++ wanted c b.
Proof. apply flat_map_app. Qed.

(** C57 *)
Lemma order c p ls s tr : run c (init p) ls = Some (s, tr) -> exists r, wanted c (sents tr) = handed tr ++ r.
Proof. intros R%stream_run. destruct R as [R1 R2]. exists (wanted c (queue s)). by rewrite <- R1, wanted_app, R2. Qed.
Lemma rest_empty c s : has_await c = true -> inv c s -> rest s -> rcount s = 0 -> queue s = [].
Proof.
  intros A I (J & P & O) R. destruct (final s) eqn:F; [by apply (i_fin _ _ I F)|].
  pose proof (i_wake _ _ I F A) as Wk. pose proof (i_susp _ _ I F) as Su. rewrite J, O in Su. cbn in Su. rewrite J, Su in Wk. cbn in Wk.
  apply (i_idle _ _ I F); [by destruct (running s); cbn in *; [lia|]|done|by rewrite P].
Qed.
Lemma delivered c p ls s tr : sane c -> has_await c = true -> avoids timed p ls -> run c (init p) ls = Some (s, tr) ->
  rest s -> rcount s = 0 -> handed tr = wanted c (sents tr).
Proof.
  intros W A Av R Re Rc. pose proof (all_run _ _ _ _ _ W Av R) as I. destruct (a_stream _ _ _ _ I) as [R1 R2].
  rewrite <- R1, (rest_empty c s), app_nil_r; [done|done|apply I|done|done].
Qed.
Lemma exclusive c p ls s tr : sane c -> avoids timed p ls -> run c (init p) ls = Some (s, tr) -> follows due p tr.
Proof. intros W Av R. destruct (a_turn _ _ _ _ (all_run _ _ _ _ _ W Av R)) as (b & T & _). unfold follows. by rewrite T. Qed.
Lemma due_any p tr : follows due p tr -> follows any p tr.
Proof.
  unfold follows. generalize (Some (false, p)). intros w H. 
  assert (K : forall w w', (w = None \/ w = w') -> fold_left (watch due) tr w = None \/ fold_left (watch due) tr w = fold_left (watch any) tr w').
  { clear. induction tr as [|e tr IH]; intros w w' E; cbn; [done|]. apply IH.
    destruct E as [->| ->]; [by left|]. destruct w' as [[b q]|]; [|by left]. destruct e; cbn; auto.
    destruct (negb b) eqn:B; cbn; [|auto]. destruct (due q c); auto. }
  destruct (K w w (or_intror eq_refl)) as [E|E]; [done|]. by rewrite <- E.
Qed.

(** no delayed yields *)
Definition wy (w : why) : nat := match w with Delay => 1 | _ => 0 end.
Definition dj (p : pc) : nat :=
  match p with JDelay => 1 | JCall w _ | JBcast w _ | JSusp w _ _ | JSend w _ _ _ | JSelf w | JSelf2 w | JEnd w => wy w | _ => 0 end.
Definition prompt_only (s : st) : Prop := held s /\ delayed (pst s) = false /\ cnt dj (jobs s) = 0.
Lemma prompt_step c s l s' e : prompt_only s -> (match l with LRet _ r => delayed (state_of r) = false | _ => True end) ->
  step c s l = Some (s', e) -> prompt_only s'.
Proof.
  intros (H & D & J) L St. split; [by eapply held_step|]. apply step_move in St.
  destruct St; cbn in L |- *; (split; [done|]); counts; cbn in *; try done; try lia.
  all: try (destruct (final s); cbn; lia).
  destruct (pst s) as [[] []]; done.
Qed.
Definition single (p : pstate) (s : st) (tr : list event) : Prop :=
  exists b q, fold_left (watch any) tr (Some (false, p)) = Some (b, q) /\ b2n b = cnt cl (jobs s).
Definition ln (p : pc) : nat := lk p - cl p.
Lemma cl_lk js : cnt dj js = 0 -> cnt cl js + cnt ln js = cnt lk js.
Proof.
  induction js as [|q js IH]; cbn; [done|]. intros H. rewrite <- IH by lia. 
  assert (cl q <= lk q); [|unfold ln at 1; lia]. destruct q as [| |[] ?| | | | | | | | | | | | |]; cbn in *; lia.
Qed.
Lemma single_step c p s tr l s' e : prompt_only s -> single p s tr -> step c s l = Some (s', e) -> single p s' (tr ++ e).
Proof.
  intros ([H _] & D & J) (b & q & T1 & T2) St%step_move. unfold single. rewrite fold_left_app, T1. clear T1.
  pose proof (cl_lk _ J) as K. rewrite H in K.
  destruct St; cbn; counts;
    repeat match goal with H : jobs s !! _ = Some _ |- _ =>
      pose proof (cnt_le cl _ _ _ H); pose proof (cnt_le ln _ _ _ H); pose proof (cnt_le dj _ _ _ H); revert H end; intros;
    cbn in *; try (exfalso; lia).
  all: pose proof (b2n_le (tlock s)).
  all: repeat match goal with H : tlock ?s = _ |- _ => rewrite H in *; cbn in * end.
  all: try (exists b, q; split; [done|]; try destruct (final s); cbn; lia).
  all: destruct b; cbn in *; try lia.
  all: try (eexists _, _; split; [done|]; cbn; lia).
Qed.
Lemma exclusive_prompt c p ls s tr : avoids delayed p ls -> run c (init p) ls = Some (s, tr) -> follows any p tr.
Proof.
  intros [P L] R.
  assert (I : prompt_only s /\ single p s tr).
  { assert (L' : Forall (fun l => match l with LRet _ r => delayed (state_of r) = false | _ => True end) ls) by done.
    clear L. revert ls s tr L' R. apply (run_ind c p _ (fun s tr => prompt_only s /\ single p s tr)).
    - split; [done|]. by exists false, p.
    - intros s tr l s' e [A B] Hl H. split; [by eapply prompt_step|by eapply single_step]. }
  destruct I as [_ (b & q & T & _)]. unfold follows. by rewrite T.
Qed.

(** C59 *)
Lemma downstream c p ls s tr : sane c -> avoids timed p ls -> run c (init p) ls = Some (s, tr) ->
  forall j, j < attached tr -> exists r, results tr = outs j tr ++ r /\ length r <= 1 /\ (rest s -> r = []).
Proof.
  intros W Av R j Hj. pose proof (all_run _ _ _ _ _ W Av R) as I. pose proof (a_fair _ _ _ _ I) as F.
  exists (flat_map (todo j) (jobs s)). split; [by rewrite (f_out _ _ F)|]. split.
  - pose proof (i_act _ _ (a_inv _ _ _ _ I)) as Ac. rewrite <- ha_cnt in Ac.
    destruct (decide (cnt ha (jobs s) = 0)) as [Z|N].
    + rewrite (fm_none (todo j) ha); [cbn; lia| |done]. intros []; done.
    + destruct (cnt_pos ha (jobs s)) as (k & q & Hk & Hq); [lia|]. pose proof (cnt_le ha _ _ _ Hk).
      rewrite (fm_one (todo j) ha _ k q); [|by intros []|done|done|lia].
      destruct q; cbn; try lia. case_match; cbn; lia.
  - intros (J & _). by rewrite J.
Qed.
Lemma backpressure c p ls s tr : sane c -> avoids timed p ls -> run c (init p) ls = Some (s, tr) -> paced tr.
Proof. intros W Av R. unfold paced. rewrite (a_pacing _ _ _ _ (all_run _ _ _ _ _ W Av R)). done. Qed.

(** C60 *)
Lemma rest_final c s tr : has_await c = true -> inv c s -> drops s tr -> rest s -> rcount s = 0 -> dropped tr = 1 -> final s = true.
Proof.
  intros A I D (J & P & O) Rc Dr. destruct (final s) eqn:F; [done|]. exfalso.
  pose proof (i_wake _ _ I F A) as Wk. pose proof (i_susp _ _ I F) as Su. rewrite J, O in Su. cbn in Su. rewrite J, Su in Wk. cbn in Wk.
  destruct (i_idle _ _ I F) as [_ C]; [by destruct (running s); cbn in *; [lia|]|done|by rewrite P|].
  pose proof (i_lin _ _ I) as L. rewrite P, C, F in L. unfold drops in D. rewrite Dr in D. destruct (scount s); cbn in *; lia.
Qed.
Lemma close_called c p ls s tr : sane c -> has_await c = true -> has_close c = true -> avoids timed p ls ->
  run c (init p) ls = Some (s, tr) -> rest s -> rcount s = 0 -> dropped tr = 1 ->
  exists t1 t2, tr = t1 ++ Begin (CClose true) :: t2 /\ dropped t1 = 1 /\ handed t1 = wanted c (sents tr).
Proof.
  intros W A C Av R Re Rc D. pose proof (all_run _ _ _ _ _ W Av R) as I.
  pose proof (delivered _ _ _ _ _ W A Av R Re Rc) as H.
  destruct (a_told _ _ _ _ I) as (t1 & t2 & T & D1 & H2); [|done|].
  - eapply rest_final; try done; apply I.
  - exists t1, t2. split; [done|]. split; [done|]. rewrite <- H, T, handed_app.
    assert (E : handed (Begin (CClose true) :: t2) = handed t2) by done. rewrite E, H2, app_nil_r. done.
Qed.
Lemma closes c p ls s tr : sane c -> has_await c = true -> has_close c = true -> avoids timed p ls ->
  run c (init p) ls = Some (s, tr) -> rest s -> rcount s = 0 -> dropped tr = 1 -> ended tr = 1 \/ stays_open tr.
Proof.
  intros W A C Av R Re Rc D. pose proof (all_run _ _ _ _ _ W Av R) as I.
  assert (F : final s = true) by (eapply rest_final; try done; apply I).
  destruct (proc s) eqn:P; [right|left].
  - destruct (a_ending _ _ _ _ I F C P) as [?|[[J _]|[[J _]|[J|J]]]]; [done|..];
      destruct Re as (E & _); rewrite E in J; by apply elem_of_nil in J.
  - destruct (a_over _ _ _ _ I) as [O _]. by rewrite O, P.
Qed.
Lemma closed_once c p ls s tr : sane c -> avoids timed p ls -> run c (init p) ls = Some (s, tr) -> ended tr <= 1 /\ ~ In Ub tr.
Proof. intros W Av R. destruct (a_over _ _ _ _ (all_run _ _ _ _ _ W Av R)) as [O U]. rewrite O. split; [apply b2n_le|done]. Qed.
(** closed after the senders are gone and everything was handed over *)
Lemma closed_last c p ls s tr : sane c -> avoids timed p ls -> run c (init p) ls = Some (s, tr) -> ended tr = 1 ->
  dropped tr = 1 /\ handed tr = wanted c (sents tr).
Proof.
  intros W Av R E. pose proof (all_run _ _ _ _ _ W Av R) as I. destruct (a_over _ _ _ _ I) as [O _].
  assert (P : proc s = false) by (rewrite E in O; by destruct (proc s)).
  assert (F : final s = true). { destruct (final s) eqn:F; [done|]. destruct (i_open _ _ (a_inv _ _ _ _ I) F). congruence. }
  destruct (i_fin _ _ (a_inv _ _ _ _ I) F) as (_ & _ & Q & _). destruct (a_stream _ _ _ _ I) as [R1 R2].
  pose proof (i_lin _ _ (a_inv _ _ _ _ I)) as L. rewrite F in L. cbn in L. split.
  - rewrite (a_drops _ _ _ _ I). destruct (scount s); cbn in *; [done|lia].
  - by rewrite <- R1, Q, app_nil_r.
Qed.
(** without close() *)
Definition ending2 (c : conf) (s : st) : Prop :=
  prompt (pst s) = false /\
  (final s = true -> has_close c = false -> proc s = true -> (JDecide ∈ jobs s /\ pst s = (Await, Forever)) \/ JDone ∈ jobs s \/ JFinal ∈ jobs s).
Lemma ending2_step c s l s' e : inv c s -> ending2 c s -> (match l with LRet _ r => prompt (state_of r) = false | _ => True end) ->
  step c s l = Some (s', e) -> ending2 c s'.
Proof.
  intros I [Q E] L H%step_move. split; [by destruct H; cbn in *|]. intros F C P. destruct (final s) eqn:Fs.
  - assert (Ps : proc s = true) by (by destruct H). specialize (E eq_refl C Ps).
    assert (St : forall x, x ∈ jobs s -> ha x = 1 -> pst s' = pst s /\ x ∈ jobs s' \/ exists k, jobs s !! k = Some x /\ match l with LJob j _ | LRet j _ => j = k | _ => False end).
    { intros x Hx Hax. destruct (other_stays _ _ _ _ _ _ H Hx) as [K|K]; [|by right].
      destruct (quiet_move _ _ _ _ _ I H) as [[_ Z]|(k & q & Hk & Hq & Hl & _)]; [by left|].
      right. exists k. by rewrite <- (act_unique _ _ _ _ _ I Hk Hx Hq Hax) in Hk. }
    destruct E as [[J S]|[J|J]].
    + destruct (St _ J eq_refl) as [[K1 K2]|(k & Hk & Hl)]; [left; by rewrite K1|].
      destruct H; try done; subst; rewrite Hk in *; simplify_eq; cbn in *; try (rewrite S in *; naive_solver).
      right; left. by eapply in_new.
    + destruct (St _ J eq_refl) as [[K1 K2]|(k & Hk & Hl)]; [by right; left|].
      destruct H; try done; subst; rewrite Hk in *; simplify_eq; cbn in *; try naive_solver.
      all: rewrite Fs; right; right; try (apply elem_of_app; left); by eapply in_new.
    + destruct (other_stays _ _ _ _ _ _ H J) as [K|(k & Hk & Hl)]; [by right; right|].
      destruct H; try done; subst; rewrite Hk in *; simplify_eq; cbn in *; try naive_solver.
  - destruct H; cbn in *; try congruence. left. split; [by eapply in_new|].
    pose proof (i_state _ _ I) as T. destruct (pst s) as [[] []]; cbn in *; done.
Qed.
Lemma closes2 c p ls s tr : sane c -> has_await c = true -> has_close c = false -> avoids timed p ls -> avoids prompt p ls ->
  run c (init p) ls = Some (s, tr) -> rest s -> rcount s = 0 -> dropped tr = 1 -> ended tr = 1.
Proof.
  intros W A C Av [P1 L1] R Re Rc D. pose proof (all_run _ _ _ _ _ W Av R) as I.
  assert (F : final s = true) by (eapply rest_final; try done; apply I).
  assert (E : inv c s /\ held s /\ ending2 c s).
  { destruct Av as [P L]. assert (L' : Forall (fun l => calm l /\ match l with LRet _ r => prompt (state_of r) = false | _ => True end) ls).
    { apply Forall_and. split; [|done]. eapply Forall_impl; [exact L|]. by intros []. }
    clear -W P P1 L' R. revert ls s tr L' R. apply (run_ind c p _ (fun s tr => inv c s /\ held s /\ ending2 c s)).
    - split; [by apply inv_init|]. split; [done|]. split; [done|]. done.
    - intros s tr l s' e (A & B & D) [Hl1 Hl2] H. split; [by eapply inv_step|]. split; [by eapply held_step|by eapply ending2_step]. }
  destruct E as (_ & _ & _ & E). destruct (a_over _ _ _ _ I) as [O _]. rewrite O. destruct (proc s); [|done].
  destruct Re as (J & _). rewrite J in E. destruct (E F C eq_refl) as [[K _]|[K|K]]; by apply elem_of_nil in K.
Qed.
