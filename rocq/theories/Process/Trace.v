(** What the traces of runs without timeouts say. *)
From Coq Require Import List Bool Arith Lia.
From stdpp Require Import list.
From Verif.Process Require Import Model Spec Count Move Inv.

Definition nc (p : pc) : nat := match p with JRun | JTop | JDecide | JBcast _ _ | JSusp _ _ _ | JDone | JDelay => 1 | _ => 0 end.
Lemma nc_cl js : cnt nc js + cnt cl js <= cnt hw js.
Proof. apply cnt_sum. intros []; cbn; lia. Qed.

(** calls in turn *)
Definition turn (p : pstate) (s : st) (tr : list event) : Prop :=
  exists b, fold_left (watch due) tr (Some (false, p)) = Some (b, pst s) /\ b2n b = cnt cl (jobs s).
Lemma turn_step c p s tr l s' e : inv c s -> turn p s tr -> step c s l = Some (s', e) -> turn p s' (tr ++ e).
Proof.
  intros I (b & T1 & T2) H%step_move. unfold turn. rewrite fold_left_app, T1. clear T1.
  pose proof (nc_cl (jobs s)) as N. pose proof (i_act _ _ I) as A. pose proof (i_tm _ _ I) as Tm. pose proof (i_delay _ _ I) as D.
  destruct H; cbn; counts;
    repeat match goal with H : jobs s !! _ = Some _ |- _ =>
      pose proof (cnt_le cl _ _ _ H); pose proof (cnt_le nc _ _ _ H); pose proof (cnt_le hw _ _ _ H); pose proof (cnt_le tm _ _ _ H); pose proof (cnt_le dl _ _ _ H); revert H end; intros;
    cbn in *; try (exfalso; lia).
  all: try (exists b; split; [done|]; try destruct (final s); cbn; lia).
  all: destruct b; cbn in *; try lia.
  all: destruct (pst s) as [[] []] eqn:P; cbn in *; try done; try (specialize (D ltac:(lia)); done).
  all: try (eexists; split; [done|]; cbn; lia).
  all: repeat match goal with H : _ \/ _ |- _ => destruct H end; try done.
Qed.

(** the next call when the last result has been taken *)
Definition pacing (s : st) (tr : list event) : Prop := fold_left pace tr (Some 0) = Some (owed s).
Lemma owed_zero c s k p : inv c s -> jobs s !! k = Some p -> hw p = 1 -> owed s = 0.
Proof.
  intros I Hk Hp. pose proof (cnt_le hw _ _ _ Hk). destruct (final s) eqn:F.
  - apply (i_owed _ _ I F). lia.
  - pose proof (i_tok _ _ I F). pose proof (i_susp _ _ I F). unfold pos in *. pose proof (b2n_le (running s)). lia.
Qed.
Lemma pacing_step c s tr l s' e : inv c s -> pacing s tr -> step c s l = Some (s', e) -> pacing s' (tr ++ e).
Proof.
  intros I T H%step_move. unfold pacing in *. rewrite fold_left_app, T. clear T.
  pose proof (i_tm _ _ I) as Tm.
  destruct H; cbn; try done; try (by destruct (owed s)).
  all: try match goal with H : owed _ = S _ |- _ => by rewrite H end.
  all: try match goal with H : jobs _ !! _ = Some JTimer |- _ => apply (cnt_le tm) in H; cbn in H; lia end.
  all: rewrite (owed_zero _ _ _ _ I H) by done; done.
Qed.

(** everybody gets every result *)
Definition todo (j : nat) (p : pc) : list msg :=
  match p with JBcast _ o | JSusp _ o _ => [o] | JSend _ o i _ => if i <=? j then [o] else [] | _ => [] end.
Lemma todo_none j p : hw p + bw p = 0 -> todo j p = [].
Proof. by destruct p. Qed.
Record fair (s : st) (tr : list event) : Prop := Fair {
  f_down : proc s = true -> ndown s = attached tr;
  f_out : forall j, j < attached tr -> outs j tr ++ flat_map (todo j) (jobs s) = results tr;
  f_none : forall j, attached tr <= j -> outs j tr = [];
  f_early : rcount s <> 0 -> results tr = []
}.
Lemma attached_app a b : attached (a ++ b) = attached a + attached b.
Proof. unfold attached. by rewrite flat_map_app, app_length. Qed.
Lemma results_app a b : results (a ++ b) = results a ++ results b.
Proof. apply flat_map_app. Qed.
Lemma outs_app j a b : outs j (a ++ b) = outs j a ++ outs j b.
Proof. apply flat_map_app. Qed.
Definition ha (p : pc) : nat := hw p + bw p.
Lemma ha_cnt js : cnt ha js = cnt hw js + cnt bw js.
Proof. induction js as [|q js IH]; simpl; [done|]. unfold ha at 1. lia. Qed.
Lemma fm_act c s j k p q : inv c s -> jobs s !! k = Some p -> ha p = 1 -> ha q <= 1 ->
  flat_map (todo j) (jobs s) = todo j p /\ flat_map (todo j) (<[k := q]> (jobs s)) = todo j q.
Proof.
  intros I Hk Hp Hq. pose proof (i_act _ _ I) as A. rewrite <- ha_cnt in A.
  assert (T : forall p, ha p = 0 -> todo j p = []) by (intros []; done).
  split; [by apply (fm_one _ ha) with (k := k)|].
  assert (Hk' : <[k := q]> (jobs s) !! k = Some q) by (apply list_lookup_insert, (lookup_lt_Some _ _ _ Hk)).
  pose proof (cnt_set ha _ _ _ q Hk) as C. pose proof (cnt_le ha _ _ _ Hk).
  destruct (ha q) as [|[|]] eqn:Q; [|by apply (fm_one _ ha) with (k := k); [done|lia| |]|lia].
  rewrite (T q) by done. apply (fm_none _ ha); [done|lia].
Qed.
Lemma fm_idle j js k p q : js !! k = Some p -> todo j p = [] -> todo j q = [] ->
  flat_map (todo j) (<[k := q]> js) = flat_map (todo j) js.
Proof. apply fm_set. Qed.
Lemma fair_keep s tr s' e : fair s tr -> attached e = 0 -> results e = [] -> (forall j, outs j e = []) ->
  (proc s' = true -> proc s = true /\ ndown s' = ndown s) -> (rcount s' <> 0 -> rcount s <> 0) ->
  (forall j, flat_map (todo j) (jobs s') = flat_map (todo j) (jobs s)) -> fair s' (tr ++ e).
Proof.
  intros [F1 F2 F3 F4] A R O P C J. constructor.
  - intros [H1 H2]%P. rewrite attached_app, A, H2, (F1 H1). lia.
  - intros j. rewrite attached_app, A, Nat.add_0_r, outs_app, O, app_nil_r, results_app, R, app_nil_r, J. apply F2.
  - intros j. rewrite attached_app, A, Nat.add_0_r, outs_app, O, app_nil_r. apply F3.
  - intros H%C. rewrite results_app, R, (F4 H). done.
Qed.
Lemma fm_snoc j js p : todo j p = [] -> flat_map (todo j) (js ++ [p]) = flat_map (todo j) js.
Proof. intros H. rewrite flat_map_app. simpl. by rewrite H, !app_nil_r. Qed.
Lemma act_proc c s k p : inv c s -> jobs s !! k = Some p -> ha p = 1 -> proc s = true.
Proof.
  intros I Hk Hp. destruct (final s) eqn:F; [|by apply (i_open _ _ I)].
  destruct (i_fin _ _ I F) as (A & _). pose proof (cnt_le ha _ _ _ Hk) as B. rewrite ha_cnt in B. destruct (proc s); [done|]. simpl in A. lia.
Qed.
Lemma send_down c s k w o i n : inv c s -> jobs s !! k = Some (JSend w o i n) -> n = ndown s /\ i <= n.
Proof.
  intros I Hk. pose proof (cnt_zero _ _ _ _ (i_down _ _ I) Hk) as D. simpl in D.
  destruct (n =? ndown s) eqn:E; [|done]. destruct (i <=? n) eqn:E2; [|done]. by apply Nat.eqb_eq in E; apply Nat.leb_le in E2.
Qed.
Lemma early_nil c s k p : inv c s -> jobs s !! k = Some p -> rcount s = 0.
Proof.
  intros I Hk. destruct (decide (rcount s = 0)) as [|N]; [done|]. destruct (i_early _ _ I N) as (_ & J & _). by rewrite J in Hk.
Qed.
Lemma fair_step c s tr l s' e : inv c s -> fair s tr -> step c s l = Some (s', e) -> fair s' (tr ++ e).
Proof.
  intros I F H%step_move.
  destruct H.
  all: try (apply (fair_keep s); cbn; try done; try lia; intros j; rewrite ?fm_snoc by done; try done;
    try (by erewrite fm_set; [|eassumption| |]); try (by erewrite fm_del; [|eassumption|]); fail).
  - pose proof F as [F1 F2 F3 F4]. destruct (i_early _ _ I H) as (_ & J & _ & _ & P & _). constructor; cbn.
    + intros _. rewrite attached_app, (F1 P). cbn. lia.
    + intros j Hj. rewrite outs_app, results_app, (F4 H). cbn. rewrite app_nil_r.
      rewrite attached_app in Hj. cbn in Hj. destruct (decide (j < attached tr)) as [L|L].
      * rewrite (F2 j L). by apply F4.
      * rewrite F3 by lia. by rewrite J.
    + intros j Hj. rewrite attached_app in Hj. cbn in Hj. rewrite outs_app, F3 by lia. done.
    + intros _. rewrite results_app, (F4 H). done.
  - apply (fair_keep s); cbn; try done. intros j.
    destruct (fm_act _ _ j _ _ (JSusp w o (ndown s)) I H) as [-> ->]; done || (cbn; lia).
  - apply (fair_keep s); cbn; try done. intros j.
    destruct (fm_act _ _ j _ _ (JSend w o 0 n) I H) as [-> ->]; done || (cbn; lia).
  - pose proof F as [F1 F2 F3 F4]. pose proof (early_nil _ _ _ _ I H) as R. pose proof (act_proc _ _ _ _ I H eq_refl) as P.
    specialize (F1 P). constructor; cbn.
    + intros _. rewrite attached_app, F1. cbn. lia.
    + intros j. rewrite attached_app, outs_app, results_app. cbn. rewrite Nat.add_0_r. intros Hj.
      destruct (fm_act _ _ j _ _ (JSend w o (S i) n) I H) as [A B]; [done|cbn; lia|]. rewrite B. specialize (F2 j Hj). rewrite A in F2.
      rewrite !app_nil_r. rewrite <- F2. cbn [todo]. destruct (i =? j) eqn:E.
      * apply Nat.eqb_eq in E as ->. rewrite (proj2 (Nat.leb_le j j)) by lia. rewrite (proj2 (Nat.leb_gt (S j) j)) by lia. by rewrite app_nil_r.
      * apply Nat.eqb_neq in E. rewrite app_nil_r.
        destruct (i <=? j) eqn:E2; [apply Nat.leb_le in E2; by rewrite (proj2 (Nat.leb_le (S i) j)) by lia
          |apply Nat.leb_gt in E2; by rewrite (proj2 (Nat.leb_gt (S i) j)) by lia].
    + intros j. rewrite attached_app, outs_app. cbn. rewrite Nat.add_0_r. intros Hj. rewrite F3 by done.
      destruct (i =? j) eqn:E; [apply Nat.eqb_eq in E; lia|done].
    + intros Rn. done.
  - pose proof F as [F1 F2 F3 F4]. pose proof (early_nil _ _ _ _ I H) as R. pose proof (act_proc _ _ _ _ I H eq_refl) as P.
    destruct (send_down _ _ _ _ _ _ _ I H) as [-> _]. rewrite app_nil_r. constructor; cbn; try done.
    intros j Hj. destruct (fm_act _ _ j _ _ (JSelf w) I H) as [A B]; [done|cbn; lia|]. rewrite B. specialize (F2 j Hj). rewrite A in F2.
    rewrite <- F2. cbn [todo]. rewrite F1 in H0 by done. by rewrite (proj2 (Nat.leb_gt i j)) by lia.
  - apply (fair_keep s); cbn; try done. intros j. rewrite fm_snoc by done. erewrite fm_set; [done|eassumption|done|by destruct (final s)].
  - apply (fair_keep s); cbn; try done. intros j. erewrite fm_set; [done|eassumption|done|by destruct (final s)].
  - pose proof F as [F1 F2 F3 F4]. pose proof (early_nil _ _ _ _ I H) as R. constructor; cbn.
    + intros P. rewrite attached_app, (F1 P). cbn. lia.
    + intros j. rewrite attached_app, outs_app, results_app. cbn. rewrite Nat.add_0_r, app_nil_r. intros Hj.
      destruct (fm_act _ _ j _ _ (JBcast w (Err e)) I H) as [A B]; [done|cbn; lia|]. rewrite B. specialize (F2 j Hj). rewrite A in F2. cbn in F2.
      rewrite app_nil_r in F2. by rewrite F2.
    + intros j. rewrite attached_app, outs_app. cbn. rewrite Nat.add_0_r. intros Hj. by rewrite F3.
    + done.
  - pose proof F as [F1 F2 F3 F4]. pose proof (early_nil _ _ _ _ I H) as R. constructor; cbn.
    + intros P. rewrite attached_app, (F1 P). cbn. lia.
    + intros j. rewrite attached_app, outs_app, results_app. cbn. rewrite Nat.add_0_r, app_nil_r. intros Hj.
      destruct (fm_act _ _ j _ _ (JBcast w (Val v)) I H) as [A B]; [done|cbn; lia|]. rewrite B. specialize (F2 j Hj). rewrite A in F2. cbn in F2.
      rewrite app_nil_r in F2. by rewrite F2.
    + intros j. rewrite attached_app, outs_app. cbn. rewrite Nat.add_0_r. intros Hj. by rewrite F3.
    + done.
Qed.

(** senders, closing, undefined behaviour *)
Lemma dropped_app a b : dropped (a ++ b) = dropped a + dropped b.
Proof. unfold dropped. by rewrite flat_map_app, app_length. Qed.
Lemma ended_app a b : ended (a ++ b) = ended a + ended b.
Proof. unfold ended. by rewrite flat_map_app, app_length. Qed.
Lemma handed_app a b : handed (a ++ b) = handed a ++ handed b.
Proof. apply flat_map_app. Qed.
Lemma calls_app a b : calls (a ++ b) = calls a ++ calls b.
Proof. apply List.filter_app. Qed.
Lemma nf_open c s k p : inv c s -> jobs s !! k = Some p -> nf p = 1 -> final s = false.
Proof.
  intros I Hk Hp. destruct (final s) eqn:F; [|done]. destruct (i_fin _ _ I F) as (_ & N & _). pose proof (cnt_le nf _ _ _ Hk). lia.
Qed.
Lemma final_proc c s k : inv c s -> jobs s !! k = Some JFinal -> final s = true /\ proc s = true.
Proof.
  intros I Hk. pose proof (cnt_le jf _ _ _ Hk) as N. cbn in N. destruct (final s) eqn:F.
  - split; [done|]. destruct (i_fin _ _ I F) as (A & _). destruct (proc s); [done|]. cbn in A. lia.
  - destruct (i_open _ _ I F). lia.
Qed.
Definition drops (s : st) (tr : list event) : Prop := dropped tr = match scount s with 0 => 1 | _ => 0 end.
Lemma drops_step c s tr l s' e : drops s tr -> step c s l = Some (s', e) -> drops s' (tr ++ e).
Proof.
  unfold drops. intros D H%step_move. rewrite dropped_app, D.
  destruct H; cbn; try lia; destruct (scount s); cbn; lia.
Qed.
Definition over (s : st) (tr : list event) : Prop := ended tr = b2n (negb (proc s)) /\ ~ In Ub tr.
Lemma over_step c s tr l s' e : inv c s -> over s tr -> step c s l = Some (s', e) -> over s' (tr ++ e).
Proof.
  unfold over. intros I [D U] H%step_move. rewrite ended_app, D. split.
  - destruct H; cbn; try lia. destruct (final_proc _ _ _ I H) as [_ ->]. done.
  - intros [|HI]%in_app_or; [done|]. pose proof (i_tm _ _ I) as Tm.
    destruct H; cbn in HI; repeat destruct HI as [HI|HI]; try done.
    all: try (pose proof (nf_open _ _ _ _ I H eq_refl) as F; destruct (i_open _ _ I F); congruence).
    + destruct (send_down _ _ _ _ _ _ _ I H). lia.
    + apply (cnt_le tm) in H. cbn in H. lia.
Qed.
Definition told (c : conf) (s : st) (tr : list event) : Prop :=
  final s = true -> has_close c = true -> exists t1 t2, tr = t1 ++ Begin (CClose true) :: t2 /\ dropped t1 = 1 /\ handed t2 = [].
Lemma told_step c s tr l s' e : inv c s -> drops s tr -> told c s tr -> step c s l = Some (s', e) -> told c s' (tr ++ e).
Proof.
  unfold told. intros I D T H%step_move F C.
  assert (K : forall e, final s = true -> handed e = [] ->
     exists t1 t2, tr ++ e = t1 ++ Begin (CClose true) :: t2 /\ dropped t1 = 1 /\ handed t2 = []).
  { clear -T C. intros e F He. destruct (T F C) as (t1 & t2 & -> & D1 & D2). exists t1, (t2 ++ e).
    rewrite <- app_assoc. rewrite handed_app, D2, He. done. }
  destruct H; cbn in F; try (apply K; cbn; done).
  all: try (pose proof (nf_open _ _ _ _ I H eq_refl); congruence).
  exists tr, []. split; [done|]. split; [|done].
  pose proof (i_lin _ _ I) as L. rewrite F in L. unfold pos in L. rewrite D. destruct (scount s); [done|]. cbn in L. lia.
Qed.

Lemma act_unique c s k p x : inv c s -> jobs s !! k = Some p -> x ∈ jobs s -> ha p = 1 -> ha x = 1 -> x = p.
Proof.
  intros I Hk [j Hj]%elem_of_list_lookup Hp Hx. pose proof (i_act _ _ I) as A. rewrite <- ha_cnt in A.
  destruct (decide (k = j)) as [->|N]; [congruence|]. pose proof (cnt_two ha _ _ _ _ _ Hk Hj N). lia.
Qed.
Lemma in_set (js : list pc) (k : nat) (p q x : pc) : js !! k = Some p -> x ∈ js -> x <> p -> x ∈ <[k := q]> js.
Proof.
  intros Hk [j Hj]%elem_of_list_lookup N. apply elem_of_list_lookup. exists j.
  destruct (decide (k = j)) as [->|M]; [congruence|]. by rewrite list_lookup_insert_ne.
Qed.
Lemma in_new (js : list pc) (k : nat) (p q : pc) : js !! k = Some p -> q ∈ <[k := q]> js.
Proof. intros Hk. apply elem_of_list_lookup. exists k. apply list_lookup_insert, (lookup_lt_Some _ _ _ Hk). Qed.
Lemma in_del (js : list pc) (k : nat) (p x : pc) : js !! k = Some p -> x ∈ js -> x <> p -> x ∈ delete k js.
Proof.
  revert k; induction js as [|r js IH]; intros [|k] Hk Hx N; simplify_eq/=.
  - by apply elem_of_cons in Hx as [|].
  - apply elem_of_cons in Hx as [->|]; apply elem_of_cons; [by left|right]. by apply IH.
Qed.
Lemma stays_mono a b : stays_open a -> stays_open (a ++ b).
Proof.
  intros (t1 & t2 & p & t3 & -> & C & H). exists t1, t2, p, (t3 ++ b). split; [by rewrite <- app_assoc; cbn; rewrite <- app_assoc|]. split; [done|].
  destruct H as [|(e & t4 & ->)]; [by left|right; by exists e, (t4 ++ b)].
Qed.
Definition ending (c : conf) (s : st) (tr : list event) : Prop :=
  final s = true -> has_close c = true -> proc s = true ->
    stays_open tr \/
    (JCall Step (CClose true) ∈ jobs s /\ exists t1 t2, tr = t1 ++ Begin (CClose true) :: t2 /\ calls t2 = []) \/
    (JDecide ∈ jobs s /\ pst s = (Await, Forever)) \/ JDone ∈ jobs s \/ JFinal ∈ jobs s.
Global Instance msg_eq : EqDecision msg. Proof. solve_decision. Defined.
Global Instance call_eq : EqDecision call. Proof. solve_decision. Defined.
Global Instance mode_eq : EqDecision mode. Proof. solve_decision. Defined.
Global Instance dur_eq : EqDecision dur. Proof. solve_decision. Defined.
Global Instance why_eq : EqDecision why. Proof. solve_decision. Defined.
Global Instance pc_eq : EqDecision pc. Proof. solve_decision. Defined.
(** a job that is not the one that moves stays *)
Lemma other_stays c s l s' e x : move c s l s' e -> x ∈ jobs s -> x ∈ jobs s' \/ exists k, jobs s !! k = Some x /\ (match l with LJob j _ | LRet j _ => j = k | _ => False end).
Proof.
  intros H Hx. destruct H; cbn; auto.
  all: try (left; apply elem_of_app; by left).
  all: try match goal with
       | H : jobs ?s !! ?k = Some ?p, Hx : ?x ∈ jobs ?s |- _ =>
         destruct (decide (jobs s !! k = Some x)) as [E|N]; [by right; exists k|left];
         assert (x <> p) by (intros ->; done)
       end.
  all: try (by eapply in_set). all: try (by eapply in_del).
  all: apply elem_of_app; left. all: try (by eapply in_set). all: try (by eapply in_del).
Qed.
Lemma quiet_move c s l s' e : inv c s -> move c s l s' e ->
  calls e = [] /\ pst s' = pst s \/ exists k p, jobs s !! k = Some p /\ ha p = 1 /\ (match l with LJob j _ | LRet j _ => j = k | _ => False end) /\ calls e <> [].
Proof.
  intros I H. pose proof (i_tm _ _ I) as Tm. destruct H; cbn; auto.
  all: try (right; eexists _, _; split; [eassumption|]; split; [done|]; split; [done|]; done).
  apply (cnt_le tm) in H. cbn in H. lia.
Qed.
Lemma ending_step c s tr l s' e : inv c s -> ending c s tr -> step c s l = Some (s', e) -> ending c s' (tr ++ e).
Proof.
  unfold ending. intros I E H%step_move F C P. destruct (final s) eqn:Fs.
  - assert (Ps : proc s = true) by (by destruct H).
    destruct (E eq_refl C Ps) as [S|[[J (t1 & t2 & T1 & T2)]|[[J Q]|[J|J]]]].
    + left. by apply stays_mono.
    + destruct (quiet_move _ _ _ _ _ I H) as [[Q Qp]|(k & p & Hk & Hp & Hl & Q)].
      * destruct (other_stays _ _ _ _ _ _ H J) as [J'|(k & Hk & Hl)].
        -- right; left. split; [done|]. exists t1, (t2 ++ e). rewrite T1, <- app_assoc, calls_app, T2, Q. done.
        -- exfalso. destruct H; cbn in *; subst; try done; simplify_eq; try done. all: destruct H0; simplify_eq.
      * pose proof (act_unique _ _ _ _ _ I Hk J Hp eq_refl) as <-.
        destruct H; cbn in *; subst; simplify_eq.
        -- left. exists t1, t2, p, [Result (Err e)]. split; [by rewrite <- app_assoc|]. split; [done|]. right. by exists (Err e), [].
        -- destruct (decide ((p : mode * dur) = (Await, Forever))) as [->|N].
           ++ right; right; left. split; [by eapply in_new|done].
           ++ left. exists t1, t2, p, []. split; [by rewrite <- app_assoc|]. split; [done|]. by left.
    + destruct (quiet_move _ _ _ _ _ I H) as [[Q1 Qp]|(k & p & Hk & Hp & Hl & Q1)].
      * destruct (other_stays _ _ _ _ _ _ H J) as [J'|(k & Hk & Hl)]; [right; right; left; by rewrite Qp|].
        destruct H; cbn in *; subst; simplify_eq; try done; try (rewrite Q in *; done).
        -- destruct H0; simplify_eq.
        -- right; right; right; left. by eapply in_new.
      * pose proof (act_unique _ _ _ _ _ I Hk J Hp eq_refl) as <-.
        destruct H; cbn in *; subst; simplify_eq; try done. destruct H0; congruence.
    + destruct (other_stays _ _ _ _ _ _ H J) as [J'|(k & Hk & Hl)]; [right; right; right; by left|].
      destruct H; cbn in *; subst; simplify_eq; try done.
      * destruct H0; simplify_eq.
      * right; right; right; right. rewrite Fs. apply elem_of_app. left. by eapply in_new.
      * right; right; right; right. rewrite Fs. by eapply in_new.
    + destruct (other_stays _ _ _ _ _ _ H J) as [J'|(k & Hk & Hl)]; [right; right; right; by right|].
      destruct H; cbn in *; subst; simplify_eq; try done. destruct H0; simplify_eq.
  - destruct H; cbn in F; try congruence. right; left. split; [by eapply in_new|]. by exists tr, [].
Qed.
