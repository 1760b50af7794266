From Coq Require Import ZArith List Bool Lia.
From stdpp Require Import list list_numbers.
From Verif.Lib Require Import Perm.
From Verif.Executor Require Import Queue QueueProof Pool PoolProof PoolInv.

Lemma elem_ins {A} (l : list A) c x y z : l !! c = Some z -> z <> y -> y ∈ l -> y ∈ <[c := x]> l.
Proof.
  intros H N [i Hi]%elem_of_list_lookup_1. apply elem_of_list_lookup_2 with i. rewrite list_lookup_insert_ne; [done|congruence].
Qed.
Lemma elem_new {A} (l : list A) c x z : l !! c = Some z -> x ∈ <[c := x]> l.
Proof. intros H. apply elem_of_list_lookup_2 with c. apply list_lookup_insert. by eapply lookup_lt_Some. Qed.
Lemma elem_del {A} (l : list A) c y z : l !! c = Some z -> z <> y -> y ∈ l -> y ∈ del c l.
Proof.
  intros H N Hy. rewrite <- (take_drop_middle _ _ _ H) in Hy. unfold del.
  apply elem_of_app in Hy as [?|[?|?]%elem_of_cons]; apply elem_of_app; auto. congruence.
Qed.

(** ** tasks pushed before join() *)
Record erl (tr : list event) (s : st) : Prop := {
  e_idle : jn s = JIdle -> early s = pushes tr;
  e_where : forall t, t ∈ early s -> t ∈ starts tr \/ exists i q, qs s !! i = Some q /\ t ∈ q_tasks q /\ ws s !! i <> Some Exited
}.
Lemma keep_q (qq : list (nq nat)) i j q1 q t : qq !! j = Some q1 -> qq !! i = Some q -> t ∈ q_tasks q ->
  forall q2, q_tasks q2 = q_tasks q1 -> exists q', <[j := q2]> qq !! i = Some q' /\ t ∈ q_tasks q'.
Proof.
  intros Hj Hi Ht q2 E. destruct (decide (j = i)) as [->|].
  - exists q2. rewrite list_lookup_insert by (by eapply lookup_lt_Some). split; [done|]. rewrite E. congruence.
  - exists q. by rewrite list_lookup_insert_ne.
Qed.
Lemma keep_pop (qq : list (nq nat)) i j q1 q t k x q2 : qq !! j = Some q1 -> qq !! i = Some q -> t ∈ q_tasks q ->
  pop_at k q1 = Some (x, q2) -> t = x \/ exists q', <[j := q2]> qq !! i = Some q' /\ t ∈ q_tasks q'.
Proof.
  intros Hj Hi Ht P. apply pop_tasks in P. destruct (decide (j = i)) as [->|].
  - assert (q1 = q) as -> by congruence. rewrite P in Ht. apply elem_of_cons in Ht as [?|?]; [auto|right].
    exists q2. rewrite list_lookup_insert by (by eapply lookup_lt_Some). auto.
  - right. exists q. by rewrite list_lookup_insert_ne.
Qed.

Lemma track s l s' e i q t : step s l = Some (s', e) -> qs s !! i = Some q -> t ∈ q_tasks q ->
  t ∈ starts e \/ (exists q', qs s' !! i = Some q' /\ t ∈ q_tasks q') \/ jn s' = JReturned.
Proof.
  intros H%step_t Hq Ht. destruct H; notify_cases; simpl in *; eauto;
    try (right; left; eapply keep_q; eauto; done);
    try (match goal with P : pop_at _ _ = Some _ |- _ => eapply keep_pop in P; [|eassumption..]; destruct P as [->|?]; [left; by left|by eauto] end).
  - right. left. destruct (decide (j = i)) as [->|]; [|exists q; by rewrite list_lookup_insert_ne].
    exists (push p t0 q0). rewrite list_lookup_insert by (by eapply lookup_lt_Some). split; [done|].
    rewrite q_tasks_push. apply elem_of_app. left. congruence.
  - right. left. eapply keep_q; eauto. destruct H1 as [[_ ->]|[_ ->]]; done.
  - destruct (decide (i0 = i)) as [->|]; [|right; left; exists q; by rewrite list_lookup_insert_ne].
    apply pop_tasks in H2. rewrite q_tasks_w in H2. assert (q0 = q) as -> by congruence. rewrite H2 in Ht.
    apply elem_of_cons in Ht as [->|Ht]; [left; by left|].
    right. left. exists q'. rewrite list_lookup_insert by (by eapply lookup_lt_Some). done.
Qed.
Lemma no_exit s l s' e i q t : step s l = Some (s', e) -> qs s !! i = Some q -> t ∈ q_tasks q ->
  ws s !! i <> Some Exited -> ws s' !! i <> Some Exited.
Proof.
  intros H%step_t Hq Ht N. destruct H; notify_cases; simpl in *; try assumption; intros Hi; lk; try congruence; try done; try solve_notify.
  subst. assert (q0 = q) as -> by congruence. unfold q_tasks in Ht. rewrite H2 in Ht. by apply elem_of_nil in Ht.
Qed.
Lemma early_step s l s' e t : step s l = Some (s', e) -> t ∈ early s' ->
  t ∈ early s \/ (jn s = JIdle /\ exists i q', qs s' !! i = Some q' /\ t ∈ q_tasks q').
Proof.
  intros H%step_t. destruct H; notify_cases; simpl in *; intros Ht; auto. unfold no_join in Ht. destruct (jn s); simpl in Ht; auto.
  apply elem_of_app in Ht as [?| ->%elem_of_list_singleton]; auto. right. split; [done|]. exists j, (push p t0 q).
  rewrite list_lookup_insert by (by eapply lookup_lt_Some). split; [done|]. rewrite q_tasks_push. apply elem_of_app. right. by left.
Qed.

Lemma step_erl c m tr s l s' e : shape c m s -> ord c m s -> erl tr s -> step s l = Some (s', e) -> erl (tr ++ e) s'.
Proof.
  intros HS HO [E1 E2] H. pose proof (step_ord _ _ _ _ _ _ HS HO H) as HO'. pose proof (step_shape _ _ _ _ _ _ HS H) as HS'. constructor.
  - intros J'. assert (jn s = JIdle) as J.
    { assert (l = Join \/ l <> Join) as [->|N] by (destruct l; auto).
      - exfalso. apply step_t in H. inversion H; subst; simpl in *; congruence.
      - by rewrite (frame_j _ _ _ _ H N) in J'. }
    specialize (E1 J). rewrite pushes_app. apply step_t in H. destruct H; simpl in *; rewrite ?app_nil_r; try done; notify_cases; simpl; try done.
    unfold no_join. rewrite J. by rewrite E1.
  - intros t Ht. rewrite starts_app, elem_of_app. destruct (early_step _ _ _ _ _ H Ht) as [Ht'|(J & i & q' & Hq & Hq')].
    + destruct (E2 t Ht') as [?|(i & q & Hq & Htq & Hw)]; [auto|].
      destruct (track _ _ _ _ _ _ _ H Hq Htq) as [?|[(q' & ? & ?)|J]]; [auto| |].
      * right. exists i, q'. eauto using no_exit.
      * exfalso. pose proof (no_exit _ _ _ _ _ _ _ H Hq Htq Hw) as N. apply N.
        destruct (lookup_lt_is_Some_2 (ws s') i) as [p Hp].
        { apply lookup_lt_Some in Hq. pose proof (sh_qs _ _ _ HS) as L. rewrite (sh_ws _ _ _ HS'). destruct (jn s); lia. }
        rewrite Hp. f_equal. eapply (o_thr _ _ _ HO'); eauto. by rewrite J.
    + right. exists i, q'. split_and!; auto. intros Hw.
      assert (jn s' = JIdle \/ jn s' <> JIdle) as [J'|J'] by (destruct (jn s'); auto).
      * pose proof (o_exit _ _ _ HO' _ _ Hw Hq). destruct (o_idle _ _ _ HO' J') as [A _]. rewrite (A _ _ Hq) in *. done.
      * assert (l = Join) as -> by (destruct l; auto; destruct J'; rewrite <- J; eapply frame_j; eauto; done).
        apply step_t in H. inversion H; subst; simpl in *; try congruence.
        pose proof (o_exit _ _ _ HO _ _ Hw Hq). destruct (o_idle _ _ _ HO J) as [A _]. rewrite (A _ _ Hq) in *. done.
Qed.
Lemma init_erl c m : erl [] (init c m).
Proof. constructor; simpl; [done|]. intros t []%elem_of_nil. Qed.

(** ** who is parked, and why *)
Record park (s : st) : Prop := {
  p_w : forall i, ws s !! i = Some (Wait false) ->
    (exists q, qs s !! i = Some q /\ items q = [] /\ done q = false /\ waiting q = true) \/ Notify i ∈ calls s \/ jn s = JNote i;
  p_e : forall i, es s !! i = Some (EWait false) ->
    (exists w, wt s !! i = Some w /\ w_done w = false /\ w_waiting w = true) \/ NotifyW i ∈ calls s \/ jn s = JWNote i
}.
Lemma pop_nil {A} k (q : nq A) r : items q = [] -> pop_at k q = Some r -> False.
Proof. unfold pop_at. intros ->. done. Qed.
Lemma notified_w (w l : list wpc) i j : (forall j, w !! j = match l !! j with Some (Wait b) => Some (Wait (if decide (i = j) then true else b)) | x => x end) ->
  w !! j = Some (Wait false) -> i <> j /\ l !! j = Some (Wait false).
Proof. intros H. rewrite H. destruct (l !! j) as [[]|]; try done. case_decide; [done|]. auto. Qed.
Lemma notified_e (w l : list epc) i j : (forall j, w !! j = match l !! j with Some (EWait b) => Some (EWait (if decide (i = j) then true else b)) | x => x end) ->
  w !! j = Some (EWait false) -> i <> j /\ l !! j = Some (EWait false).
Proof. intros H. rewrite H. destruct (l !! j) as [[]|]; try done. case_decide; [done|]. auto. Qed.

Ltac calls_in := right; left; first
  [ assumption | apply elem_of_app; left; assumption
  | eapply elem_ins; [eassumption|congruence|assumption]
  | eapply elem_del; [eassumption|congruence|assumption]
  | eapply elem_new; eassumption ].
Lemma step_park_w c m s l s' e : shape c m s -> ord c m s -> park s -> step s l = Some (s', e) ->
  forall i, ws s' !! i = Some (Wait false) ->
    (exists q, qs s' !! i = Some q /\ items q = [] /\ done q = false /\ waiting q = true) \/ Notify i ∈ calls s' \/ jn s' = JNote i.
Proof.
  intros HS HO [P _] H%step_t i. destruct H; notify_cases; simpl in *; intros Hi; auto; lk; try discriminate;
    repeat match goal with
    | H : (forall j, ?w !! j = match ws s !! j with _ => _ end), Hi : ?w !! i = Some (Wait false) |- _ => apply (notified_w _ _ _ _ H) in Hi as [? Hi]
    end;
  try match goal with
    | Hi : ws s !! i = Some (Wait false) |- _ => destruct (P i Hi) as [(q9 & Hq & A & B & C)|[Hn|Hj]]
    end; try (calls_in; fail); try (right; right; congruence); try (left; exists q9; split_and!; by auto); try (exfalso; congruence);
  repeat match goal with
    | |- context [<[?j := ?x]> (qs s) !! i] => destruct (decide (j = i)) as [->|]; [|rewrite (list_lookup_insert_ne (qs s)) by done; left; exists q9; split_and!; by auto]
    end.

  - calls_in.
  - destruct H0 as [[-> _]|[-> _]]; calls_in.
  - calls_in.
  - exfalso. assert (q = q9) as -> by congruence. by apply pop_nil in H2.
  - subst. left. exists q1. rewrite list_lookup_insert by (by eapply lookup_lt_Some). destruct H1 as [[_ ->]|[_ ->]]; done.
  - congruence.
  - congruence.
  - destruct H1; congruence.
  - destruct H1; congruence.
  - exfalso. assert (q = q9) as -> by congruence. by apply pop_nil in H2.
  - auto.
  - exfalso. destruct HS as [Hc H4 H5 H6 H7 H8 H9 H10 H11]. rewrite H in *. 
    discriminate (o_thr _ _ _ HO i _ Hi). rewrite H. simpl. apply lookup_lt_Some in Hi. lia.
Qed.
Lemma step_park_e c m s l s' e : shape c m s -> ord c m s -> park s -> step s l = Some (s', e) ->
  forall i, es s' !! i = Some (EWait false) ->
    (exists w, wt s' !! i = Some w /\ w_done w = false /\ w_waiting w = true) \/ NotifyW i ∈ calls s' \/ jn s' = JWNote i.
Proof.
  intros HS HO [_ P] H%step_t i. destruct H; notify_cases; simpl in *; intros Hi; auto; lk; try discriminate;
    repeat match goal with
    | H : (forall j, ?w !! j = match es s !! j with _ => _ end), Hi : ?w !! i = Some (EWait false) |- _ => apply (notified_e _ _ _ _ H) in Hi as [? Hi]
    end;
  try match goal with
    | Hi : es s !! i = Some (EWait false) |- _ => destruct (P i Hi) as [(q9 & Hq & A & B)|[Hn|Hj]]
    end; try (calls_in; fail); try (right; right; congruence); try (left; exists q9; split_and!; by auto); try (exfalso; congruence);
  repeat match goal with
    | |- context [<[?j := ?x]> (wt s) !! i] => destruct (decide (j = i)) as [->|]; [|rewrite (list_lookup_insert_ne (wt s)) by done; left; exists q9; split_and!; by auto]
    end; try (destruct H0 as [[-> _]|[-> _]]; calls_in; fail); try calls_in; try congruence; try (right; right; done).
  - subst. left. exists w1. rewrite list_lookup_insert by (by eapply lookup_lt_Some). destruct H1 as [[_ ->]|[_ ->]]; done.
Qed.
Lemma step_park c m s l s' e : shape c m s -> ord c m s -> park s -> step s l = Some (s', e) -> park s'.
Proof. intros HS HO HP H. constructor; [eapply step_park_w|eapply step_park_e]; eauto. Qed.
Lemma init_park c m : park (init c m).
Proof. constructor; simpl; [|done]. intros i H. by apply lookup_replicate in H as [? _]. Qed.

(** ** all together *)
Record inv (c m : nat) (tr : list event) (s : st) : Prop := {
  i_shape : shape c m s; i_flow : flow tr s; i_ord : ord c m s; i_erl : erl tr s; i_park : park s
}.
Lemma step_inv c m tr s l s' e : inv c m tr s -> step s l = Some (s', e) -> inv c m (tr ++ e) s'.
Proof. intros [A B C D E] H. constructor; eauto using step_shape, step_flow, step_ord, step_erl, step_park. Qed.
Lemma init_inv c m : 0 < c -> inv c m [] (init c m).
Proof. intros. constructor; auto using init_shape, init_flow, init_ord, init_erl, init_park. Qed.
Lemma run_inv c m ls : forall tr s s' e, inv c m tr s -> run s ls = Some (s', e) -> inv c m (tr ++ e) s'.
Proof.
  induction ls as [|l ls IH]; simpl; intros tr s s' e H R.
  - injection R as <- <-. by rewrite app_nil_r.
  - destruct (step s l) as [[s1 e1]|] eqn:E; [|done]. destruct (run s1 ls) as [[s2 e2]|] eqn:R'; [|done]. injection R as <- <-.
    rewrite app_assoc. eapply IH; [|exact R']. eapply step_inv; eauto.
Qed.
Lemma reach_inv c m ls s tr : 0 < c -> run (init c m) ls = Some (s, tr) -> inv c m tr s.
Proof. intros Hc R. apply (run_inv c m ls [] _ _ _ (init_inv c m Hc) R). Qed.
