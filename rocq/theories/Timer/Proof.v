From Coq Require Import ZArith List Bool Lia.
From stdpp Require Import list sets.
From Verif.Timer Require Import Model.
Open Scope Z_scope.

Section proof.
Context {A : Type}.
Implicit Types (s : st A) (l : label A) (es : list event).

Definition starts es : list nat := omap (fun x => match x with Started i _ => Some i | _ => None end) es.
Definition submits es : list nat := omap (fun x => match x with Submitted i _ _ => Some i | _ => None end) es.

Lemma starts_app a b : starts (a ++ b) = starts a ++ starts b. Proof. apply omap_app. Qed.
Lemma submits_app a b : submits (a ++ b) = submits a ++ submits b. Proof. apply omap_app. Qed.
Lemma elem_of_starts i es : i ∈ starts es <-> exists t, Started i t ∈ es.
Proof.
  unfold starts. rewrite elem_of_list_omap. split.
  - intros ([]&H1&H2); try discriminate. injection H2 as ->. eauto.
  - intros [t H]. exists (Started i t). auto.
Qed.
Lemma elem_of_submits i es : i ∈ submits es <-> exists d t, Submitted i d t ∈ es.
Proof.
  unfold submits. rewrite elem_of_list_omap. split.
  - intros ([]&H1&H2); try discriminate. injection H2 as ->. eauto.
  - intros (d&t&H). exists (Submitted i d t). auto.
Qed.

Definition ordered es : Prop := forall es1 a t es2, es = es1 ++ Started a t :: es2 ->
  exists da ta, Submitted a da ta ∈ es1 /\ da <= t /\
    (forall b db tb, Submitted b db tb ∈ es1 -> b ∉ starts es1 -> da <= db).
Definition halted es : Prop := forall es1 es2, es = es1 ++ Stopped :: es2 -> starts es2 = [].

Record inv es s : Prop := {
  i_nodup : NoDup (starts es);
  i_sub : submits es = seq 0 (next s);
  i_queue : NoDup (ident <$> queue s);
  i_entry e : e ∈ queue s -> (exists t, Submitted (ident e) (due e) t ∈ es) /\ ident e ∉ starts es;
  i_task i d t : Submitted i d t ∈ es -> i ∈ starts es \/ exists e, e ∈ queue s /\ ident e = i /\ due e = d;
  i_start i : i ∈ starts es -> i ∈ submits es;
  i_order : ordered es;
  i_halt : halted es;
  i_stop : stop s = true <-> Stopped ∈ es;
  i_wake : match thr s with
           | WaitEmpty false => stop s = false -> queue s = []
           | WaitUntil w n => queue s <> [] /\ (n = false -> stop s = false -> forall e, e ∈ queue s -> w <= due e)
           | Ub => False
           | _ => True
           end
}.

Lemma ordered_snoc es x : ordered es -> (forall a t, x = Started a t -> exists da ta, Submitted a da ta ∈ es /\ da <= t /\
    (forall b db tb, Submitted b db tb ∈ es -> b ∉ starts es -> da <= db)) -> ordered (es ++ [x]).
Proof.
  intros H Hx es1 a t es2 E. destruct (app_eq_inv es [x] es1 (Started a t :: es2)) as [(l&E1&E2)|(l&E1&E2)]; [exact E| |].
  - destruct l as [|y l].
    + simpl in E2. injection E2 as Ex E2. rewrite app_nil_r in E1. subst. apply Hx. auto.
    + injection E2 as <- E2. apply (H es1 a t l). auto.
  - destruct l as [|y l].
    + simpl in E2. injection E2 as Ex E2. rewrite app_nil_r in E1. subst. apply Hx. auto.
    + injection E2 as _ E2. destruct l; discriminate.
Qed.
Lemma halted_snoc es x : halted es -> (Stopped ∈ es -> starts [x] = []) -> halted (es ++ [x]).
Proof.
  intros H Hx es1 es2 E. destruct (app_eq_inv es [x] es1 (Stopped :: es2)) as [(l&E1&E2)|(l&E1&E2)]; [exact E| |].
  - destruct l as [|y l].
    + simpl in E2. injection E2 as Ex E2. subst. auto.
    + injection E2 as <- ->. rewrite starts_app. rewrite (H es1 l) by auto. rewrite Hx; auto. subst. set_solver.
  - destruct l as [|y l].
    + simpl in E2. injection E2 as Ex E2. subst. auto.
    + injection E2 as _ E2. destruct l; discriminate.
Qed.

Lemma minimal_spec d (q : list (entry A)) : minimal d q = true <-> forall e, e ∈ q -> d <= due e.
Proof.
  unfold minimal. rewrite forallb_forall. split; intros H e He.
  - apply Z.leb_le, H, elem_of_list_In, He.
  - apply Z.leb_le, H, elem_of_list_In, He.
Qed.

Lemma inv_quiet es s s' : inv es s -> next s' = next s -> queue s' = queue s -> stop s' = stop s ->
  (match thr s' with
   | WaitEmpty false => stop s = false -> queue s = []
   | WaitUntil w n => queue s <> [] /\ (n = false -> stop s = false -> forall e, e ∈ queue s -> w <= due e)
   | Ub => False
   | _ => True
   end) -> inv es s'.
Proof.
  intros [] E1 E2 E3 H. constructor; rewrite ?E1, ?E2, ?E3; auto.
Qed.

Lemma inv_log es s x : inv es s -> submits [x] = [] -> starts [x] = [] -> x <> Stopped -> inv (es ++ [x]) s.
Proof.
  intros [] Hs Ht Hx. constructor; rewrite ?starts_app, ?submits_app, ?Hs, ?Ht, ?app_nil_r; auto.
  - intros e He. destruct (i_entry0 e He) as [[t H1] H2]. split; auto. exists t. set_solver.
  - intros i d t [H|H%elem_of_list_singleton]%elem_of_app; eauto. rewrite <- H in Hs; discriminate Hs.
  - apply ordered_snoc; auto. intros a t E; rewrite E in Ht; discriminate Ht.
  - apply halted_snoc; auto.
  - rewrite i_stop0. set_solver.
Qed.

Lemma evaluate_inv es s k s' e : inv es s -> (match thr s with Top | WaitEmpty _ | WaitUntil _ _ => True | _ => False end) ->
  evaluate s k = Some (s', e) -> inv (es ++ e) s'.
Proof.
  intros I Hp E. unfold evaluate in E. destruct (stop s) eqn:Es.
  { injection E as <- <-. apply inv_log; auto. eapply inv_quiet; eauto. simpl. auto. }
  destruct (queue s) as [|e0 q0] eqn:Eq.
  { pose proof (i_wake _ _ I) as Hw. destruct (thr s) eqn:Et; try tauto.
    - injection E as <- <-. rewrite app_nil_r. eapply inv_quiet; eauto. simpl. auto.
    - injection E as <- <-. rewrite app_nil_r. eapply inv_quiet; eauto. simpl. auto. }
  rewrite <- Eq in E. destruct (queue s !! k) as [x|] eqn:Ek; [|discriminate].
  destruct (minimal (due x) (queue s)) eqn:Em; [|discriminate].
  pose proof (elem_of_list_lookup_2 _ _ _ Ek) as Hx.
  destruct (Z.ltb_spec (now s) (due x)) as [Hlt|Hge].
  { injection E as <- <-. rewrite app_nil_r. eapply inv_quiet; eauto. simpl. split; [congruence|]. intros _ _. apply minimal_spec, Em. }
  injection E as <- <-. pose proof (proj1 (minimal_spec _ _) Em) as Hmin.
  destruct I. destruct (i_entry0 x Hx) as [[t0 Hsub] Hns].
  assert (Hq : queue s = take k (queue s) ++ x :: drop (S k) (queue s)) by (symmetry; apply take_drop_middle, Ek).
  pose proof i_queue0 as Hnd. rewrite Hq, fmap_app, fmap_cons in Hnd.
  assert (Hsub' : forall e, e ∈ take k (queue s) ++ drop (S k) (queue s) <-> e ∈ queue s /\ ident e <> ident x).
  { intros e. rewrite Hq at 3. rewrite !elem_of_app, elem_of_cons.
    apply NoDup_app in Hnd as (N1&N2&N3). apply NoDup_cons in N3 as [N3 N4].
    split.
    - intros [H|H].
      + split; [auto|]. intros Hi. apply (N2 (ident e)).
        * apply elem_of_list_fmap. eauto.
        * rewrite Hi. left.
      + split; [auto|]. intros Hi. apply N3. rewrite <- Hi. apply elem_of_list_fmap. eauto.
    - intros [[H|[->|H]] Hi]; auto. congruence. }
  constructor; simpl; rewrite ?starts_app, ?submits_app, ?app_nil_r; simpl; auto.
  - apply NoDup_app. split; [auto|]. split; [|apply NoDup_singleton]. intros i Hi ->%elem_of_list_singleton. auto.
  - rewrite fmap_app. apply NoDup_app in Hnd as (N1&N2&N3). apply NoDup_cons in N3 as [N3 N4].
    apply NoDup_app. split; [auto|]. split; [|auto]. intros i Hi Hi2. apply (N2 i Hi). right. auto.
  - intros e [He Hi]%Hsub'. destruct (i_entry0 e He) as [[t H1] H2]. split.
    + exists t. set_solver.
    + rewrite elem_of_app, elem_of_list_singleton. tauto.
  - intros i d t [H|H%elem_of_list_singleton]%elem_of_app; [|discriminate].
    destruct (decide (i = ident x)) as [->|Hi]; [left; set_solver|].
    destruct (i_task0 i d t H) as [H1|(e&H1&H2&H3)]; [left; set_solver|].
    right. exists e. split; [|auto]. apply Hsub'. split; [auto|congruence].
  - intros i [H| ->%elem_of_list_singleton]%elem_of_app; rewrite ?app_nil_r; auto.
    apply elem_of_submits. eauto.
  - apply ordered_snoc; auto. intros a t E. injection E as <- <-. exists (due x), t0. split; [auto|]. split; [auto|].
    intros b db tb Hb Hnb. destruct (i_task0 b db tb Hb) as [H1|(e&H1&H2&H3)]; [tauto|]. subst. auto.
  - apply halted_snoc; auto. intros H. apply i_stop0 in H. congruence.
  - rewrite elem_of_app, elem_of_list_singleton, <- i_stop0. split; [discriminate|]. intros [H|H]; congruence.
Qed.

Lemma step_inv es s l s' e : inv es s -> step s l = Some (s', e) -> inv (es ++ e) s'.
Proof.
  intros I E. destruct l as [n|d a|sp k| | |]; simpl in E.
  - injection E as <- <-. rewrite app_nil_r. eapply inv_quiet; eauto. apply (i_wake _ _ I).
  - injection E as <- <-. destruct I.
    assert (Hns : next s ∉ starts es).
    { intros H%i_start0. rewrite i_sub0 in H. apply elem_of_seq in H. lia. }
    constructor; simpl; rewrite ?starts_app, ?submits_app; simpl; rewrite ?app_nil_r; auto.
    + rewrite i_sub0. rewrite <- seq_S. auto.
    + rewrite fmap_app. apply NoDup_app. split; [auto|]. split; [|apply NoDup_singleton].
      intros i (e&E&He)%elem_of_list_fmap Hi%elem_of_list_singleton; simpl in Hi; rewrite E in Hi; clear E.
      destruct (i_entry0 e He) as [[t H] _]. assert (H1 : ident e ∈ submits es) by (apply elem_of_submits; eauto).
      rewrite i_sub0 in H1. apply elem_of_seq in H1. simpl in *. lia.
    + intros e [He| ->%elem_of_list_singleton]%elem_of_app.
      * destruct (i_entry0 e He) as [[t H1] H2]. split; auto. exists t. set_solver.
      * simpl. split; auto. exists (now s). set_solver.
    + intros i d' t [H|H%elem_of_list_singleton]%elem_of_app.
      * destruct (i_task0 i d' t H) as [H1|(e&H1&H2)]; auto. right. exists e. split; [set_solver|auto].
      * injection H as -> -> ->. right. eexists. split; [apply elem_of_app; right; apply elem_of_list_singleton; reflexivity|]. auto.
    + intros i H. apply elem_of_app. left. auto.
    + apply ordered_snoc; auto. intros a' t E. discriminate.
    + apply halted_snoc; auto.
    + rewrite i_stop0. set_solver.
    + destruct (thr s); simpl in *; auto. split; [|discriminate].
      intros H. apply (f_equal length) in H. rewrite app_length in H. simpl in H. lia.
  - destruct (thr s) eqn:Et; try discriminate.
    + eapply evaluate_inv; eauto. rewrite Et. auto.
    + destruct (_ || _); [|discriminate]. eapply evaluate_inv; eauto. rewrite Et. auto.
    + destruct (_ || _); [|discriminate]. eapply evaluate_inv; eauto. rewrite Et. auto.
  - destruct (thr s) eqn:Et; try discriminate. injection E as <- <-. apply inv_log; auto.
    eapply inv_quiet; eauto. simpl. auto.
  - destruct (stop s) eqn:Es; [discriminate|]. injection E as <- <-. destruct I.
    constructor; simpl; rewrite ?starts_app, ?submits_app; simpl; rewrite ?app_nil_r; auto.
    + intros e He. destruct (i_entry0 e He) as [[t H1] H2]. split; auto. exists t. set_solver.
    + intros i d t [H|H%elem_of_list_singleton]%elem_of_app; eauto. discriminate.
    + apply ordered_snoc; auto. intros a t E. discriminate.
    + apply halted_snoc; auto.
    + split; [|auto]. intros _. set_solver.
    + destruct (thr s) as [|[]|w n| | |]; try (intros; discriminate); auto. destruct i_wake0. split; [auto|]. intros; discriminate.
  - destruct (stop s) eqn:Es; [|discriminate]. injection E as <- <-. rewrite app_nil_r. eapply inv_quiet; eauto. simpl.
    pose proof (i_wake _ _ I) as Hw. destruct (thr s) as [|[]|w n| | |]; simpl; auto. destruct Hw. split; [auto|discriminate].
Qed.

Lemma run_inv ls : forall es s s' e, inv es s -> run s ls = Some (s', e) -> inv (es ++ e) s'.
Proof.
  induction ls as [|l ls IH]; intros es s s' e I E; simpl in E.
  - injection E as <- <-. rewrite app_nil_r. auto.
  - destruct (step s l) as [[s1 e1]|] eqn:E1; [|discriminate]. destruct (run s1 ls) as [[s2 e2]|] eqn:E2; [|discriminate].
    injection E as <- <-. rewrite app_assoc. eapply IH; [|exact E2]. eapply step_inv; eauto.
Qed.

Lemma init_inv t : inv [] (init t : st A).
Proof.
  constructor; simpl; auto; try (apply NoDup_nil; auto); try (intros; set_solver).
  - intros es1 a t' es2 E. destruct es1; discriminate.
  - intros es1 es2 E. destruct es1; discriminate.
Qed.

Lemma reach_inv t ls s es : run (init t) ls = Some (s, es) -> inv es s.
Proof. apply (run_inv ls [] (init t)), init_inv. Qed.

(** ** final statements *)
Lemma never_early t ls s es es1 i t' es2 : run (init t : st A) ls = Some (s, es) -> es = es1 ++ Started i t' :: es2 ->
  exists d ts, Submitted i d ts ∈ es1 /\ d <= t'.
Proof. intros R E. destruct (i_order _ _ (reach_inv _ _ _ _ R) _ _ _ _ E) as (d&ts&H1&H2&_). eauto. Qed.

Lemma submit_unique t ls s es i d1 t1 d2 t2 : run (init t : st A) ls = Some (s, es) ->
  Submitted i d1 t1 ∈ es -> Submitted i d2 t2 ∈ es -> d1 = d2 /\ t1 = t2.
Proof.
  intros R H1 H2. pose proof (i_sub _ _ (reach_inv _ _ _ _ R)) as Hs.
  assert (Hn : NoDup (submits es)) by (rewrite Hs; apply NoDup_seq).
  clear -H1 H2 Hn. apply elem_of_list_split in H1 as (a&b&->).
  rewrite submits_app in Hn. simpl in Hn. apply NoDup_app in Hn as (N1&N2&N3). apply NoDup_cons in N3 as [N3 N4].
  apply elem_of_app in H2 as [H2|H2].
  - exfalso. apply (N2 i); [apply elem_of_submits; eauto|left].
  - apply elem_of_cons in H2 as [H2|H2]; [injection H2; auto|]. exfalso. apply N3, elem_of_submits. eauto.
Qed.

Lemma submit_unique1 t ls s es i d1 t1 d2 t2 : run (init t : st A) ls = Some (s, es) ->
  Submitted i d1 t1 ∈ es -> Submitted i d2 t2 ∈ es -> d1 = d2.
Proof. intros R H1 H2. eapply submit_unique in R as [R1 R2]; [exact R1|exact H1|exact H2]. Qed.

Lemma due_order t ls s es es1 a ta es2 b da sa db sb : run (init t : st A) ls = Some (s, es) ->
  es = es1 ++ Started a ta :: es2 -> Submitted a da sa ∈ es1 -> Submitted b db sb ∈ es1 -> b ∉ starts es1 -> da <= db.
Proof.
  intros R E Ha Hb Hn. destruct (i_order _ _ (reach_inv _ _ _ _ R) _ _ _ _ E) as (d&ts&H1&H2&H3).
  assert (da = d) as ->; [|eauto].
  eapply submit_unique1; [exact R| |]; rewrite E; apply elem_of_app; left; [exact Ha|exact H1].
Qed.

Lemma once t ls s es : run (init t : st A) ls = Some (s, es) -> NoDup (starts es).
Proof. intros R. apply (i_nodup _ _ (reach_inv _ _ _ _ R)). Qed.

Lemma none_lost t ls s es i d ts : run (init t : st A) ls = Some (s, es) -> Submitted i d ts ∈ es ->
  i ∈ starts es \/ exists e, e ∈ queue s /\ ident e = i /\ due e = d.
Proof. intros R. apply (i_task _ _ (reach_inv _ _ _ _ R)). Qed.

Lemma none_after_stop t ls s es es1 es2 : run (init t : st A) ls = Some (s, es) -> es = es1 ++ Stopped :: es2 -> starts es2 = [].
Proof. intros R. apply (i_halt _ _ (reach_inv _ _ _ _ R)). Qed.

Lemma no_ub t ls s es : run (init t : st A) ls = Some (s, es) -> thr s <> Ub.
Proof. intros R H. pose proof (i_wake _ _ (reach_inv _ _ _ _ R)) as Hw. rewrite H in Hw. auto. Qed.

Lemma min_exists (q : list (entry A)) : q <> [] -> exists k e, q !! k = Some e /\ minimal (due e) q = true.
Proof.
  induction q as [|x q IH]; [congruence|]. intros _. destruct q as [|y q].
  - exists 0%nat, x. split; auto. apply minimal_spec. intros e ->%elem_of_list_singleton. lia.
  - destruct IH as (k&e&H1&H2); [congruence|]. rewrite minimal_spec in H2.
    destruct (Z.le_gt_cases (due x) (due e)) as [H|H].
    + exists 0%nat, x. split; auto. apply minimal_spec. intros e' [->|He]%elem_of_cons; [lia|]. specialize (H2 e' He). lia.
    + exists (S k), e. split; auto. apply minimal_spec. intros e' [->|He]%elem_of_cons; [lia|]. auto.
Qed.

(** A due task, no stop requested, the timer thread not executing a task: the thread can take a step without
    any spurious wake-up, and whatever step it takes starts a task that is due. *)
Lemma prompt t ls s es x : run (init t : st A) ls = Some (s, es) -> stop s = false -> x ∈ queue s -> due x <= now s ->
  (forall e, thr s <> Running e) ->
  (exists k s' e, step s (Check false k) = Some (s', e)) /\
  (forall sp k s' e, step s (Check sp k) = Some (s', e) ->
     exists y, y ∈ queue s /\ thr s' = Running y /\ e = [Started (ident y) (now s)] /\ due y <= due x).
Proof.
  intros R Hs Hx Hd Hr. pose proof (reach_inv _ _ _ _ R) as I. pose proof (i_wake _ _ I) as Hw.
  assert (Hq : queue s <> []) by (destruct (queue s); [set_solver|congruence]).
  assert (Hne : thr s <> Exited).
  { intros He. assert (stop s = true); [|congruence]. clear -R He.
    assert (H : forall ls (s s' : st A) es, run s ls = Some (s', es) -> (thr s = Exited -> stop s = true) -> thr s' = Exited -> stop s' = true).
    { clear. induction ls as [|l ls IH]; intros s s' es E H; simpl in E; [injection E as <- <-; auto|].
      destruct (step s l) as [[s1 e1]|] eqn:E1; [|discriminate]. destruct (run s1 ls) as [[s2 e2]|] eqn:E2; [|discriminate].
      injection E as <- <-. eapply IH; [exact E2|]. clear -E1 H.
      assert (forall s k s' e, evaluate s k = Some (s', e) -> thr s' = Exited -> stop s' = true).
      { clear. intros s k s' e E. unfold evaluate in E. repeat (case_match; try discriminate); injection E as <- <-; simpl; congruence. }
      destruct l; simpl in E1; repeat (case_match; try discriminate); try (injection E1 as <- <-); simpl in *; eauto; try congruence.
      destruct (thr s); simpl in *; auto; congruence. }
    eapply H; [exact R| |exact He]. simpl. discriminate. }
  assert (Hev : forall k s' e, evaluate s k = Some (s', e) -> exists y, y ∈ queue s /\ thr s' = Running y /\ e = [Started (ident y) (now s)] /\ due y <= due x).
  { intros k s' e E. unfold evaluate in E. rewrite Hs in E. destruct (queue s) eqn:Eq; [congruence|]. rewrite <- Eq in *.
    destruct (queue s !! k) as [y|] eqn:Ek; [|discriminate]. destruct (minimal _ _) eqn:Em; [|discriminate].
    rewrite minimal_spec in Em. specialize (Em x Hx). destruct (Z.ltb_spec (now s) (due y)); [lia|].
    injection E as <- <-. exists y. split; [|auto]. eapply elem_of_list_lookup_2. eauto. }
  assert (Hex : exists k s' e, evaluate s k = Some (s', e)).
  { destruct (min_exists _ Hq) as (k&y&H1&H2). exists k. unfold evaluate. rewrite Hs.
    destruct (queue s) eqn:Eq; [congruence|]. rewrite <- Eq in *. rewrite H1, H2. destruct (_ <? _); eauto. }
  destruct Hex as (k&s'&e&Hex). split.
  - exists k, s', e. simpl. destruct (thr s) as [|n|w n|e0| |]; try congruence; try (exfalso; tauto); try (exfalso; apply (Hr e0); reflexivity); auto.
    + destruct n; [auto|]. rewrite Hw in Hq; congruence.
    + destruct n; [auto|]. destruct Hw as [_ Hw]. simpl.
      destruct (Z.leb_spec w (now s)) as [|Hlt]; auto. specialize (Hw eq_refl Hs x Hx). lia.
  - intros sp k' s'' e' E. simpl in E. destruct (thr s) as [|n|w n| | |]; try discriminate; eauto.
    + destruct (_ || _); [eauto|discriminate].
    + destruct (_ || _); [eauto|discriminate].
Qed.

(** While a task stays queued, everything started in the meantime was due no later. *)
Lemma overtaken t ls s es es1 es2 x : run (init t : st A) ls = Some (s, es) -> es = es1 ++ es2 -> x ∈ queue s ->
  ident x ∈ submits es1 -> forall i, i ∈ starts es2 -> exists d ts, Submitted i d ts ∈ es /\ d <= due x.
Proof.
  intros R E Hx H1 i Hi. pose proof (reach_inv _ _ _ _ R) as I.
  apply elem_of_starts in Hi as [t' Hi]. apply elem_of_list_split in Hi as (e1&e2&->).
  destruct (i_order _ _ I (es1 ++ e1) i t' e2) as (d&ts&Hd&Hle&Ho); [rewrite E, <- app_assoc; auto|].
  exists d, ts. split; [rewrite E; set_solver|].
  apply elem_of_submits in H1 as (dx&tx&H1).
  destruct (i_entry _ _ I x Hx) as [[tx' Hx'] Hns].
  assert (dx = due x) as <-.
  { eapply submit_unique1; [exact R| |exact Hx']. rewrite E. apply elem_of_app. left. exact H1. }
  apply (Ho (ident x) dx tx).
  - set_solver.
  - intros H. apply Hns. rewrite E, !starts_app. rewrite starts_app in H. set_solver.
Qed.

(** ** stopping *)
Definition awake (p : pc A) : Prop := match p with WaitEmpty false | WaitUntil _ false => False | _ => True end.
Lemma awake_step s l s' e : stop s = true -> awake (thr s) -> step s l = Some (s', e) -> stop s' = true /\ awake (thr s').
Proof.
  intros Hs Ha E.
  assert (Hev : forall k, evaluate s k = Some (s', e) -> stop s' = true /\ awake (thr s')).
  { intros k Ev. unfold evaluate in Ev. rewrite Hs in Ev. injection Ev as <- <-. simpl. auto. }
  destruct l; simpl in E; repeat (case_match; try discriminate); try (injection E as <- <-); simpl in *; eauto;
    destruct (thr s) as [|[]|? []| | |]; simpl in *; auto.
Qed.
Lemma stop_wakes ls1 ls2 s0 s es : run s0 (ls1 ++ StopNotify :: ls2) = Some (s, es) -> stop s = true /\ awake (thr s).
Proof.
  revert s0 es. induction ls1 as [|l ls1 IH]; intros s0 es E; cbn [app] in E.
  - cbn [run] in E. destruct (step s0 StopNotify) as [[s1 e1]|] eqn:E1; [|discriminate].
    assert (H : stop s1 = true /\ awake (thr s1)).
    { simpl in E1. destruct (stop s0) eqn:Es; [|discriminate]. injection E1 as <- <-. simpl. split; auto.
      destruct (thr s0) as [|[]|? []| | |]; simpl; auto. }
    clear E1. destruct (run s1 ls2) as [[s2 e2]|] eqn:E2; [|discriminate]. injection E as <- <-.
    revert s1 e2 H E2. induction ls2 as [|l ls2 IH]; intros s1 e2 H E2; cbn [run] in E2; [injection E2 as <- <-; auto|].
    destruct (step s1 l) as [[s3 e3]|] eqn:E3; [|discriminate]. destruct (run s3 ls2) as [[s4 e4]|] eqn:E4; [|discriminate].
    injection E2 as <- <-. destruct H. eapply IH; [|exact E4]. eapply awake_step; eauto.
  - cbn [run] in E. destruct (step s0 l) as [[s1 e1]|] eqn:E1; [|discriminate].
    destruct (run s1 _) as [[s2 e2]|] eqn:E2; [|discriminate]. injection E as <- <-. eauto.
Qed.
(** ~system_timer's join returns: once its notify has happened, the thread, unless it is executing a task, can
    take its last step without a spurious wake-up; and any step it takes is that one. *)
Lemma stop_exits t ls1 ls2 s es : run (init t) (ls1 ++ StopNotify :: ls2) = Some (s, es) -> (forall e, thr s <> Running e) ->
  thr s = Exited \/
  ((exists s' e, step s (Check false 0) = Some (s', e)) /\
   forall sp k s' e, step s (Check sp k) = Some (s', e) -> thr s' = Exited).
Proof.
  intros R Hr. destruct (stop_wakes _ _ _ _ _ R) as [Hs Ha]. pose proof (no_ub _ _ _ _ R) as Hu.
  assert (Hev : forall k, evaluate s k = Some (St (now s) (next s) (queue s) true Exited, [ThreadEnded])).
  { intros k. unfold evaluate. rewrite Hs. auto. }
  destruct (thr s) as [|[]|w []| | |] eqn:Et; simpl in Ha; try tauto; try congruence; auto; try (destruct (Hr e); auto; fail);
    right; simpl; rewrite Et; (split; [rewrite ?Hev; eauto|]); intros sp k s' e; rewrite Hev; simpl; intros E; injection E as <- <-; auto.
Qed.
End proof.
