From Coq Require Import Lia.
From stdpp Require Import list list_numbers sets.
From Verif.Serial Require Import Model.

Definition starts (es : list event) : list nat := omap (fun x => match x with Started i => Some i | _ => None end) es.
Definition ends (es : list event) : list nat := omap (fun x => match x with Ended i => Some i | _ => None end) es.
Definition enqs (es : list event) : list nat := omap (fun x => match x with Enqueued i => Some i | _ => None end) es.
Lemma starts_app a b : starts (a ++ b) = starts a ++ starts b. Proof. apply omap_app. Qed.
Lemma ends_app a b : ends (a ++ b) = ends a ++ ends b. Proof. apply omap_app. Qed.
Lemma enqs_app a b : enqs (a ++ b) = enqs a ++ enqs b. Proof. apply omap_app. Qed.

Definition locals (w : list pc) : list nat := w ≫= (fun p => match p with Local l | Run _ l => l | _ => [] end).
Definition active (w : list pc) : list nat := w ≫= (fun p => match p with Run i _ => [i] | _ => [] end).

Record inv (es : list event) (s : st) : Prop := {
  i_token : calling s + jobs s + length (workers s) = if running s then 1 else 0;
  i_idle : running s = false -> queue s = [];
  i_need : (0 < calling s + jobs s \/ Begun ∈ workers s \/ Resubmit ∈ workers s) -> queue s <> [];
  i_ub : Ub ∉ workers s;
  i_fifo : starts es ++ locals (workers s) ++ queue s = seq 0 (next s);
  i_ends : starts es = ends es ++ active (workers s);
  i_enq : enqs es = seq 0 (next s)
}.

Lemma one_worker (w : list pc) k p : length w <= 1 -> w !! k = Some p -> w = [p] /\ k = 0.
Proof.
  intros H E. destruct w as [|q [|]]; simpl in H; try lia; [discriminate|]. destruct k; [|discriminate]. simpl in E. split; congruence.
Qed.

Lemma init_inv : inv [] init.
Proof. constructor; simpl; auto; try set_solver. intros [?|[?|?]]; [lia|set_solver|set_solver]. Qed.

Ltac fin := constructor; simpl;
  repeat match goal with H : workers _ = _ |- _ => rewrite H | H : running _ = _ |- _ => rewrite H | H : queue _ = _ |- _ => rewrite H end;
  rewrite ?starts_app, ?ends_app, ?enqs_app; simpl; rewrite ?app_nil_r, <- ?app_assoc; simpl; auto; try lia; try discriminate;
  try congruence; try set_solver; try (intros [?|[?|?]]; [lia|set_solver|set_solver]).

Lemma step_inv m es s l s' e : inv es s -> step m s l = Some (s', e) -> inv (es ++ e) s'.
Proof.
  intros I E. destruct I as [Ht Hi Hn Hu Hf He Hq]. destruct l as [| | |k]; simpl in E.
  - injection E as <- <-. constructor; simpl; rewrite ?starts_app, ?ends_app, ?enqs_app; simpl; rewrite ?app_nil_r; auto.
    + destruct (running s); lia.
    + discriminate.
    + intros _ H. apply (f_equal length) in H. rewrite app_length in H. simpl in H. lia.
    + rewrite !app_assoc. rewrite <- (app_assoc (starts es)), Hf. symmetry. apply seq_S.
    + rewrite Hq. symmetry. apply seq_S.
  - destruct (calling s) as [|c] eqn:Ec; [discriminate|]. injection E as <- <-.
    constructor; simpl; rewrite ?app_nil_r; auto.
    + lia.
    + intros H. apply Hn. lia.
  - destruct (jobs s) as [|j] eqn:Ej; [discriminate|]. injection E as <- <-.
    assert (workers s = []) as Ew. { destruct (workers s); auto. simpl in Ht. destruct (running s); lia. }
    rewrite Ew in *. constructor; simpl; rewrite ?app_nil_r; auto.
    + simpl in Ht. simpl. lia.
    + intros _. apply Hn. lia.
    + set_solver.
    + rewrite He. simpl. apply app_nil_r.
  - unfold work in E. destruct (workers s !! k) as [p|] eqn:Ek; [|discriminate].
    assert (Hl : length (workers s) <= 1) by (destruct (running s); lia).
    destruct (one_worker _ _ _ Hl Ek) as [Ew ->]. rewrite Ew in *. clear Ek Hl. simpl in Ht.
    assert (running s = true) as Er by (destruct (running s); [auto|lia]). rewrite Er in *.
    assert (calling s = 0 /\ jobs s = 0) as [Ec Ej] by lia.
    destruct p as [|[|i l]|i l| |]; simpl in *; rewrite ?app_nil_r in *.
    + assert (Hq' : queue s <> []) by (apply Hn; set_solver).
      destruct m; [destruct (queue s) as [|i q] eqn:Eq; [congruence|]|]; injection E as <- <-; fin.
    + destruct (queue s) as [|i q] eqn:Eq; injection E as <- <-; rewrite ?app_nil_r in *; fin.
    + injection E as <- <-; fin.
    + injection E as <- <-; fin.
    + injection E as <- <-; fin.
    + discriminate.
Qed.

Lemma run_inv m ls : forall es s s' e, inv es s -> run m s ls = Some (s', e) -> inv (es ++ e) s'.
Proof.
  induction ls as [|l ls IH]; intros es s s' e I E; simpl in E.
  - injection E as <- <-. rewrite app_nil_r. auto.
  - destruct (step m s l) as [[s1 e1]|] eqn:E1; [|discriminate]. destruct (run m s1 ls) as [[s2 e2]|] eqn:E2; [|discriminate].
    injection E as <- <-. rewrite app_assoc. eapply IH; [|exact E2]. eapply step_inv; eauto.
Qed.
Lemma reach_inv m ls s es : run m init ls = Some (s, es) -> inv es s.
Proof. apply (run_inv m ls [] init), init_inv. Qed.

(** ** statements *)
Lemma workers_le_1 m ls s es : run m init ls = Some (s, es) -> calling s + jobs s + length (workers s) <= 1.
Proof. intros R. destruct (reach_inv _ _ _ _ R). destruct (running s); lia. Qed.

Lemma active_le_1 w : length w <= 1 -> length (active w) <= 1.
Proof. destruct w as [|[] [|]]; simpl; lia. Qed.

(** at most one task has started and not ended: at every point of every execution *)
Lemma no_overlap m ls s es : run m init ls = Some (s, es) ->
  starts es = ends es \/ exists i, starts es = ends es ++ [i].
Proof.
  intros R. pose proof (workers_le_1 _ _ _ _ R) as H. destruct (reach_inv _ _ _ _ R). rewrite i_ends0.
  destruct (workers s) as [|[] [|]]; simpl in *; try lia; rewrite ?app_nil_r; eauto.
Qed.

Lemma fifo m ls s es : run m init ls = Some (s, es) -> enqs es = seq 0 (next s) /\ starts es `prefix_of` enqs es.
Proof.
  intros R. destruct (reach_inv _ _ _ _ R). split; [auto|]. rewrite i_enq0, <- i_fifo0. eexists. reflexivity.
Qed.
Lemma ends_prefix m ls s es : run m init ls = Some (s, es) -> ends es `prefix_of` enqs es.
Proof.
  intros R. destruct (fifo _ _ _ _ R) as [_ H]. destruct (reach_inv _ _ _ _ R). etrans; [|exact H]. rewrite i_ends0. eexists. reflexivity.
Qed.

Lemma none_stranded m ls s es : run m init ls = Some (s, es) -> calling s = 0 -> jobs s = 0 -> workers s = [] ->
  starts es = enqs es /\ ends es = enqs es.
Proof.
  intros R H1 H2 H3. destruct (reach_inv _ _ _ _ R). rewrite H1, H2, H3 in *. simpl in *.
  assert (queue s = []) as Hq. { apply i_idle0. destruct (running s); [discriminate|auto]. }
  rewrite Hq in *. rewrite !app_nil_r in *. split; congruence.
Qed.

Lemma no_ub m ls s es : run m init ls = Some (s, es) -> Ub ∉ workers s.
Proof. intros R. apply (reach_inv _ _ _ _ R). Qed.

(** ** progress *)
Definition weight (p : pc) : nat :=
  match p with Begun => 2 | Local l => 5 + 2 * length l | Run _ l => 6 + 2 * length l | Resubmit => 4 | Ub => 0 end.
Definition measure (s : st) : nat := 6 * length (queue s) + 4 * calling s + 3 * jobs s + sum_list (weight <$> workers s).

Lemma progress m ls s es : run m init ls = Some (s, es) -> ends es <> enqs es ->
  exists l s' e, l <> Enqueue /\ step m s l = Some (s', e).
Proof.
  intros R Hn. destruct (calling s) eqn:Ec; [destruct (jobs s) eqn:Ej; [destruct (workers s) as [|p w] eqn:Ew|]|].
  - exfalso. apply Hn. eapply none_stranded; eauto.
  - exists (Work 0). simpl. unfold work. rewrite Ew. simpl. pose proof (no_ub _ _ _ _ R) as Hu. rewrite Ew in Hu.
    destruct p as [|[|]| | |]; eauto; try (destruct m; destruct (queue s); eauto; fail); try (destruct (queue s); eauto; fail).
    set_solver.
  - exists Begin. simpl. rewrite Ej. eauto.
  - exists Submit. simpl. rewrite Ec. eauto.
Qed.

Lemma step_measure m es s l s' e : inv es s -> l <> Enqueue -> step m s l = Some (s', e) -> measure s' < measure s.
Proof.
  intros I Hl E. destruct I as [Ht Hi Hn Hu Hf He Hq]. destruct l as [| | |k]; simpl in E; [congruence| | |].
  - destruct (calling s) as [|c] eqn:Ec; [discriminate|]. injection E as <- <-. unfold measure. simpl. rewrite Ec. lia.
  - destruct (jobs s) as [|j] eqn:Ej; [discriminate|]. injection E as <- <-. unfold measure. simpl. rewrite Ej.
    rewrite fmap_app, sum_list_with_app. simpl. lia.
  - unfold work in E. destruct (workers s !! k) as [p|] eqn:Ek; [|discriminate].
    assert (Hl1 : length (workers s) <= 1) by (destruct (running s); lia).
    destruct (one_worker _ _ _ Hl1 Ek) as [Ew ->]. rewrite Ew in *. clear Ek Hl1.
    destruct p as [|[|i l]|i l| |]; simpl in *.
    + assert (Hq' : queue s <> []) by (apply Hn; set_solver).
      destruct m; [destruct (queue s) as [|i q] eqn:Eq; [congruence|]|]; injection E as <- <-; unfold measure; simpl; rewrite ?Ew, ?Eq; simpl; try lia.
      destruct (queue s); [congruence|simpl; lia].
    + destruct (queue s) as [|i q] eqn:Eq; injection E as <- <-; unfold measure; simpl; rewrite ?Ew, ?Eq; simpl; try lia.
    + injection E as <- <-; unfold measure; simpl; rewrite ?Ew; simpl; lia.
    + injection E as <- <-; unfold measure; simpl; rewrite ?Ew; simpl; lia.
    + injection E as <- <-; unfold measure; simpl; rewrite ?Ew; simpl; lia.
    + discriminate.
Qed.

Lemma bounded m ls2 : forall es s s' e, inv es s -> Forall (fun l => l <> Enqueue) ls2 -> run m s ls2 = Some (s', e) ->
  length ls2 + measure s' <= measure s.
Proof.
  induction ls2 as [|l ls IH]; intros es s s' e I F E; simpl in E.
  - injection E as <- <-. simpl. lia.
  - inversion F; subst. destruct (step m s l) as [[s1 e1]|] eqn:E1; [|discriminate]. destruct (run m s1 ls) as [[s2 e2]|] eqn:E2; [|discriminate].
    injection E as <- <-. pose proof (step_measure _ _ _ _ _ _ I H1 E1). pose proof (step_inv _ _ _ _ _ _ I E1) as I1.
    specialize (IH _ _ _ _ I1 H2 E2). simpl. lia.
Qed.
(** In terms of what an observer knows: the number of tasks not yet started. *)
Lemma measure_le m ls s es : run m init ls = Some (s, es) -> measure s <= 6 * (length (enqs es) - length (ends es)) + 5.
Proof.
  intros R. pose proof (workers_le_1 _ _ _ _ R) as H. destruct (reach_inv _ _ _ _ R) as [Ht Hi Hn Hu Hf He Hq]. unfold measure.
  rewrite Hq, <- Hf, He. rewrite !app_length.
  destruct (workers s) as [|[] [|]]; simpl in *; try lia; destruct (calling s) as [|[]], (jobs s) as [|[]]; simpl in *; try lia;
  rewrite ?app_nil_r; lia.
Qed.
Lemma bounded_final m ls1 s1 es1 ls2 s2 es2 : run m init ls1 = Some (s1, es1) -> Forall (fun l => l <> Enqueue) ls2 ->
  run m s1 ls2 = Some (s2, es2) -> length ls2 <= 6 * (length (enqs es1) - length (ends es1)) + 5.
Proof.
  intros R F E. pose proof (bounded _ _ _ _ _ _ (reach_inv _ _ _ _ R) F E). pose proof (measure_le _ _ _ _ R). lia.
Qed.

(** every prefix of a log is the log of an execution *)
Lemma step_short m s l s' e : step m s l = Some (s', e) -> length e <= 1.
Proof.
  intros E. destruct l; simpl in E; unfold work in E; repeat (case_match; try discriminate); injection E as <- <-; simpl; lia.
Qed.
Lemma run_prefix m ls : forall s s' es es1 es2, run m s ls = Some (s', es) -> es = es1 ++ es2 ->
  exists ls1 s1, run m s ls1 = Some (s1, es1).
Proof.
  induction ls as [|l ls IH]; intros s s' es es1 es2 E Ees; simpl in E.
  - injection E as <- <-. symmetry in Ees. apply app_nil in Ees as [-> _]. exists [], s. auto.
  - destruct (step m s l) as [[s1 e1]|] eqn:E1; [|discriminate]. destruct (run m s1 ls) as [[s2 e2]|] eqn:E2; [|discriminate].
    injection E as <- <-. pose proof (step_short _ _ _ _ _ E1) as Hs.
    destruct es1 as [|x es1]; [exists [], s; auto|].
    destruct e1 as [|y [|]]; simpl in Hs; try lia.
    + simpl in Ees. destruct (IH _ _ _ (x :: es1) es2 E2 Ees) as (ls1&s3&H). exists (l :: ls1), s3. simpl. rewrite E1, H. auto.
    + simpl in Ees. injection Ees as <- Ees. destruct (IH _ _ _ _ _ E2 Ees) as (ls1&s3&H). exists (l :: ls1), s3. simpl. rewrite E1, H. auto.
Qed.
Lemma exclusion m ls s es i es1 es2 es3 j : run m init ls = Some (s, es) -> es = es1 ++ Started i :: es2 ++ Started j :: es3 ->
  Ended i ∈ es2.
Proof.
  intros R E.
  destruct (run_prefix _ _ _ _ _ (es1 ++ Started i :: es2 ++ [Started j]) es3 R) as (ls1&s1&R1).
  { rewrite E. rewrite <- !app_assoc. simpl. rewrite <- app_assoc. auto. }
  destruct (run_prefix _ _ _ _ _ es1 (Started i :: es2 ++ [Started j]) R1 eq_refl) as (ls2&s2&R2).
  assert (Hi : i ∈ ends (es1 ++ Started i :: es2 ++ [Started j])).
  { assert (HL : starts (es1 ++ Started i :: es2 ++ [Started j]) = (starts es1 ++ i :: starts es2) ++ [j]).
    { rewrite starts_app. change (Started i :: es2 ++ [Started j]) with ([Started i] ++ es2 ++ [Started j]).
      rewrite !starts_app. simpl. rewrite <- app_assoc. auto. }
    destruct (no_overlap _ _ _ _ R1) as [H|[k H]].
    - rewrite <- H, HL. apply elem_of_app; left. apply elem_of_app; right. left.
    - rewrite HL in H. apply app_inj_tail in H as [H _]. rewrite <- H. apply elem_of_app; right. left. }
  assert (Hn : i ∉ ends es1).
  { intros Hin. destruct (reach_inv _ _ _ _ R2) as [_ _ _ _ _ He _]. destruct (fifo _ _ _ _ R1) as [_ [l Hp]].
    pose proof (i_enq _ _ (reach_inv _ _ _ _ R1)) as Hq. rewrite Hq in Hp. pose proof (NoDup_seq 0 (next s1)) as Hnd. rewrite Hp in Hnd.
    apply NoDup_app in Hnd as (Hnd&_). rewrite starts_app in Hnd. apply NoDup_app in Hnd as (_&Hd&_).
    apply (Hd i); [rewrite He; apply elem_of_app; auto|]. simpl. left. }
  change (Started i :: es2 ++ [Started j]) with ([Started i] ++ es2 ++ [Started j]) in Hi. rewrite !ends_app in Hi. simpl in Hi.
  rewrite app_nil_r in Hi. apply elem_of_app in Hi as [Hi|Hi]; [tauto|].
  unfold ends in Hi. apply elem_of_list_omap in Hi as (x&Hx&E'). destruct x; try discriminate. congruence.
Qed.
