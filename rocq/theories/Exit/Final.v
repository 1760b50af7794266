(** The properties of Exit.Model, from its invariants. *)
From Coq Require Import List Bool Arith Lia.
From stdpp Require Import list sets.
From Verif.Exit Require Import Model Spec Proof.

(** ** when pre_exit has returned *)
Definition over (v : variant) (s : st) : Prop := ph s = After /\ none s /\ (pending s = [] \/ v = Libdispatch /\ tclosed s = true).
Lemma step_over v s l s' es : over v s -> step v s l = Some (s', es) -> over v s' /\ started es = [].
Proof.
  intros (E&[Q R]&Hp) H. unfold step, is_before in H. rewrite E, Q, R in H. destruct (aborted s || bad s); [done|].
  destruct l; try done.
  - destruct v; done.
  - destruct (pending s !! k) eqn:Hk; [|done]. destruct Hp as [Hp|[-> Hc]]; [by rewrite Hp in Hk|]. rewrite Hc in H. injection H as <- <-.
    split; [|done]. repeat split; try done. right. done.
Qed.
Lemma run_over v ls : forall s s' tr, over v s -> run v s ls = Some (s', tr) -> started tr = [].
Proof.
  induction ls as [|l ls IH]; intros s s' tr Ho R; cbn [run] in R; [by injection R as <- <-|].
  destruct (step v s l) as [[s1 e1]|] eqn:S; [|done]. destruct (run v s1 ls) as [[s2 e2]|] eqn:R2; [|done]. injection R as <- <-.
  destruct (step_over _ _ _ _ _ Ho S) as [Ho1 E1]. rewrite started_app, E1. by rewrite (IH _ _ _ Ho1 R2).
Qed.
Lemma run_lost v ls s tr : v <> Portable -> run v init ls = Some (s, tr) -> forall i, i ∈ lost tr -> i ∈ armed tr.
Proof.
  intros Hv R.
  refine (proj2 (run_inv v (fun s tr => acc s tr /\ (forall i, i ∈ lost tr -> i ∈ armed tr)) (fun _ => True) _ _ ls s tr _ R));
    [split; [apply acc_init|cbn; set_solver]| |apply Forall_true; done].
  clear - Hv. intros s tr l s' es [Ha IH] _ H. split; [by eapply step_acc|]. intros i. rewrite lost_app, armed_app, !elem_of_app.
  intros [Hi|Hi]; [auto|]. left. unfold step in H. destruct (aborted s || bad s); [done|].
  assert (Hact : forall a, Some (act v a s) = Some (s', es) -> False).
  { intros a E. injection E as E. destruct (act_parts _ _ _ _ _ E) as (E1&E2&E3&E4&N1&N2&N3&_). rewrite N3 in Hi. set_solver. }
  destruct l.
  - destruct (is_before s); [exfalso; eauto|done].
  - destruct (running s !! k); [exfalso; eauto|done].
  - repeat case_match; try done; injection H as <- <-; cbn in Hi; set_solver.
  - destruct v; [destruct (ph s); done|done|destruct (ph s); done].
  - destruct (pending s !! k) as [j|] eqn:Hk; [|done].
    assert (Hj : i = j) by (destruct v; repeat case_match; try done; injection H as <- <-; cbn in Hi; set_solver).
    subst j. apply (a_pend _ _ Ha). by eapply elem_of_list_lookup_2.
  - repeat case_match; try done; injection H as <- <-; cbn in Hi; set_solver.
  - repeat case_match; try done; injection H as <- <-; cbn in Hi; set_solver.
  - repeat case_match; try done; injection H as <- <-; cbn in Hi; set_solver.
  - repeat case_match; try done; injection H as <- <-; cbn in Hi; set_solver.
Qed.
(** nothing queued, nothing executing: what was submitted was executed *)
Lemma none_done v ls s tr : run v init ls = Some (s, tr) -> none s ->
  ended tr ≡ₚ started tr /\ (forall i, i ∈ in_time tr -> i ∈ ended tr) /\ (v <> Portable -> forall i, i ∈ submitted tr -> i ∈ ended tr).
Proof.
  intros R [Q E]. pose proof (run_acc _ _ _ _ R) as [A1 A2 A3 A4 A5 A6]. unfold rids in A3. rewrite E in A3. cbn in A3. rewrite app_nil_r in A3.
  split; [by symmetry|]. split.
  - intros i Hi. destruct (i_in _ _ (run_intime _ _ _ _ R) i Hi) as [H|[H|[p H]]]; [done| |]; [unfold rids in H; rewrite E in H|rewrite Q in H]; cbn in H; set_solver.
  - intros Hv i Hi. rewrite <-A3.
    assert (ND : NoDup (submitted tr ++ armed tr)) by (rewrite A1; apply NoDup_ListNoDup, seq_NoDup).
    apply NoDup_app in ND as (_&ND&_). specialize (ND i Hi).
    assert (Hi' : i ∈ submitted tr ++ armed tr) by set_solver. rewrite <-A2 in Hi'. unfold qids in Hi'. rewrite Q in Hi'. cbn in Hi'.
    rewrite !elem_of_app in Hi'. destruct Hi' as [?|[H|H]]; [done| |].
    + destruct ND. by eapply run_lost.
    + destruct ND. auto.
Qed.
Lemma returned_after v ls s tr : run v init ls = Some (s, tr) -> returned tr <> [] -> ph s = After.
Proof.
  intros R H. destruct (a_ret _ _ (run_acc _ _ _ _ R)) as [_ H2]. destruct (ph s); try done; by destruct H; apply H2.
Qed.

Lemma lib_done ls s tr : run Libdispatch init ls = Some (s, tr) -> late_timer tr = [] -> returned tr <> [] ->
  ended tr ≡ₚ started tr /\ (forall i, i ∈ submitted tr -> i ∈ ended tr) /\
  forall ls' s' tr', run Libdispatch s ls' = Some (s', tr') -> started tr' = [].
Proof.
  intros R Hl Hr. pose proof (returned_after _ _ _ _ R Hr) as Ha. pose proof (run_shape _ _ _ R Hl) as (J&B&HH). rewrite Ha in HH.
  assert (Ho : over Libdispatch s).
  { split; [done|]. destruct HH as [(_&_&_&_&N&P&_)|(_&Hd&[(_&_&[?|?])|[(_&_&_&?)|(Ht&_&[?|[_ N]])]])]; try done.
    - split; [done|]. by left.
    - split; [done|]. destruct (timer s); [right; done|left; auto]. }
  destruct (none_done _ _ _ _ R (proj1 (proj2 Ho))) as (H1&_&H2). split; [done|]. split; [by apply H2|].
  intros ls' s' tr' R'. by eapply run_over.
Qed.
Lemma pool_done v p ls s tr : v <> Libdispatch -> Forall (plain p) ls -> run v init ls = Some (s, tr) ->
  bad s = false /\ aborted s = false /\
  (returned tr <> [] ->
    ended tr ≡ₚ started tr /\ (forall i, i ∈ in_time tr -> i ∈ ended tr) /\ (v = Windows -> forall i, i ∈ submitted tr -> i ∈ ended tr) /\
    forall ls' s' tr', run v s ls' = Some (s', tr') -> started tr' = []).
Proof.
  intros Hv Hp R. pose proof (run_pshape _ _ _ _ _ Hv Hp R) as (T&C&Pe&B&A&FQ&FR&HH). split; [done|]. split; [done|]. intros Hr.
  pose proof (returned_after _ _ _ _ R Hr) as Ha. rewrite Ha in HH.
  assert (N : none s) by (destruct HH as [(_&_&N&_)|(_&[(_&_&[?|?])|[(_&_&?)|(_&_&_&N)]])]; done).
  destruct (none_done _ _ _ _ R N) as (H1&H2&H3). split; [done|]. split; [done|]. split; [intros ->; by apply H3|].
  intros ls' s' tr' R'. eapply run_over; [|done]. split; [done|]. split; [done|]. by left.
Qed.

(** ** no assertion fails *)
Lemma lib_step_safe s l s' es : shape s /\ aborted s = false -> no_arm l -> step Libdispatch s l = Some (s', es) -> late_timer es = [] /\ aborted s' = false.
Proof.
  intros [(J&B&HH) A] Hl H. unfold step in H. rewrite A, B in H. cbn in H.
  assert (Hex : forall p, (is_before s = true \/ running s <> []) -> Some (exec Libdispatch p s) = Some (s', es) -> late_timer es = [] /\ aborted s' = false).
  { intros p Hw E. injection E as E. unfold exec, use, register, is_after, is_before, none in *.
    destruct s as [n m j t c st p' q r pe b a]; cbn in *. subst j b a.
    destruct p'; try (repeat case_match; cbn in *; simplify_eq; done).
    destruct HH as [(_&_&_&_&[_ ->]&_)|(_&_&[(_&_&[?|?])|[(_&_&_&?)|(_&_&[?|[_ [_ ->]]])]])]; try done; by destruct Hw. }
  destruct l.
  - destruct (is_before s) eqn:Eb; [|done]. destruct a; [apply (Hex p); [by left|done]|]. injection H as H. cbn in H.
    unfold arm, use, register, is_after, is_before, none in *.
    destruct s as [n m j t c st p' q r pe b a]; cbn in *. subst j b a. destruct p'; try done.
    assert (c = false) as -> by (destruct HH as [(_&_&?&_)|(_&_&[(_&?&_)|[(_&_&_&?)|(_&_&[?|[[?|?] _]])]])]; done).
    destruct t; cbn in H; [by injection H as <- <-|]. repeat case_match; cbn in *; simplify_eq; done.
  - destruct a; [|done]. destruct (running s !! k) eqn:Hk; [|done]. eapply (Hex p); [|done]. right. intros E. by rewrite E in Hk.
  - repeat case_match; try done; by injection H as <- <-.
  - destruct (ph s); done.
  - repeat case_match; try done; by injection H as <- <-.
  - repeat case_match; try done; by injection H as <- <-.
  - repeat case_match; try done; by injection H as <- <-.
  - repeat case_match; try done; by injection H as <- <-.
  - repeat case_match; try done; by injection H as <- <-.
Qed.
Lemma lib_safe ls s tr : Forall no_arm ls -> run Libdispatch init ls = Some (s, tr) -> bad s = false /\ aborted s = false /\ late_timer tr = [].
Proof.
  intros Hp R.
  cut ((shape s /\ aborted s = false) /\ late_timer tr = []); [intros [[(_&B&_) A] L]; done|].
  refine (run_inv Libdispatch (fun s tr => (shape s /\ aborted s = false) /\ late_timer tr = []) no_arm _ _ ls s tr Hp R);
    [split; [split; [apply shape_init|done]|done]|].
  clear. intros s tr l s' es [Hs Ht] Hl H. destruct (lib_step_safe _ _ _ _ Hs Hl H) as [L A].
  split; [split; [eapply step_shape; [apply Hs|done|done]|done]|]. by rewrite late_app, Ht, L.
Qed.

(** ** pre_exit returns *)
Definition rank (p : phase) : nat := match p with Before => 2 | Popping => 1 | Waiting _ => 2 | After => 0 end.
Definition weight (s : st) : nat := 2 * length (queued s) + length (running s) + 2 * length (pending s) + 2 * length (stack s) + rank (ph s).
Lemma del_len {A} (l : list A) k x : l !! k = Some x -> length l = S (length (delete k l)).
Proof. intros H. pose proof (Permutation_length (perm_delete _ _ _ H)) as E. exact E. Qed.
Lemma step_weight v s l s' es : internal l -> step v s l = Some (s', es) -> weight s' < weight s.
Proof.
  intros Hi H. unfold step in H. destruct (aborted s || bad s); [done|]. unfold weight. destruct l; try done.
  - destruct (queued s !! k) as [[[i p] b]|] eqn:Hk; [|done]. injection H as <- <-. apply del_len in Hk. cbn. rewrite app_length. cbn. lia.
  - destruct v; try done; destruct (ph s) eqn:E; try done. destruct (queued s !! k) as [[[i q] []]|] eqn:Hk; try done. injection H as <- <-.
    apply del_len in Hk. cbn. rewrite E. cbn. lia.
  - destruct (pending s !! k) as [i|] eqn:Hk; [|done]. apply del_len in Hk.
    destruct v; repeat case_match; try done; injection H as <- <-; cbn; rewrite ?app_length; cbn; lia.
  - destruct (running s !! k) as [[i o]|] eqn:Hk; [|done]. injection H as <- <-. apply del_len in Hk. cbn. lia.
  - unfold is_before in H. destruct (ph s) eqn:E; try done. injection H as <- <-. cbn. lia.
  - destruct (ph s) eqn:E; try done. destruct (stack s) as [|[p|] hs]; injection H as <- <-; cbn; lia.
  - destruct (ph s) eqn:E; try done. destruct (quiet v p s); [|done]. injection H as <- <-. destruct v; cbn; lia.
Qed.
Lemma ends v s ls s' tr : Forall internal ls -> run v s ls = Some (s', tr) -> length ls <= weight s.
Proof.
  revert s tr. induction ls as [|l ls IH]; intros s tr Hi R; cbn [run length] in *; [lia|].
  destruct (step v s l) as [[s1 e1]|] eqn:S; [|done]. destruct (run v s1 ls) as [[s2 e2]|] eqn:R2; [|done]. injection R as <- <-.
  apply Forall_cons in Hi as [H1 H2]. pose proof (IH _ _ H2 R2). pose proof (step_weight _ _ _ _ _ H1 S). lia.
Qed.
Lemma rest v ls s tr : run v init ls = Some (s, tr) -> bad s = false -> aborted s = false -> returned tr = [] ->
  exists l s' es, internal l /\ step v s l = Some (s', es).
Proof.
  intros R B A Hr. apply (a_ret _ _ (run_acc _ _ _ _ R)) in Hr.
  assert (HE : forall l, internal l -> is_Some (step v s l) -> exists l s' es, internal l /\ step v s l = Some (s', es)).
  { intros l Hl [[s' es] E]. eauto. }
  destruct (ph s) eqn:E; [| | |done].
  - apply (HE Begin); [done|]. unfold step, is_before. rewrite A, B, E. by eexists.
  - apply (HE Pop); [done|]. unfold step. rewrite A, B, E. cbn. repeat case_match; by eexists.
  - destruct (queued s) as [|[[i q] b] qs] eqn:Q.
    + destruct (running s) as [|[i o] rs] eqn:Er.
      * apply (HE Done); [done|]. unfold step. rewrite A, B, E. unfold quiet. rewrite Q, Er. cbn. destruct v; by eexists.
      * apply (HE (End 0)); [done|]. unfold step. rewrite A, B, Er. by eexists.
    + apply (HE (Start 0)); [done|]. unfold step. rewrite A, B, Q. by eexists.
Qed.
