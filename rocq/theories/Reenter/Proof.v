(** Proofs about Reenter. *)
From Coq Require Import List Bool NArith Sorted.
From stdpp Require Import list.
From Verif.When Require Import Model.
From Verif.Reenter Require Import Model Spec.

#[local] Instance outcome_eq : EqDecision outcome.
Proof. solve_decision. Defined.
#[local] Instance slot_eq : EqDecision slot.
Proof. solve_decision. Defined.
(** how a slot may change while the mutex is held *)
Definition later (a b : slot) : Prop :=
  a = b \/ (a = Held /\ (b = Cut \/ b = Queued broken)) \/ (exists o, a = Queued o /\ b = Cut) \/ (a = Absent None /\ exists o, b = Absent (Some o)).
Lemma later_trans a b c : later a b -> later b c -> later a c.
Proof.
  unfold later. intros [->|[[-> H]|[(o & -> & ->)|(-> & o & ->)]]] [<-|[[E K]|[(q & E & ->)|(E & q & ->)]]]; subst; try discriminate; eauto 8.
  destruct H; subst; try discriminate; eauto 8.
Qed.
Definition laters (s s' : st) : Prop := forall k, match slots s !! k, slots s' !! k with Some a, Some b => later a b | None, None => True | _, _ => False end.
Lemma laters_refl s : laters s s.
Proof. intros k. destruct (slots s !! k); [by left|done]. Qed.
Lemma laters_trans a b c : laters a b -> laters b c -> laters a c.
Proof. intros H K k. specialize (H k). specialize (K k). destruct (slots a !! k), (slots b !! k), (slots c !! k); try done. eauto using later_trans. Qed.
Lemma laters_length s s' : laters s s' -> length (slots s') = length (slots s).
Proof.
  intros H. destruct (lt_eq_lt_dec (length (slots s')) (length (slots s))) as [[L|E]|L]; [|done|].
  - specialize (H (length (slots s'))). rewrite (lookup_ge_None_2 (slots s')) in H by lia.
    destruct (lookup_lt_is_Some_2 (slots s) _ L) as [x E]. by rewrite E in H.
  - specialize (H (length (slots s))). rewrite (lookup_ge_None_2 (slots s)) in H by lia.
    destruct (lookup_lt_is_Some_2 (slots s') _ L) as [x E]. by rewrite E in H.
Qed.
Lemma laters_put s k a b : slots s !! k = Some a -> later a b -> laters s (put k b s).
Proof.
  intros E L j. simpl. destruct (decide (j = k)) as [->|N].
  - rewrite E, list_lookup_insert; [done|by eapply lookup_lt_Some].
  - rewrite list_lookup_insert_ne by done. destruct (slots s !! j); [by left|done].
Qed.
Lemma later_open s s' k : laters s s' -> ~ waiting s k -> ~ waiting s' k.
Proof.
  intros L N O. specialize (L k). unfold waiting in *.
  destruct (slots s !! k) as [a|] eqn:E, (slots s' !! k) as [b|] eqn:E'; try done.
  destruct L as [->|[[-> _]|[(o & -> & ->)|(-> & o & ->)]]]; [..|destruct O as [|[p ?]]; congruence].
  - apply N. destruct O as [O|[o O]]; [left|right; exists o]; congruence.
  - apply N. by left.
  - apply N. right. by exists o.
Qed.
Lemma later_held s s' k : laters s s' -> slots s' !! k = Some Held -> slots s !! k = Some Held.
Proof.
  intros L E. specialize (L k). rewrite E in L. destruct (slots s !! k) as [a|]; [|done].
  destruct L as [->|[[-> _]|[(o & -> & ?)|(-> & o & ?)]]]; congruence.
Qed.

Section proofs.
  Context (go : st -> nat -> outcome -> res) (imm : bool).
  Context (goL : forall s k o, locked s = true -> go s k o = Stuck k).

  Lemma breaks_ok ks s : locked s = true -> (imm = false \/ forall k, k ∈ ks -> slots s !! k <> Some Held) ->
    exists s', each (break go imm) ks s = Fine s' /\ locked s' = true /\ con s' = con s /\ own s' = own s /\ calls s' = calls s /\ laters s s' /\
      (imm = true -> forall k, slots s !! k = Some Held -> slots s' !! k = Some Held).
  Proof.
    revert s. induction ks as [|k ks IH]; simpl; intros s L H; [exists s; by repeat split; try apply laters_refl|].
    assert (exists s1, break go imm s k = Fine s1 /\ locked s1 = true /\ con s1 = con s /\ own s1 = own s /\ calls s1 = calls s /\ laters s s1 /\
      (imm = true -> forall k, slots s !! k = Some Held -> slots s1 !! k = Some Held)) as (s1 & E1 & L1 & C1 & O1 & K1 & T1 & M1).
    { unfold break. destruct (slots s !! k) as [[[o|]| | | |]|] eqn:E; try (exists s; by repeat split; try apply laters_refl).
      - eexists. split; [done|]. repeat split; try done.
        + eapply laters_put; [done|]. right. right. right. eauto.
        + intros _ j Ej. simpl. rewrite list_lookup_insert_ne; [done|]. intros <-. congruence.
      - destruct imm eqn:EI; [destruct H as [|H]; [done|]; destruct (H k); [left|done]|].
        eexists. split; [done|]. repeat split; try done. eapply laters_put; [done|]. right. left. eauto. }
    rewrite E1. destruct (IH s1 L1) as (s' & E' & L' & C' & O' & K' & T' & M').
    { destruct H as [H|H]; [by left|right]. intros j Hj E. apply (H j); [by right|]. eapply later_held; eauto. }
    exists s'. split; [done|]. repeat split; try congruence; [eauto using laters_trans|eauto].
  Qed.
  Lemma breaks_stuck ks s k : imm = true -> locked s = true -> k ∈ ks -> slots s !! k = Some Held ->
    exists k', k' ∈ ks /\ slots s !! k' = Some Held /\ each (break go imm) ks s = Stuck k'.
  Proof.
    intros EI. revert s. induction ks as [|j ks IH]; intros s L Hk E; [by apply elem_of_nil in Hk|]. simpl.
    destruct (decide (slots s !! j = Some Held)) as [Ej|Ej].
    - exists j. split; [left|]. split; [done|]. unfold break. rewrite Ej, EI, goL; done.
    - apply elem_of_cons in Hk as [->|Hk]; [done|].
      destruct (breaks_ok [j] s L) as (s1 & E1 & L1 & _ & _ & _ & T1 & M1); [right; intros i ->%elem_of_list_singleton; done|].
      simpl in E1. destruct (break go imm s j) as [s2| |] eqn:E2; try done. injection E1 as ->.
      destruct (IH s1 L1 Hk (M1 EI k E)) as (k' & H1 & H2 & H3). exists k'. split; [by right|]. split; [|done]. eapply later_held; eauto.
  Qed.

  (** one reset *)
  Lemma reset_ok s j : locked s = true -> (imm = false \/ forall k, k ∈ own s !!! j -> k <> j -> slots s !! j = Some Held -> slots s !! k <> Some Held) ->
    exists s', reset go imm s j = Fine s' /\ locked s' = true /\ con s' = con s /\ calls s' = calls s /\ laters s s' /\ ~ waiting s' j /\
      (forall i, i <> j -> own s' !!! i = own s !!! i) /\ (own s' !!! j = own s !!! j \/ own s' !!! j = []) /\
      (imm = true -> forall k, k <> j -> slots s !! k = Some Held -> slots s' !! k = Some Held).
  Proof.
    intros L H. unfold reset. destruct (slots s !! j) as [[[o|]| | | |]|] eqn:E;
      try (exists s; repeat split; auto using laters_refl; unfold waiting; rewrite E; by intros [?|[? ?]]).
    - set (s0 := disown j (put j Cut s)).
      assert (T0 : laters s (put j Cut s)) by (eapply laters_put; [done|]; right; left; eauto).
      destruct (breaks_ok (own s !!! j) s0 L) as (s' & E' & L' & C' & O' & K' & T' & M').
      { destruct H as [H|H]; [by left|right]. intros k Hk Ek. simpl in Ek. destruct (decide (k = j)) as [->|N].
        - rewrite list_lookup_insert in Ek; [done|by eapply lookup_lt_Some].
        - rewrite list_lookup_insert_ne in Ek by done. by apply (H k). }
      exists s'. split; [done|]. repeat split; try done.
      + eapply laters_trans; [exact T0|exact T'].
      + eapply later_open; [exact T'|]. unfold waiting. simpl. rewrite list_lookup_insert by (by eapply lookup_lt_Some). by intros [?|[? ?]].
      + intros i Hi. rewrite O'. simpl. by rewrite list_lookup_total_insert_ne by done.
      + rewrite O'. simpl. destruct (decide (j < length (own s))); [right; by rewrite list_lookup_total_insert|].
        left. by rewrite list_insert_ge by lia.
      + intros EI k N Ek. apply (M' EI). simpl. by rewrite list_lookup_insert_ne by done.
    - exists (put j Cut s). split; [done|]. repeat split; try done.
      + eapply laters_put; [done|]. right. right. left. eauto.
      + unfold waiting. simpl. rewrite list_lookup_insert by (by eapply lookup_lt_Some). by intros [?|[? ?]].
      + by left.
      + intros _ k N Ek. simpl. by rewrite list_lookup_insert_ne by done.
  Qed.

  Lemma resets_ok ts s : StronglySorted lt ts -> locked s = true -> (forall k, slots s !! k = Some Held -> k ∈ ts) ->
    (imm = false \/ forall j k, slots s !! j = Some Held -> k ∈ own s !!! j -> slots s !! k = Some Held -> k <= j) ->
    exists s', each (reset go imm) ts s = Fine s' /\ locked s' = true /\ con s' = con s /\ calls s' = calls s /\ laters s s' /\
      (forall j, j ∈ ts -> ~ waiting s' j) /\ (forall j, own s' !!! j = own s !!! j \/ own s' !!! j = []).
  Proof.
    revert s. induction ts as [|j ts IH]; intros s SS L HT H; simpl.
    { exists s. split; [done|]. repeat split; auto using laters_refl. intros j Hj. by apply elem_of_nil in Hj. }
    apply StronglySorted_inv in SS as [SS F]. rewrite Forall_forall in F.
    destruct (reset_ok s j L) as (s1 & E1 & L1 & C1 & K1 & T1 & N1 & O1 & P1 & M1).
    { destruct H as [H|H]; [by left|right]. intros k Hk N Ej Ek. assert (k <= j) by eauto.
      apply HT in Ek. apply elem_of_cons in Ek as [->|Ek]; [done|]. specialize (F k Ek). lia. }
    assert (Q1 : forall i, own s1 !!! i = own s !!! i \/ own s1 !!! i = []).
    { intros i. destruct (decide (i = j)) as [->|N]; [done|left; auto]. }
    rewrite E1. destruct (IH s1 SS L1) as (s' & E' & L' & C' & K' & T' & N' & O').
    - intros k Ek. assert (k <> j) by (intros ->; apply N1; by left).
      assert (k ∈ j :: ts) as Hk by (apply HT; eauto using later_held). by apply elem_of_cons in Hk as [?|?].
    - destruct H as [H|H]; [by left|right]. intros i k Ei Hk Ek. apply H; eauto using later_held.
      destruct (Q1 i) as [Q|Q]; rewrite Q in Hk; [done|]. by apply elem_of_nil in Hk.
    - exists s'. split; [done|]. repeat split; try congruence; [eauto using laters_trans| |].
      + intros i Hi. apply elem_of_cons in Hi as [->|Hi]; [eauto using later_open|auto].
      + intros i. destruct (O' i) as [->| ->]; auto.
  Qed.
  Lemma resets_stuck ts s j k : imm = true -> StronglySorted lt ts -> locked s = true -> j ∈ ts -> j < k ->
    slots s !! j = Some Held -> k ∈ own s !!! j -> slots s !! k = Some Held ->
    exists k', slots s !! k' = Some Held /\ each (reset go imm) ts s = Stuck k'.
  Proof.
    intros EI. revert s. induction ts as [|j0 ts IH]; intros s SS L Hj Hlt Ej Hk Ek; simpl; [by apply elem_of_nil in Hj|].
    apply StronglySorted_inv in SS as [SS F]. rewrite Forall_forall in F.
    destruct (decide (slots s !! j0 = Some Held /\ Exists (fun q => slots s !! q = Some Held /\ q <> j0) (own s !!! j0))) as [[E0 X]|X].
    - apply Exists_exists in X as (q & Hq & Eq & Nq).
      destruct (breaks_stuck (own s !!! j0) (disown j0 (put j0 Cut s)) q EI L Hq) as (k' & H1 & H2 & H3).
      { simpl. by rewrite list_lookup_insert_ne. }
      exists k'. unfold reset. rewrite E0, H3. split; [|done]. simpl in H2. destruct (decide (k' = j0)) as [->|N]; [done|].
      by rewrite list_lookup_insert_ne in H2 by done.
    - destruct (reset_ok s j0 L) as (s1 & E1 & L1 & C1 & K1 & T1 & N1 & O1 & P1 & M1).
      { right. intros q Hq Nq E0 Eq. apply X. split; [done|]. apply Exists_exists. eauto. }
      rewrite E1. assert (N : j <> j0).
      { intros ->. apply X. split; [done|]. apply Exists_exists. exists k. repeat split; try done. lia. }
      apply elem_of_cons in Hj as [?|Hj]; [done|]. assert (j0 < j) by auto.
      destruct (IH s1 SS L1 Hj Hlt) as (k' & H1 & H2).
      + by apply (M1 EI).
      + by rewrite O1.
      + apply (M1 EI); [lia|done].
      + exists k'. split; [eauto using later_held|done].
  Qed.
End proofs.

Lemma filter_sorted (P : nat -> Prop) `{forall x, Decision (P x)} l : StronglySorted lt l -> StronglySorted lt (filter P l).
Proof.
  induction 1 as [|x l SS IH F]; [constructor|]. rewrite filter_cons. destruct (decide (P x)); [|done]. constructor; [done|].
  rewrite Forall_forall in F |- *. intros y Hy. apply elem_of_list_filter in Hy as [_ Hy]. auto.
Qed.
Lemma seq_sorted a n : StronglySorted lt (seq a n).
Proof. revert a. induction n as [|n IH]; intros a; constructor; [done|]. apply Forall_forall. intros x Hx. apply elem_of_list_In, in_seq in Hx. lia. Qed.
Lemma targets_sorted v i n : StronglySorted lt (targets v i n).
Proof. destruct v; simpl; try apply filter_sorted; apply seq_sorted. Qed.
Lemma targets_in v i n j : j < n -> j <> i -> j ∈ targets v i n.
Proof. intros. assert (j ∈ seq 0 n) by (apply elem_of_list_In, in_seq; lia). destruct v; simpl; try done; by apply elem_of_list_filter. Qed.

Lemma enter_ok v imm s i o : locked s = false -> slots s !! i <> Some Held -> (imm = false \/ resets v o (con s) = false \/ ~ forward s) ->
  exists s', enter enough v imm s i o = Fine s' /\ locked s' = false /\ con s' = fst (arrive v i o (con s)) /\
    calls s' = calls s + (if snd (arrive v i o (con s)) then 1 else 0) /\ laters s s' /\
    (forall j, own s' !!! j = own s !!! j \/ own s' !!! j = []) /\
    (resets v o (con s) = true -> forall j, j <> i -> ~ waiting s' j).
Proof.
  intros L Ni H. unfold enough. cbn [enter]. rewrite L. destruct (resets v o (con s)) eqn:R.
  - destruct (resets_ok (enter 1 v imm) imm (targets v i (length (slots s))) (take s)) as (s' & E & L' & C & K & T & N & O).
    + apply targets_sorted.
    + done.
    + intros k Ek. simpl in Ek. apply targets_in; [by eapply lookup_lt_Some|]. by intros ->.
    + destruct H as [H|[H|H]]; [by left|done|right]. simpl. intros j k Ej Hk Ek. destruct (decide (k <= j)); [done|].
      destruct H. exists j, k. repeat split; try done. lia.
    + cbn [enter] in E. rewrite E, C. simpl. destruct (arrive v i o (con s)) as [c r] eqn:EA. eexists. split; [done|].
      repeat split; try done; simpl.
      * rewrite K. simpl. destruct r; lia.
      * intros _ j Nj Oj. apply (N j); [|done]. apply targets_in; [|done].
        change (slots s) with (slots (take s)). rewrite <- (laters_length (take s) s' T). destruct Oj as [Oj|[q Oj]]; by eapply lookup_lt_Some.
  - simpl. destruct (arrive v i o (con s)) as [c r] eqn:EA. eexists. split; [done|]. repeat split; try done; simpl.
    + destruct r; lia.
    + intros k. simpl. destruct (slots s !! k); [by left|done].
    + by left.
Qed.
Lemma enter_stuck v s i o : locked s = false -> slots s !! i <> Some Held -> resets v o (con s) = true -> forward s ->
  exists k, enter enough v true s i o = Stuck k /\ slots s !! k = Some Held.
Proof.
  intros L Ni R (j & k & Ej & Hk & Ek & Hlt). unfold enough. cbn [enter]. rewrite L, R.
  destruct (resets_stuck (enter 1 v true) true (fun s k o (H : locked s = true) => ltac:(simpl; by rewrite H))
    (targets v i (length (slots s))) (take s) j k) as (k' & H1 & H2); try done.
  - apply targets_sorted.
  - apply targets_in; [by eapply lookup_lt_Some|]. by intros ->.
  - exists k'. cbn [enter] in H2. by rewrite H2.
Qed.

Lemma forward_dec s : forward s \/ ~ forward s.
Proof.
  destruct (decide (Exists (fun j => slots s !! j = Some Held /\ Exists (fun k => slots s !! k = Some Held /\ j < k) (own s !!! j)) (seq 0 (length (slots s))))) as [X|X].
  - left. apply Exists_exists in X as (j & _ & Ej & X). apply Exists_exists in X as (k & Hk & Ek & L). exists j, k. done.
  - right. intros (j & k & Ej & Hk & Ek & L). apply X. apply Exists_exists. exists j. split.
    + apply elem_of_list_In, in_seq. apply lookup_lt_Some in Ej. lia.
    + split; [done|]. apply Exists_exists. eauto.
Qed.

(** ** histories *)
Lemma ordered_forward s : ordered s -> ~ forward s.
Proof. intros H (j & k & _ & Hk & _ & L). specialize (H j k Hk). lia. Qed.
Lemma disown_sub i s j : own (disown i s) !!! j = own s !!! j \/ own (disown i s) !!! j = [].
Proof.
  simpl. destruct (decide (j = i)) as [->|N]; [|left; by rewrite list_lookup_total_insert_ne].
  destruct (decide (i < length (own s))); [right; by rewrite list_lookup_total_insert|left; by rewrite list_insert_ge by lia].
Qed.
Lemma put_held i x s : x <> Held -> slots (put i x s) !! i <> Some Held.
Proof.
  intros N E. simpl in E. destruct (decide (i < length (slots s))).
  - rewrite list_lookup_insert in E by done. congruence.
  - rewrite list_insert_ge in E by lia. rewrite lookup_ge_None_2 in E by lia. done.
Qed.
Lemma step_ok (P : Prop) v imm s l : (P -> imm = true -> False) ->
  locked s = false -> (P \/ ordered s \/ forall c o, resets v o c = false) ->
  exists s', step v imm s l = Fine s' /\ locked s' = false /\ forall j, own s' !!! j = own s !!! j \/ own s' !!! j = [].
Proof.
  intros HP L H.
  assert (W : forall s1 i o, locked s1 = false -> (forall j, own s1 !!! j = own s !!! j \/ own s1 !!! j = []) -> slots s1 !! i <> Some Held ->
    exists s', enter enough v imm s1 i o = Fine s' /\ locked s' = false /\ forall j, own s' !!! j = own s !!! j \/ own s' !!! j = []).
  { intros s1 i o L1 O1 N1. destruct (enter_ok v imm s1 i o L1 N1) as (s' & E & L' & _ & _ & _ & O' & _).
    - destruct H as [H|[H|H]]; [left; destruct imm; [by destruct HP|done]| |by right; left].
      right. right. apply ordered_forward. intros j k Hk. destruct (O1 j) as [Q|Q]; rewrite Q in Hk; [by apply H|by apply elem_of_nil in Hk].
    - exists s'. split; [done|]. split; [done|]. intros j. destruct (O' j) as [->| ->]; auto. }
  destruct l as [i|i|i o|i]; cbn [step].
  - destruct (slots s !! i) as [[[o|]| | | |]|] eqn:E; try (by eexists; eauto).
    destruct imm eqn:EI; [|by eexists; eauto]. apply W; [done|by left|by apply put_held].
  - eexists. split; [done|]. split; [done|]. apply disown_sub.
  - destruct (slots s !! i) as [[[q|]| | | |]|] eqn:E; try (by eexists; eauto).
    + eexists. split; [done|]. split; [done|]. apply (disown_sub i (put i (Absent (Some o)) s)).
    + destruct imm eqn:EI.
      * apply W; [done|apply (disown_sub i (put i Done s))|by apply (put_held i Done s)].
      * eexists. split; [done|]. split; [done|]. apply (disown_sub i (put i (Queued o) s)).
  - destruct (slots s !! i) as [[[q|]| | | |]|] eqn:E; try (by eexists; eauto).
    apply W; [done|by left|by apply put_held].
Qed.
Lemma run_ok v imm ls s : locked s = false -> (imm = false \/ ordered s \/ forall c o, resets v o c = false) ->
  exists s', run v imm s ls = Fine s' /\ locked s' = false.
Proof.
  revert s. induction ls as [|l ls IH]; intros s L H; simpl; [eauto|].
  destruct (step_ok (imm = false) v imm s l) as (s1 & E & L1 & O1); [congruence|done|done|]. rewrite E. apply IH; [done|].
  destruct H as [H|[H|H]]; [by left| |by right; right]. right. left.
  intros j k Hk. destruct (O1 j) as [Q|Q]; rewrite Q in Hk; [by apply H|by apply elem_of_nil in Hk].
Qed.

Lemma decides_resets v o s : resets v o (con s) = decides v o && undecided v s.
Proof. by destruct v, o. Qed.

(** a continuation that decides the result *)
Lemma decide_ok v imm s i o : locked s = false -> slots s !! i <> Some Held -> decides v o = true -> undecided v s = true -> (imm = false \/ ~ forward s) ->
  exists s', enter enough v imm s i o = Fine s' /\ locked s' = false /\ calls s' = S (calls s) /\ undecided v s' = false /\ forall j, j <> i -> ~ waiting s' j.
Proof.
  intros L N D U H. destruct (enter_ok v imm s i o L N) as (s' & E & L' & C & K & _ & _ & W).
  { destruct H as [H|H]; auto. }
  assert (R : resets v o (con s) = true) by (by rewrite decides_resets, D, U).
  assert (A : snd (arrive v i o (con s)) = true /\ undecided v s' = false).
  { unfold undecided in *. rewrite C. destruct v, o; try done; simpl in *; try (by destruct (exc (con s)));
    by destruct (single (con s)). }
  destruct A as [A1 A2]. exists s'. rewrite A1 in K. split; [done|]. split; [done|]. split; [lia|]. auto.
Qed.
Lemma decide_iff v imm s i o : locked s = false -> slots s !! i <> Some Held ->
  (exists k, enter enough v imm s i o = Stuck k) <-> imm = true /\ decides v o = true /\ undecided v s = true /\ forward s.
Proof.
  intros L N. split.
  - intros [k E].
    destruct (decide (imm = true /\ decides v o = true /\ undecided v s = true)) as [(H1 & H2 & H3)|X].
    + repeat split; try done. 
      destruct (forward_dec s) as [F|F]; [done|].
      destruct (enter_ok v imm s i o L N) as (s' & E' & _); [auto|congruence].
    + destruct (enter_ok v imm s i o L N) as (s' & E' & _); [|congruence].
      rewrite decides_resets. destruct imm; [|by left]. right. left. destruct (decides v o), (undecided v s); try done. by destruct X.
  - intros (-> & D & U & F). destruct (enter_stuck v s i o L N) as (k & E & _); [by rewrite decides_resets, D, U|done|eauto].
Qed.
Lemma any_never v : v = PackAny \/ v = PackAnyVoid -> forall c o, resets v o c = false.
Proof. by intros [->| ->] c [?|?]. Qed.
