(** A thread that should be notified is, and a task that was queued when somebody awaited is looked for. *)
From Coq Require Import List Bool Arith Lia.
From stdpp Require Import list.
From Verif.PoolWait Require Import Model View Inv.

Lemma nothing_false j s : nothing j s = false <-> exists q, qs s !! j = Some q /\ q <> [].
Proof.
  unfold nothing. destruct (qs s !! j) as [[|x q]|]; simpl; split.
  - discriminate.
  - intros (q' & [= <-] & Hq). congruence.
  - intros _. eexists. split; [reflexivity|discriminate].
  - reflexivity.
  - discriminate.
  - intros (q' & [=] & _).
Qed.
Lemma nothing_ext j s s' : qs s' = qs s -> nothing j s' = nothing j s.
Proof. unfold nothing. intros ->. reflexivity. Qed.
Lemma qs_push j t s k : k <> j -> qs (push j t s) !! k = qs s !! k.
Proof. intros Hk. unfold push. destruct (qs s !! j); simpl; [|reflexivity]. apply list_lookup_insert_ne. congruence. Qed.
Lemma qs_push_same j t s q : qs s !! j = Some q -> qs (push j t s) !! j = Some (q ++ [(t, false)]).
Proof. intros Hq. unfold push. rewrite Hq. simpl. apply list_lookup_insert. eapply lookup_lt_Some, Hq. Qed.

(** * Notified threads *)
Definition park (s : st) : Prop := forall k, thr s !! k = Some (Wait false) ->
  k < count s /\ nothing k s = false \/ flag s !! k = Some false -> exists w kk, get w s = Some (Notify k kk).
Definition is_notify (a : act) : bool := match a with Notify _ _ => true | _ => false end.
Lemma park_gen w a s s1 a0 : park s -> get w s1 = Some a0 -> is_notify a0 = false -> thr s1 = thr s -> cl s1 = cl s -> count s1 = count s ->
  (forall k, nothing k s1 = false -> nothing k s = false \/ exists kk, a = Notify k kk) ->
  (forall k, flag s1 !! k = Some false -> flag s !! k = Some false \/ exists kk, a = Notify k kk) ->
  park (put w a s1).
Proof.
  intros H Hg Ha Ht Hcl Hc Hn Hf k Hk Hor. destruct (put_proj w a s1) as (Eq & Ef & _).
  apply (thr_put w a s1 a0) in Hk; [|exact Hg|reflexivity]. rewrite Ht in Hk.
  unfold count in *. rewrite Eq, Ef, (nothing_ext _ _ _ Eq), Hc in Hor.
  assert (Hcase : (k < length (qs s) /\ nothing k s = false \/ flag s !! k = Some false) \/ exists kk, a = Notify k kk).
  { destruct Hor as [[Hl Hx]|Hx]; [destruct (Hn k Hx)|destruct (Hf k Hx)]; tauto. }
  destruct Hcase as [Hcase|[kk ->]].
  - destruct (H k Hk Hcase) as (w' & kk & Hw). exists w', kk. rewrite (get_put w w' a s1 a0 Hg). rewrite <- (get_ext w' s s1 Ht Hcl) in Hw.
    destruct (decide (w = w')) as [->|]; [|exact Hw]. rewrite Hg in Hw. injection Hw as ->. discriminate Ha.
  - exists w, kk. rewrite (get_put w w _ s1 a0 Hg). rewrite decide_True by reflexivity. reflexivity.
Qed.
Lemma park_put w a s a0 : park s -> get w s = Some a0 -> is_notify a0 = false -> park (put w a s).
Proof. intros H Hg Ha. eapply park_gen; eauto. Qed.
Lemma push_nothing j t s k : nothing k (push j t s) = false -> nothing k s = false \/ k = j.
Proof.
  intros H. destruct (decide (k = j)) as [->|Hn]; [auto|]. left. unfold nothing in *. rewrite qs_push in H by exact Hn. exact H.
Qed.
Lemma park_push w j t s a0 : park s -> get w s = Some a0 -> is_notify a0 = false -> park (put w (Notify j None) (push j t s)).
Proof.
  intros H Hg Ha. destruct (push_proj j t s) as (Ef & _ & _ & _ & Ecl & Et & Eq).
  eapply park_gen; eauto.
  - rewrite (get_ext w s) by assumption. exact Hg.
  - intros k Hk. destruct (push_nothing _ _ _ _ Hk) as [?| ->]; eauto.
  - intros k Hk. rewrite Ef in Hk. auto.
Qed.
Lemma park_wake w j o s a0 : park s -> get w s = Some a0 -> is_notify a0 = false -> park (put w (Notify j o) (set_flag j false s)).
Proof.
  intros H Hg Ha. eapply park_gen; eauto.
  intros k Hk. simpl in Hk. destruct (decide (j = k)) as [->|Hn]; [eauto|]. rewrite list_lookup_insert_ne in Hk by exact Hn. auto.
Qed.
(** a thread of the pool moves by itself *)
Lemma park_pos k p s s1 : park s -> (forall w kk j, get w s = Some (Notify j kk) -> get w s1 = Some (Notify j kk)) ->
  (forall j, j <> k -> thr s1 !! j = Some (Wait false) -> thr s !! j = Some (Wait false)) -> thr s1 !! k = Some p ->
  (p = Wait false -> (k < count s1 -> nothing k s1 = true) /\ flag s1 !! k = Some true) ->
  count s1 = count s -> (forall j, nothing j s1 = false -> nothing j s = false) -> (forall j, j <> k -> flag s1 !! j = Some false -> flag s !! j = Some false) ->
  park s1.
Proof.
  intros H Hg Ht Hk Hp Hc Hn Hf j Hj Hor. destruct (decide (j = k)) as [->|Hjk].
  - rewrite Hk in Hj. injection Hj as ->. destruct (Hp eq_refl) as [H1 H2]. destruct Hor as [[Ha Hb]|Ha]; [rewrite (H1 Ha) in Hb|rewrite H2 in Ha]; discriminate.
  - rewrite Hc in Hor. destruct (H j (Ht j Hjk Hj)) as (w & kk & Hw); [|eauto]. destruct Hor as [[Ha Hb]|Ha]; eauto.
Qed.
Lemma call_park m w fail a s s' e : base s -> park s -> get w s = Some a -> call m w fail a s = Some (s', e) -> park s'.
Proof.
  intros Hb H Hg Hst. destruct a as [|t i n|t i|j k|n o|n l o|o|o]; simpl in Hst; try discriminate.
  - destruct fail; injection Hst as <- <-; [eapply park_put|eapply park_push]; eauto.
  - injection Hst as <- <-. eapply park_push; eauto.
  - injection Hst as <- <-. intros i Hi Hor. apply thr_notify_false in Hi as [Hi Hij].
    set (a := match k with None => User | Some o => Blocked o end) in *. destruct (put_proj w a s) as (Eq & Ef & _).
    destruct (notify_proj j (put w a s)) as (Eq' & Ef' & _).
    apply (thr_put w a s _) with (1 := Hg) in Hi; [|reflexivity].
    unfold count in Hor. rewrite Eq', Ef', Eq, Ef, (nothing_ext _ s) in Hor by congruence.
    destruct (H i Hi Hor) as (w' & kk & Hw). exists w', kk. rewrite get_notify, (get_put w w' a s _ Hg).
    destruct (decide (w = w')) as [->|]; [|exact Hw]. congruence.
  - repeat case_match; simplify_eq; try (eapply park_put; eauto; fail). eapply park_wake; eauto.
  - repeat case_match; simplify_eq; try (eapply park_put; eauto; fail). eapply park_wake; eauto.
  - assert (Hp : park (put w (Blocked o) s)) by (eapply park_put; eauto). destruct (put_proj w (Blocked o) s) as (_ & Efl & _ & _ & _ & Elt).
    pose proof (b_flag _ Hb) as Hbf.
    destruct (length (thr s) =? m); injection Hst as <- <-; [exact Hp|]. intros k Hk Hor. simpl in Hk, Hor.
    apply lookup_app_Some in Hk as [Hk|[Hl Hk]]; [|apply list_lookup_singleton_Some in Hk as [_ Hk]; discriminate].
    apply lookup_lt_Some in Hk as Hl. rewrite lookup_app_l in Hor by (rewrite Efl, Hbf, <- Elt; exact Hl).
    destruct (Hp k Hk Hor) as (w' & kk & Hw). exists w', kk. destruct w' as [i|i]; [|exact Hw]. rewrite get_T in Hw |- *. simpl.
    destruct (thr (put w (Blocked o) s) !! i) as [p|] eqn:E; [|discriminate]. erewrite lookup_app_l_Some; [|exact E]. exact Hw.
Qed.
Lemma get_pos_other k p s w a : k < length (thr s) -> get w s = Some a -> (forall t b, thr s !! k = Some (Run t b) -> False) -> get w (set_pos k p s) = Some a.
Proof.
  intros Hk Hg Hn. rewrite get_set_pos by exact Hk. destruct (decide (w = T k)) as [->|]; [|exact Hg].
  rewrite get_T in Hg. destruct (thr s !! k) as [[]|]; simpl in Hg; try discriminate. exfalso. eauto.
Qed.
Lemma take_qs k j c s s' e : take_from k j c s = Some (s', e) ->
  exists q t b, qs s !! j = Some q /\ q !! c = Some (t, b) /\ e = [Started t] /\ s' = set_pos k (Run t User) (set_qs (<[j := delete c q]> (qs s)) s).
Proof.
  unfold take_from. destruct (qs s !! j) as [q|] eqn:Eq; [|discriminate]. destruct (q !! c) as [[t b]|] eqn:Et; [|discriminate]. intros [= <- <-]. eauto 10.
Qed.
Lemma take_nothing j c q s i : qs s !! j = Some q -> nothing i (set_qs (<[j := delete c q]> (qs s)) s) = false -> nothing i s = false.
Proof.
  intros Hq. unfold nothing. simpl. destruct (decide (j = i)) as [->|Hn].
  - rewrite list_lookup_insert by (eapply lookup_lt_Some, Hq). rewrite Hq. destruct q; [destruct c; discriminate|reflexivity].
  - rewrite list_lookup_insert_ne by exact Hn. tauto.
Qed.
(** what a thread that polls does to the others: nothing *)
Lemma take_park k j c s s1 s' e p : park s -> thr s !! k = Some p -> is_run p = false -> qs s1 = qs s -> thr s1 = thr s -> cl s1 = cl s ->
  (forall i, i <> k -> flag s1 !! i = flag s !! i) -> take_from k j c s1 = Some (s', e) -> park s'.
Proof.
  intros H Hk Hp Hq Ht Hcl Hf Hst. apply take_qs in Hst as (q & t & b & Eq & Et & -> & ->). apply lookup_lt_Some in Hk as Hl.
  eapply (park_pos k (Run t User) s); try exact H.
  - intros w kk i Hw. apply get_pos_other; simpl; rewrite ?Ht; auto; [|intros t' b' Hc; rewrite Hk in Hc; injection Hc as ->; discriminate].
    rewrite (get_ext w s); auto.
  - intros i Hi. simpl. rewrite list_lookup_insert_ne by congruence. rewrite Ht. auto.
  - simpl. apply list_lookup_insert. rewrite Ht. exact Hl.
  - discriminate.
  - unfold count. simpl. rewrite insert_length, Hq. reflexivity.
  - intros i Hi. rewrite <- (nothing_ext i s s1 Hq). eapply take_nothing; [exact Eq|exact Hi].
  - intros i Hi. simpl. rewrite Hf by exact Hi. auto.
Qed.
Lemma move_park k p s s1 : park s -> (exists p0, thr s !! k = Some p0 /\ is_run p0 = false) -> qs s1 = qs s -> thr s1 = thr s -> cl s1 = cl s ->
  (forall i, i <> k -> flag s1 !! i = flag s !! i) -> (p = Wait false -> (k < count s -> nothing k s = true) /\ flag s1 !! k = Some true) ->
  park (set_pos k p s1).
Proof.
  intros H (p0 & Hk & Hp) Hq Ht Hcl Hf Hw. apply lookup_lt_Some in Hk as Hl.
  eapply (park_pos k p s); try exact H.
  - intros w kk i Hg. apply get_pos_other; rewrite ?Ht; auto; [|intros t' b' Hc; rewrite Hk in Hc; injection Hc as ->; discriminate].
    rewrite (get_ext w s); auto.
  - intros i Hi. simpl. rewrite list_lookup_insert_ne by congruence. rewrite Ht. auto.
  - simpl. apply list_lookup_insert. rewrite Ht. exact Hl.
  - intros Hx. unfold count. simpl. rewrite Hq. rewrite (nothing_ext k s) by exact Hq. auto.
  - unfold count. simpl. rewrite Hq. reflexivity.
  - intros i. rewrite (nothing_ext i s) by exact Hq. auto.
  - intros i Hi. simpl. rewrite Hf by exact Hi. auto.
Qed.
Lemma eval_park_inv k c s s1 s' e : park s -> (exists p0, thr s !! k = Some p0 /\ is_run p0 = false) -> qs s1 = qs s -> thr s1 = thr s -> cl s1 = cl s ->
  (forall i, i <> k -> flag s1 !! i = flag s !! i) -> eval_wait k c s1 = Some (s', e) -> park s'.
Proof.
  intros H Hk Hq Ht Hcl Hf Hst. unfold eval_wait in Hst.
  assert (Hc : count s1 = count s) by (unfold count; rewrite Hq; reflexivity).
  rewrite Hc, (nothing_ext k s) in Hst by exact Hq.
  destruct (k <? count s) eqn:El; [destruct (nothing k s) eqn:En|].
  - destruct (flag s1 !! k) as [[]|] eqn:Ef; injection Hst as <- <-; eapply move_park; eauto; discriminate.
  - destruct Hk as (p0 & Hk & Hp). eapply (take_park k k c s (set_flag k false s1)); eauto.
    intros i Hi. simpl. rewrite list_lookup_insert_ne by congruence. auto.
  - apply Nat.ltb_ge in El. destruct (flag s1 !! k) as [[]|] eqn:Ef; injection Hst as <- <-; eapply move_park; eauto; try discriminate.
    intros _. split; [lia|exact Ef].
Qed.
Lemma poll_park k fail c s s' e : park s -> poll k fail c s = Some (s', e) -> park s'.
Proof.
  intros H Hst. unfold poll in Hst. destruct (thr s !! k) as [[n| |[]|t a]|] eqn:E; try discriminate.
  - assert (Hon : park (set_pos k (if S n =? count s then Lock else Loop (S n)) s)).
    { eapply move_park; eauto. destruct (S n =? count s); discriminate. }
    destruct fail; [injection Hst as <- <-; exact Hon|]. destruct (nothing _ s); [injection Hst as <- <-; exact Hon|].
    eapply take_park; [exact H|exact E|reflexivity|reflexivity..|]. exact Hst.
  - eapply (eval_park_inv k c s (set_flag k true s)); eauto.
    intros i Hi. simpl. apply list_lookup_insert_ne. congruence.
  - eapply (eval_park_inv k c s s); eauto.
Qed.
Lemma step_park m s l s' e : base s -> park s -> step m s l = Some (s', e) -> park s'.
Proof.
  intros Hb H Hst. destruct l as [|w|w o|w|w f|k f c|k|w|k]; simpl in Hst.
  - injection Hst as <- <-. intros k Hk Hor. destruct (H k Hk Hor) as (w & kk & Hw). exists w, kk. destruct w as [i|i]; [exact Hw|].
    apply lookup_app_l_Some. exact Hw.
  - destruct (get w s) as [[]|] eqn:E; try discriminate. injection Hst as <- <-.
    assert (Hp : park (put w (Try (next s) (idx s) 0) s)) by (eapply park_put; eauto). exact Hp.
  - destruct (get w s) as [[]|] eqn:E; try discriminate. destruct (match o with Some y => _ | None => _ end); injection Hst as <- <-; [exact H|].
    eapply (park_gen w _ s (age s)); eauto.
    + apply age_count.
    + intros k Hk. left. unfold nothing, age in *. simpl in Hk. rewrite list_lookup_fmap in Hk. destruct (qs s !! k) as [[]|]; auto.
  - destruct (get w s) as [[| | | | | | |[]]|] eqn:E; try discriminate. injection Hst as <- <-. eapply park_put; eauto.
  - destruct (get w s) as [a|] eqn:E; try discriminate. eapply call_park; eauto.
  - eapply poll_park; eauto.
  - destruct (thr s !! k) as [[n| |b|t []]|] eqn:E; try discriminate. injection Hst as <- <-. apply lookup_lt_Some in E as Hl.
    assert (Hp : park (set_pos k (Loop 0) s)).
    { eapply (park_pos k (Loop 0) s); eauto; try discriminate.
      - intros w kk j Hw. rewrite get_set_pos by exact Hl. destruct (decide (w = T k)) as [->|]; [|exact Hw]. rewrite get_T, E in Hw. discriminate.
      - intros j Hj. simpl. rewrite list_lookup_insert_ne by congruence. auto.
      - simpl. apply list_lookup_insert. exact Hl. }
    exact Hp.
  - destruct (get w s) as [[| | | | | | |[]]|] eqn:E; try discriminate. destruct (bool_decide _); [|discriminate]. injection Hst as <- <-. eapply park_put; eauto.
  - destruct (thr s !! k) as [[n| |b|t a]|] eqn:E; try discriminate. injection Hst as <- <-. eapply move_park; eauto. discriminate.
Qed.
Lemma init_park c : park (init c).
Proof. intros k Hk. simpl in Hk. apply lookup_replicate in Hk as [Hk _]. discriminate. Qed.
