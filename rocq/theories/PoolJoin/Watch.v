(** Tasks in queues are looked for, also when the queue's own thread has left. *)
From Coq Require Import List Bool Arith Lia.
From stdpp Require Import list.
From Verif.PoolJoin Require Import Model View Inv Cover Trace Joined.

Definition looks (c k : nat) (p : pos) (j : nat) : Prop :=
  (k = j /\ p <> Exited) \/ match p with Run _ _ => True | Loop n => exists d, n <= d < c /\ (k + d) mod c = j | _ => False end.
Definition watched (s : st) (j : nat) : Prop := exists k p, thr s !! k = Some p /\ looks (count s) k p j.
Definition wat (s : st) : Prop := forall j, j < count s -> nothing j s = false -> watched s j.

Lemma reach c k j : j < c -> exists d, d < c /\ (k + d) mod c = j.
Proof.
  intros Hj. exists ((j + (c - k mod c)) mod c). assert (Hc : c <> 0) by lia. split; [apply Nat.mod_upper_bound, Hc|].
  rewrite Nat.add_mod_idemp_r by exact Hc. rewrite <- Nat.add_mod_idemp_l by exact Hc.
  pose proof (Nat.mod_upper_bound k c Hc). replace (k mod c + (j + (c - k mod c))) with (j + 1 * c) by lia.
  rewrite Nat.mod_add by exact Hc. apply Nat.mod_small, Hj.
Qed.
Lemma looks_fresh c k j : j < c -> looks c k (Loop 0) j.
Proof. intros Hj. right. destruct (reach c k j Hj) as (d & H1 & H2). exists d. split; [lia|exact H2]. Qed.
(** the threads after a step look for whatever they looked for *)
Lemma wat_gen s s' : wat s -> count s' = count s -> (forall j, nothing j s' = false -> nothing j s = false) ->
  (forall k p j, thr s !! k = Some p -> j < count s -> nothing j s' = false -> looks (count s) k p j -> exists p', thr s' !! k = Some p' /\ looks (count s) k p' j) -> wat s'.
Proof.
  intros H Hc Hn Ht j Hj Hq. rewrite Hc in Hj. destruct (H j Hj (Hn j Hq)) as (k & p & Hk & Hl). destruct (Ht k p j Hk Hj Hq Hl) as (p' & Hk' & Hl').
  exists k, p'. rewrite Hc. auto.
Qed.
Lemma wat_thr s s' : wat s -> thr s' = thr s -> qs s' = qs s -> wat s'.
Proof.
  intros H Ht Hq. eapply wat_gen; [exact H|unfold count; rewrite Hq; reflexivity|intros j; rewrite (nothing_ext j s) by exact Hq; auto|]. intros k p j Hk _ _ Hl. rewrite Ht. eauto.
Qed.
Lemma thr_put_eq w a s a0 k p : get w s = Some a0 -> thr s !! k = Some p -> exists p', thr (put w a s) !! k = Some p' /\ (forall c j, looks c k p j -> looks c k p' j).
Proof.
  intros Hg Hk. destruct (is_run p) eqn:Ep.
  - destruct p as [| | | |t b]; try discriminate. assert (Hx : exists b', thr (put w a s) !! k = Some (Run t b')) by (eapply run_put; eauto).
    destruct Hx as [b' Hx]. exists (Run t b'). split; [exact Hx|]. intros. right. exact I.
  - exists p. split; [|auto]. apply (thr_put w a s a0); auto.
Qed.
Lemma wat_put w a s a0 : wat s -> get w s = Some a0 -> wat (put w a s).
Proof.
  intros H Hg. assert (Hq : qs (put w a s) = qs s) by apply put_proj.
  eapply wat_gen; [exact H|unfold count; rewrite Hq; reflexivity|intros j; rewrite (nothing_ext j s) by exact Hq; auto|].
  intros k p j Hk _ _ Hl. destruct (thr_put_eq w a s a0 k p Hg Hk) as (p' & H1 & H2). eauto.
Qed.
Lemma wat_notify j s : wat s -> wat (notify j s).
Proof.
  intros H. assert (Hq : qs (notify j s) = qs s) by apply notify_proj.
  eapply wat_gen; [exact H|unfold count; rewrite Hq; reflexivity|intros i; rewrite (nothing_ext i s) by exact Hq; auto|].
  intros k p i Hk _ _ Hl. assert (Hd : (exists b, p = Wait b) \/ forall b, p <> Wait b) by (destruct p; eauto; right; discriminate).
  destruct Hd as [[b ->]|Hd].
  - assert (Hx : exists b', thr (notify j s) !! k = Some (Wait b')) by (apply thr_notify_wait; eauto). destruct Hx as [b' Hx].
    exists (Wait b'). split; [exact Hx|]. destruct Hl as [[-> _]|[]]. left. split; [reflexivity|discriminate].
  - exists p. split; [|exact Hl]. apply thr_notify_ne; auto.
Qed.
Lemma wat_pos k p0 p s s1 : wat s -> thr s !! k = Some p0 -> thr s1 = thr s -> qs s1 = qs s ->
  (forall j, j < count s -> nothing j s = false -> looks (count s) k p0 j -> looks (count s) k p j) -> wat (set_pos k p s1).
Proof.
  intros H Hk Ht Hq Hl. eapply wat_gen; [exact H|unfold count; simpl; rewrite Hq; reflexivity|intros j; rewrite (nothing_ext j s) by exact Hq; auto|].
  intros i p' j Hi Hj Hn Hlk. rewrite (nothing_ext j s) in Hn by exact Hq. simpl. rewrite Ht. destruct (decide (k = i)) as [->|Hne].
  - exists p. rewrite list_lookup_insert by (eapply lookup_lt_Some, Hk). rewrite Hk in Hi. injection Hi as <-. auto.
  - exists p'. rewrite list_lookup_insert_ne by exact Hne. auto.
Qed.
(** a thread that runs a task *)
Lemma wat_run s k t a : thr s !! k = Some (Run t a) -> wat s.
Proof. intros Hk j _ _. exists k, (Run t a). split; [exact Hk|]. right. exact I. Qed.
Lemma take_wat k j c s1 s' e : k < length (thr s1) -> take_from k j c s1 = Some (s', e) -> wat s'.
Proof.
  intros Hk Hst. apply take_qs in Hst as (q & t & H1 & H2 & -> & ->). apply (wat_run _ k t User). simpl. apply list_lookup_insert. exact Hk.
Qed.
Lemma eval_wat k c p0 s s1 s' e : wat s -> thr s !! k = Some p0 -> (p0 = Lock \/ exists b, p0 = Wait b) -> thr s1 = thr s -> qs s1 = qs s ->
  eval_wait k c s1 = Some (s', e) -> wat s'.
Proof.
  intros H Hk Hp Ht Hq Hst. unfold eval_wait in Hst.
  assert (Hl0 : forall j, looks (count s) k p0 j -> k = j). { intros j [[-> _]|Hx]; [reflexivity|]. destruct Hp as [->|[b ->]]; destruct Hx. }
  destruct ((k <? count s1) && negb (nothing k s1)) eqn:En.
  - eapply take_wat; [|exact Hst]. simpl. rewrite Ht. eapply lookup_lt_Some, Hk.
  - assert (Hno : forall j, j < count s -> nothing j s = false -> looks (count s) k p0 j -> False).
    { intros j Hj Hn Hl. apply Hl0 in Hl. subst j. unfold count in *. rewrite Hq, (nothing_ext k s), Hn in En by exact Hq. apply Nat.ltb_lt in Hj. rewrite Hj in En. discriminate. }
    repeat case_match; simplify_eq; (eapply (wat_pos k p0 _ s); [exact H|exact Hk|exact Ht|exact Hq|intros j Hj Hn Hl; destruct (Hno j Hj Hn Hl)]).
Qed.
Lemma push_wat m tr j t w a a0 s : base s -> jinv m tr s -> wat s -> get w s = Some a0 -> out a0 = false -> wat (put w a (push (j mod count s) t s)).
Proof.
  intros Hb Hj H Hg Ho. pose proof (b_pos _ Hb) as Hpos. assert (Hm : j mod count s < count s) by (apply Nat.mod_upper_bound; lia). set (i := j mod count s) in *.
  destruct (push_proj i t s) as (_ & _ & _ & _ & Ec & Et & Eq & _). assert (Hg1 : get w (push i t s) = Some a0) by (rewrite (get_ext w s) by assumption; exact Hg).
  apply (wat_put w a _ a0); [|exact Hg1]. destruct w as [k|k].
  - rewrite get_T in Hg. destruct (thr s !! k) as [[| | | |y b]|] eqn:E; try discriminate. apply (wat_run _ k y b). rewrite Et. exact E.
  - assert (Hc : called s = false). { destruct (called s) eqn:Hc; [|reflexivity]. pose proof (j_cl _ _ _ Hj Hc k a0 Hg). congruence. }
    assert (Hno : jn s = JNo) by (unfold called in Hc; destruct (jn s); congruence).
    intros i' Hi' _. change (count (push i t s)) with (length (qs (push i t s))) in Hi'. rewrite Eq in Hi'. pose proof (b_cnt _ Hb) as Hcn. unfold count in Hcn.
    assert (Hlt : i' < length (thr s)) by lia. apply lookup_lt_is_Some in Hlt as [p Hp]. exists i', p. rewrite Et. split; [exact Hp|]. left. split; [reflexivity|].
    intros ->. pose proof (j_ex _ _ _ Hj i' Hp) as Hd. rewrite (j_no _ _ _ Hj Hno) in Hd. discriminate.
Qed.
Lemma join_wat d s s' e : wat s -> join d s = Some (s', e) -> wat s'.
Proof.
  intros H Hst. unfold join in Hst. repeat case_match; simplify_eq; try (eapply wat_thr; eauto; fail). apply wat_notify. eapply wat_thr; eauto.
Qed.
Lemma step_wat m tr s l s' e : base s -> jinv m tr s -> wat s -> step m s l = Some (s', e) -> Missed ∉ e -> wat s'.
Proof.
  intros Hb Hj H Hst Hm. unfold step in Hst. destruct (bad s); [discriminate|]. destruct l as [|w|w o|w|w f|k f c|k|w|k|].
  - destruct (called s); [discriminate|]. injection Hst as <- <-. eapply wat_thr; eauto.
  - destruct (get w s) as [[]|] eqn:E; try discriminate. destruct (may w s); [|discriminate]. injection Hst as <- <-.
    eapply (wat_thr (put w (Try (next s) (idx s) 0) s)); try reflexivity. eapply wat_put; eauto.
  - destruct (get w s) as [[]|] eqn:E; try discriminate. destruct (may w s); [|discriminate].
    destruct (match o with Some y => _ | None => _ end); injection Hst as <- <-; [exact H|eapply wat_put; eauto].
  - destruct (get w s) as [[| | | | | | |[]]|] eqn:E; try discriminate. injection Hst as <- <-. eapply wat_put; eauto.
  - destruct (get w s) as [a|] eqn:E; try discriminate. unfold call in Hst. destruct (uses a && cleared s); [injection Hst as <- <-; eapply wat_thr; eauto|].
    destruct a as [|t i n|t i|j k|n o|n l o|o|o]; simpl in Hst; try discriminate.
    + destruct f; injection Hst as <- <-; [eapply wat_put; eauto|]. eapply push_wat; eauto.
    + injection Hst as <- <-. eapply push_wat; eauto.
    + injection Hst as <- <-. apply wat_notify. eapply wat_put; eauto.
    + repeat case_match; simplify_eq; first [eapply (wat_put w _ s); eauto; fail|eapply (wat_put w _ (set_flag n false s)); [eapply wat_thr; eauto|exact E]].
    + repeat case_match; simplify_eq; first [eapply (wat_put w _ s); eauto; fail|eapply (wat_put w _ (set_flag (count s + n) false s)); [eapply wat_thr; eauto|exact E]].
    + pose proof (wat_put w (Blocked o) s _ H E) as Hw. destruct (length (thr s) =? m); injection Hst as <- <-; [exact Hw|].
      eapply wat_gen; [exact Hw|reflexivity|intros j Hx; exact Hx|]. intros k p j Hk _ _ Hl. exists p. split; [|exact Hl]. simpl. apply lookup_app_l_Some. exact Hk.
  - unfold poll in Hst. destruct (thr s !! k) as [[n| |[]| |t a]|] eqn:E; try discriminate.
    + destruct (cleared s); [injection Hst as <- <-; eapply wat_thr; eauto|].
      destruct (nothing ((k + n) mod count s) s) eqn:En.
      * assert (Hon : wat (set_pos k (if S n =? count s then Lock else Loop (S n)) s)).
        { eapply (wat_pos k (Loop n) _ s); eauto. intros j Hjc Hnj [[-> _]|(d & Hd & Hdj)]; [left; split; [reflexivity|destruct (S n =? count s); discriminate]|].
          destruct (decide (d = n)) as [->|Hne]; [congruence|]. destruct (S n =? count s) eqn:Ec; [apply Nat.eqb_eq in Ec; lia|].
          right. exists d. split; [lia|exact Hdj]. }
        destruct f; injection Hst as <- <-; exact Hon.
      * destruct f; [injection Hst as <- <-; exfalso; apply Hm; left|]. eapply take_wat; [|exact Hst]. eapply lookup_lt_Some, E.
    + destruct (cleared s && _); [injection Hst as <- <-; eapply wat_thr; eauto|]. eapply (eval_wat k c Lock s (set_flag k true s)); eauto.
    + destruct (cleared s && _); [injection Hst as <- <-; eapply wat_thr; eauto|]. eapply (eval_wat k c (Wait true) s s); eauto.
  - destruct (thr s !! k) as [[n| |b| |t []]|] eqn:E; try discriminate. injection Hst as <- <-.
    eapply (wat_thr (set_pos k (Loop 0) s)); try reflexivity. eapply (wat_pos k (Run t User) _ s); eauto. intros j Hjc _ _. apply looks_fresh, Hjc.
  - destruct (get w s) as [[| | | | | | |[]]|] eqn:E; try discriminate. destruct (bool_decide _); [|discriminate]. injection Hst as <- <-. eapply wat_put; eauto.
  - destruct (thr s !! k) as [[n| |b| |t a]|] eqn:E; try discriminate. injection Hst as <- <-. eapply (wat_pos k (Wait b) _ s); eauto.
    intros j _ _ [[-> _]|[]]. left. split; [reflexivity|discriminate].
  - eapply join_wat; eauto.
Qed.
Lemma init_wat c m : wat (init c m).
Proof.
  intros j _ Hn. unfold nothing in Hn. simpl in Hn. destruct (replicate c [] !! j) as [q|] eqn:E; [|discriminate]. apply lookup_replicate in E as [-> _]. discriminate.
Qed.
