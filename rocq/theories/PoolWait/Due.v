(** A task that was queued when somebody awaited is looked for, as long as try_pop does not miss it and the limit is not reached. *)
From Coq Require Import List Bool Arith Lia.
From stdpp Require Import list.
From Verif.PoolWait Require Import Model View Inv Cover.

Definition helps (w : who) (a : act) : bool :=
  match a with
  | Blocked _ | Notify _ (Some _) => false
  | WakeQ _ _ | WakeW _ _ _ | AddTh _ => true
  | _ => match w with T _ => true | C _ => false end
  end.
Definition cov (s : st) (j : nat) : Prop :=
  (exists w a, get w s = Some a /\ helps w a = true) \/
  (exists k n d, thr s !! k = Some (Loop n) /\ n <= d < count s /\ (k + d) mod count s = j) \/
  (exists k b, thr s !! k = Some (Wait b) /\ flag s !! k = Some false).
Definition due (s : st) (j : nat) : Prop := exists q t, qs s !! j = Some q /\ (t, true) ∈ q.
Definition covered (s : st) : Prop := forall j, due s j -> cov s j.

Lemma due_lt s j : due s j -> j < count s.
Proof. intros (q & t & Hq & _). eapply lookup_lt_Some, Hq. Qed.
Lemma reach c k j : j < c -> exists d, d < c /\ (k + d) mod c = j.
Proof.
  intros Hj. exists ((j + (c - k mod c)) mod c). assert (Hc : c <> 0) by lia. split; [apply Nat.mod_upper_bound, Hc|].
  rewrite Nat.add_mod_idemp_r by exact Hc. rewrite <- Nat.add_mod_idemp_l by exact Hc.
  pose proof (Nat.mod_upper_bound k c Hc). replace (k mod c + (j + (c - k mod c))) with (j + 1 * c) by lia.
  rewrite Nat.mod_add by exact Hc. apply Nat.mod_small, Hj.
Qed.
(** everything is looked for *)
Lemma all_loop s k : thr s !! k = Some (Loop 0) -> covered s.
Proof. intros Hk j Hd. destruct (reach (count s) k j (due_lt _ _ Hd)) as (d & H1 & H2). right. left. exists k, 0, d. split; [exact Hk|]. split; [lia|exact H2]. Qed.
Lemma all_helps s w a : get w s = Some a -> helps w a = true -> covered s.
Proof. intros Hg Hh j _. left. eauto. Qed.
Lemma all_woken s k b : thr s !! k = Some (Wait b) -> flag s !! k = Some false -> covered s.
Proof. intros Hk Hf j _. right. right. eauto. Qed.

Lemma cov_mono s s' : covered s -> count s' = count s -> (forall j, due s' j -> due s j) ->
  (forall w a, get w s = Some a -> helps w a = true -> exists w' a', get w' s' = Some a' /\ helps w' a' = true) ->
  (forall k n, thr s !! k = Some (Loop n) -> thr s' !! k = Some (Loop n)) ->
  (forall k b, thr s !! k = Some (Wait b) -> flag s !! k = Some false -> exists b', thr s' !! k = Some (Wait b') /\ flag s' !! k = Some false) -> covered s'.
Proof.
  intros H Hc Hd Hg Hl Hw j Hj. destruct (H j (Hd j Hj)) as [(w & a & H1 & H2)|[(k & n & d & H1 & H2 & H3)|(k & b & H1 & H2)]].
  - left. destruct (Hg w a H1 H2) as (w' & a' & ?). eauto.
  - right. left. exists k, n, d. rewrite Hc. auto.
  - right. right. destruct (Hw k b H1 H2) as (b' & ?). eauto.
Qed.
Lemma due_ext s s' j : qs s' = qs s -> due s' j -> due s j.
Proof. unfold due. intros ->. auto. Qed.
Lemma cov_put w a s a0 : covered s -> get w s = Some a0 -> (helps w a0 = true -> helps w a = true) -> covered (put w a s).
Proof.
  intros H Hg Hh. destruct (put_proj w a s) as (Eq & Ef & _). eapply cov_mono; [exact H|unfold count; rewrite Eq; reflexivity|intros j; apply due_ext, Eq|..].
  - intros w' a' Hg' Hh'. exists w'. rewrite (get_put w w' a s a0 Hg). destruct (decide (w = w')) as [->|]; [|eauto].
    rewrite Hg in Hg'. injection Hg' as ->. eauto.
  - intros k n. apply (thr_put w a s a0 k); auto.
  - intros k b Hk Hf. exists b. rewrite Ef. split; [|exact Hf]. apply (thr_put w a s a0 k); auto.
Qed.
Lemma due_push i t s j : due (push i t s) j -> due s j.
Proof.
  intros (q & u & Hq & Hu). destruct (decide (j = i)) as [->|Hn].
  - destruct (qs s !! i) as [q0|] eqn:E.
    + rewrite (qs_push_same i t s q0 E) in Hq. injection Hq as <-. exists q0, u. split; [exact E|].
      apply elem_of_app in Hu as [Hu|Hu]; [exact Hu|]. apply elem_of_list_singleton in Hu. discriminate.
    + unfold push in Hq. rewrite E in Hq. congruence.
  - rewrite qs_push in Hq by exact Hn. exists q, u. auto.
Qed.
Lemma cov_push i t s : covered s -> covered (push i t s).
Proof.
  intros H. destruct (push_proj i t s) as (Ef & _ & _ & _ & Ecl & Et & Eq).
  eapply cov_mono; [exact H|exact Eq|apply due_push|..]; rewrite ?Et, ?Ef; eauto.
  intros w a Hg. rewrite <- (get_ext w s (push i t s)) in Hg by assumption. eauto.
Qed.
Lemma cov_notify j s : covered s -> covered (notify j s).
Proof.
  intros H. destruct (notify_proj j s) as (Eq & Ef & _). eapply cov_mono; [exact H|unfold count; rewrite Eq; reflexivity|intros i; apply due_ext, Eq|..].
  - intros w a. rewrite <- (get_notify j w s). eauto.
  - intros k n Hk. apply thr_notify_ne; [discriminate|exact Hk].
  - intros k b Hk Hf. rewrite Ef. assert (Hx : exists b', thr (notify j s) !! k = Some (Wait b')) by (apply thr_notify_wait; eauto).
    destruct Hx as [b' Hx]. eauto.
Qed.
Lemma cov_wake w j o s a0 : base s -> flag s !! j = Some true -> get w s = Some a0 -> covered (put w (Notify j o) (set_flag j false s)).
Proof.
  intros Hb Hf Hg. destruct (b_wait _ Hb _ Hf) as [b Hk]. eapply (all_woken _ j b).
  - eapply thr_put; [rewrite (get_ext w s) by reflexivity; exact Hg|reflexivity|exact Hk].
  - destruct (put_proj w (Notify j o) (set_flag j false s)) as (_ & -> & _). apply flag_set. eapply lookup_lt_Some, Hf.
Qed.
Lemma call_cov m w fail a s s' e : base s -> covered s -> get w s = Some a -> call m w fail a s = Some (s', e) -> Full ∉ e -> covered s'.
Proof.
  intros Hb H Hg Hst Hnl. destruct a as [|t i n|t i|j k|n o|n l o|o|o]; simpl in Hst; try discriminate.
  - destruct fail; injection Hst as <- <-; [eapply cov_put; [exact H|exact Hg|destruct (S n =? count s); auto]|].
    eapply cov_put; [apply cov_push, H|rewrite (get_ext w s) by apply push_proj; exact Hg|auto].
  - injection Hst as <- <-. eapply cov_put; [apply cov_push, H|rewrite (get_ext w s) by apply push_proj; exact Hg|auto].
  - injection Hst as <- <-. apply cov_notify. eapply cov_put; [exact H|exact Hg|]. destruct k; [discriminate|auto].
  - repeat case_match; simplify_eq; try (eapply cov_put; eauto; fail); eapply cov_wake; eauto.
  - repeat case_match; simplify_eq; try (eapply cov_put; eauto; fail); eapply cov_wake; eauto.
  - destruct (length (thr s) =? m); injection Hst as <- <-; [exfalso; apply Hnl; left|]. eapply (all_loop _ (length (thr (put w (Blocked o) s)))).
    simpl. apply list_lookup_middle. reflexivity.
Qed.
(** thread k moves on its own and was looking for nothing *)
Lemma cov_move k p0 p s s1 : covered s -> thr s !! k = Some p0 -> is_run p0 = false ->
  (forall n, p0 <> Loop n) -> (forall b, p0 = Wait b -> flag s !! k <> Some false) ->
  qs s1 = qs s -> thr s1 = thr s -> cl s1 = cl s -> (forall i, i <> k -> flag s1 !! i = flag s !! i) -> covered (set_pos k p s1).
Proof.
  intros H Hk Hr Hl Hw Hq Ht Hcl Hf. apply lookup_lt_Some in Hk as Hlt.
  eapply (cov_mono s); [exact H|unfold count; simpl; rewrite Hq; reflexivity|intros i; apply due_ext, Hq|..].
  - intros w a Hg Hh. exists w, a. split; [|exact Hh]. apply get_pos_other; rewrite ?Ht; [exact Hlt|rewrite (get_ext w s); auto|].
    intros t b Hc. rewrite Hk in Hc. injection Hc as ->. discriminate.
  - intros i n Hi. simpl. rewrite Ht. rewrite list_lookup_insert_ne; [exact Hi|]. intros ->. rewrite Hk in Hi. injection Hi as ->. eapply Hl. reflexivity.
  - intros i b Hi Hfl. exists b. simpl. rewrite Ht. assert (Hn : i <> k).
    { intros ->. rewrite Hk in Hi. injection Hi as ->. eapply Hw; eauto. }
    rewrite list_lookup_insert_ne by congruence. rewrite Hf by exact Hn. auto.
Qed.
Lemma take_cov k j c s s' e : k < length (thr s) -> take_from k j c s = Some (s', e) -> covered s'.
Proof.
  intros Hk Hst. apply take_qs in Hst as (q & t & b & _ & _ & _ & ->). eapply (all_helps _ (T k) User); [|reflexivity].
  rewrite get_set_pos by exact Hk. rewrite decide_True by reflexivity. reflexivity.
Qed.
Lemma eval_cov k c s s1 s' e p0 : covered s -> thr s !! k = Some p0 -> is_run p0 = false ->
  (forall n, p0 <> Loop n) -> (flag s1 !! k = Some true -> forall b, p0 = Wait b -> flag s !! k <> Some false) ->
  qs s1 = qs s -> thr s1 = thr s -> cl s1 = cl s -> (forall i, i <> k -> flag s1 !! i = flag s !! i) -> eval_wait k c s1 = Some (s', e) -> covered s'.
Proof.
  intros H Hk Hr Hl Hw Hq Ht Hcl Hf Hst. apply lookup_lt_Some in Hk as Hlt. unfold eval_wait in Hst.
  assert (Hz : forall r, (match flag s1 !! k with Some true => Some (set_pos k (Wait false) s1, []) | _ => Some (set_pos k (Loop 0) s1, []) end)
    = Some (r, e) -> covered r).
  { intros r Hr'. destruct (flag s1 !! k) as [[]|] eqn:Ef; injection Hr' as <- <-.
    - eapply cov_move; eauto.
    - eapply (all_loop _ k). simpl. apply list_lookup_insert. rewrite Ht. exact Hlt.
    - eapply (all_loop _ k). simpl. apply list_lookup_insert. rewrite Ht. exact Hlt. }
  destruct (k <? count s1); [|apply Hz, Hst]. destruct (nothing k s1); [apply Hz, Hst|].
  eapply take_cov; [|exact Hst]. simpl. rewrite Ht. exact Hlt.
Qed.
Lemma poll_cov k fail c s s' e : base s -> covered s -> poll k fail c s = Some (s', e) -> Missed ∉ e -> covered s'.
Proof.
  intros Hb H Hst Hnf. unfold poll in Hst. destruct (thr s !! k) as [[n| |[]|t a]|] eqn:E; try discriminate; apply lookup_lt_Some in E as Hlt.
  - destruct (nothing _ s) eqn:En; [|destruct fail; [injection Hst as <- <-; exfalso; apply Hnf; left|eapply take_cov; eauto]].
    assert (Hs : s' = set_pos k (if S n =? count s then Lock else Loop (S n)) s) by (destruct fail; congruence). clear Hst. subst s'. set (p := if S n =? count s then Lock else Loop (S n)). intros j Hd.
    destruct (H j Hd) as [(w & a & H1 & H2)|[(i & n' & d & H1 & H2 & H3)|(i & b & H1 & H2)]].
    + left. exists w, a. split; [|exact H2]. apply get_pos_other; auto. intros t b Hc. congruence.
    + right. left. destruct (decide (i = k)) as [->|Hn].
      * rewrite E in H1. injection H1 as <-. assert (Hdn : d <> n).
        { intros ->. destruct Hd as (q & u & Hq & Hu). simpl in Hq. rewrite H3 in En. unfold nothing in En. rewrite Hq in En.
          destruct q; [apply elem_of_nil in Hu; exact Hu|discriminate]. }
        exists k, (S n), d. unfold p. destruct (S n =? count s) eqn:Ec; [apply Nat.eqb_eq in Ec; lia|].
        split; [simpl; apply list_lookup_insert, Hlt|]. split; [unfold count in *; simpl; lia|exact H3].
      * exists i, n', d. split; [simpl; rewrite list_lookup_insert_ne by congruence; exact H1|]. auto.
    + right. right. exists i, b. split; [|exact H2]. simpl. rewrite list_lookup_insert_ne; [exact H1|]. intros ->. congruence.
  - eapply (eval_cov k c s (set_flag k true s)); eauto; try discriminate. intros i Hi. simpl. apply list_lookup_insert_ne. congruence.
  - eapply (eval_cov k c s s); eauto; try discriminate. intros Ht b _. congruence.
Qed.
Lemma step_cov m s l s' e : base s -> covered s -> step m s l = Some (s', e) -> Missed ∉ e -> Full ∉ e -> covered s'.
Proof.
  intros Hb H Hst Hnf Hnl. destruct l as [|w|w o|w|w f|k f c|k|w|k]; simpl in Hst.
  - injection Hst as <- <-. eapply cov_mono; [exact H|reflexivity|intros j; apply due_ext; reflexivity|..]; eauto.
    intros w a Hg Hh. exists w, a. split; [|exact Hh]. destruct w as [i|i]; [exact Hg|]. apply lookup_app_l_Some. exact Hg.
  - destruct (get w s) as [[]|] eqn:E; try discriminate. injection Hst as <- <-.
    assert (Hp : covered (put w (Try (next s) (idx s) 0) s)) by (eapply cov_put; eauto). exact Hp.
  - destruct (get w s) as [[]|] eqn:E; try discriminate. destruct (match o with Some y => _ | None => _ end); injection Hst as <- <-; [exact H|].
    eapply (all_helps _ w (WakeQ 0 o)); [|reflexivity]. erewrite get_put; [|rewrite (get_ext w s) by reflexivity; exact E]. rewrite decide_True by reflexivity. reflexivity.
  - destruct (get w s) as [[| | | | | | |[]]|] eqn:E; try discriminate. injection Hst as <- <-. eapply cov_put; eauto. discriminate.
  - destruct (get w s) as [a|] eqn:E; try discriminate. eapply call_cov; eauto.
  - eapply poll_cov; eauto.
  - destruct (thr s !! k) as [[n| |b|t []]|] eqn:E; try discriminate. injection Hst as <- <-.
    eapply (all_loop _ k). simpl. apply list_lookup_insert. eapply lookup_lt_Some, E.
  - destruct (get w s) as [[| | | | | | |[]]|] eqn:E; try discriminate. destruct (bool_decide _); [|discriminate]. injection Hst as <- <-.
    eapply cov_put; eauto. discriminate.
  - destruct (thr s !! k) as [[n| |b|t a]|] eqn:E; try discriminate. injection Hst as <- <-. apply lookup_lt_Some in E as Hlt.
    eapply cov_mono; [exact H|reflexivity|intros j; apply due_ext; reflexivity|..].
    + intros w a Hg Hh. exists w, a. split; [|exact Hh]. apply get_pos_other; auto. congruence.
    + intros i n Hi. simpl. rewrite list_lookup_insert_ne; [exact Hi|]. congruence.
    + intros i b' Hi Hf. simpl. destruct (decide (i = k)) as [->|Hn].
      * exists true. rewrite list_lookup_insert by exact Hlt. auto.
      * exists b'. rewrite list_lookup_insert_ne by congruence. auto.
Qed.
Lemma init_cov c : covered (init c).
Proof. intros j (q & t & Hq & Ht). simpl in Hq. apply lookup_replicate in Hq as [-> _]. apply elem_of_nil in Ht. contradiction. Qed.
