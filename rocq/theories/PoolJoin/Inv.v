(** Invariants of the pool with awaiting tasks and join. *)
From Coq Require Import List Bool Arith Lia.
From stdpp Require Import list.
From Verif.PoolJoin Require Import Model View.

Global Arguments get : simpl never.
Global Arguments put : simpl never.
Global Arguments push : simpl never.
Global Arguments notify : simpl never.
Global Arguments Nat.eqb : simpl never.
Global Arguments Nat.ltb : simpl never.
Global Arguments Nat.modulo : simpl never.

(** * The parts fit together *)
Definition wf (s : st) (a : act) : Prop :=
  match a with
  | Try _ _ n => n < count s
  | WakeQ n _ => n <= count s
  | WakeW n l _ => n <= l /\ count s + l <= length (thr s)
  | _ => True
  end.
Record base (s : st) : Prop := {
  b_pos : 0 < count s;
  b_flag : length (flag s) = length (thr s);
  b_cnt : count s <= length (thr s);
  b_wait : forall k, flag s !! k = Some true -> exists b, thr s !! k = Some (Wait b);
  b_wf : forall w a, get w s = Some a -> wf s a
}.
Lemma wf_ext s s' a : count s' = count s -> length (thr s) <= length (thr s') -> wf s a -> wf s' a.
Proof. intros Hc Ht. destruct a; simpl; rewrite ?Hc; auto. intros [? ?]. split; lia. Qed.
Lemma base_put w a s a0 : base s -> get w s = Some a0 -> wf s a -> base (put w a s).
Proof.
  intros [H1 H2 H3 H4 H5] Hg Ha. destruct (put_proj w a s) as (Eq & Ef & _ & _ & _ & El & _).
  assert (Hc : count (put w a s) = count s) by (unfold count; rewrite Eq; reflexivity).
  split; rewrite ?Hc, ?Ef, ?El; auto.
  - intros k Hk. destruct (H4 k Hk) as [b Hb]. exists b. apply (thr_put w a s a0); auto.
  - intros w' a'. rewrite (get_put w w' a s a0 Hg). intros Hw. eapply wf_ext; [exact Hc|rewrite El; lia|].
    destruct (decide (w = w')); [injection Hw as <-; exact Ha|eauto].
Qed.
Lemma base_push j t s : base s -> base (push j t s).
Proof.
  intros [H1 H2 H3 H4 H5]. destruct (push_proj j t s) as (Ef & _ & _ & _ & Ecl & Et & Eq & _).
  assert (Hc : count (push j t s) = count s) by exact Eq.
  split; rewrite ?Hc, ?Ef, ?Et; auto.
  intros w a Hw. rewrite (get_ext w s) in Hw by assumption. eapply wf_ext; [exact Hc|rewrite Et; lia|eauto].
Qed.
Lemma base_notify j s : base s -> base (notify j s).
Proof.
  intros [H1 H2 H3 H4 H5]. destruct (notify_proj j s) as (Eq & Ef & _ & _ & _ & _ & El & _).
  assert (Hc : count (notify j s) = count s) by (unfold count; rewrite Eq; reflexivity).
  split; rewrite ?Hc, ?Ef, ?El; auto.
  - intros k Hk. apply thr_notify_wait. auto.
  - intros w a. rewrite get_notify. intros Hw. eapply wf_ext; [exact Hc|rewrite El; lia|eauto].
Qed.
Lemma base_ext s s' : base s -> count s' = count s -> thr s' = thr s -> flag s' = flag s -> cl s' = cl s -> base s'.
Proof.
  intros [H1 H2 H3 H4 H5] Hc Ht Hf Hcl. split; rewrite ?Hc, ?Ht, ?Hf; auto.
  intros w a Hw. rewrite (get_ext w s) in Hw by assumption. eapply wf_ext; [exact Hc|rewrite Ht; lia|eauto].
Qed.
Lemma base_flag k b s : base s -> (b = true -> exists c, thr s !! k = Some (Wait c)) -> base (set_flag k b s).
Proof.
  intros [H1 H2 H3 H4 H5] Hb. split; simpl; rewrite ?insert_length; auto.
  intros j Hj. destruct (decide (k = j)) as [->|Hn].
  - destruct (decide (j < length (flag s))) as [Hl|Hl].
    + rewrite list_lookup_insert in Hj by exact Hl. injection Hj as ->. auto.
    + apply lookup_lt_Some in Hj. rewrite insert_length in Hj. lia.
  - rewrite list_lookup_insert_ne in Hj by exact Hn. auto.
Qed.
Lemma base_pos k p s : base s -> k < length (thr s) -> (flag s !! k = Some true -> exists b, p = Wait b) -> (forall a, act_of p = Some a -> wf s a) ->
  base (set_pos k p s).
Proof.
  intros [H1 H2 H3 H4 H5] Hk Hp Ha. split; simpl; rewrite ?insert_length; auto.
  - intros j Hj. destruct (decide (k = j)) as [->|Hn].
    + destruct (Hp Hj) as [b ->]. exists b. apply list_lookup_insert. exact Hk.
    + rewrite list_lookup_insert_ne by exact Hn. auto.
  - intros w a. rewrite get_set_pos by exact Hk. intros Hw. eapply (wf_ext s); [reflexivity|simpl; rewrite insert_length; lia|].
    destruct (decide (w = T k)); eauto.
Qed.
Lemma count_qs s q : length q = count s -> count (set_qs q s) = count s.
Proof. exact (fun H => H). Qed.

Lemma call_base m w fail a s s' e : base s -> get w s = Some a -> call m w fail a s = Some (s', e) -> base s'.
Proof.
  intros H Hg Hst. pose proof (b_wf _ H _ _ Hg) as Hwf. unfold call in Hst. destruct (uses a && cleared s); [injection Hst as <- <-; eapply base_ext; eauto|]. destruct a as [|t i n|t i|j k|n o|n l o|o|o]; simpl in Hst; try discriminate.
  - destruct fail; injection Hst as <- <-.
    + eapply base_put; [exact H|exact Hg|]. destruct (S n =? count s) eqn:E; [exact I|]. apply Nat.eqb_neq in E. simpl in *. lia.
    + eapply base_put; [apply base_push, H|rewrite (get_ext w s) by apply push_proj; exact Hg|exact I].
  - injection Hst as <- <-. eapply base_put; [apply base_push, H|rewrite (get_ext w s) by apply push_proj; exact Hg|exact I].
  - injection Hst as <- <-. apply base_notify. eapply base_put; [exact H|exact Hg|]. destruct k; exact I.
  - destruct (n =? count s) eqn:E.
    + injection Hst as <- <-. eapply base_put; [exact H|exact Hg|]. simpl. pose proof (b_cnt _ H). lia.
    + apply Nat.eqb_neq in E. assert (Hw' : wf s (WakeQ (S n) o)) by (simpl in *; lia).
      destruct fail; [injection Hst as <- <-; eapply base_put; eauto|].
      destruct (flag s !! n) as [[]|] eqn:Ef; injection Hst as <- <-; try (eapply base_put; eauto; fail).
      eapply base_put; [apply base_flag; [exact H|discriminate]|rewrite (get_ext w s) by reflexivity; exact Hg|exact I].
  - destruct (n =? l) eqn:E.
    + injection Hst as <- <-. eapply base_put; [exact H|exact Hg|exact I].
    + apply Nat.eqb_neq in E. assert (Hw' : wf s (WakeW (S n) l o)) by (simpl in *; lia).
      destruct fail; [injection Hst as <- <-; eapply base_put; eauto|].
      destruct (flag s !! (count s + n)) as [[]|] eqn:Ef; injection Hst as <- <-; try (eapply base_put; eauto; fail).
      eapply base_put; [apply base_flag; [exact H|discriminate]|rewrite (get_ext w s) by reflexivity; exact Hg|exact I].
  - pose proof (base_put w (Blocked o) s _ H Hg I) as Hb.
    destruct (length (thr s) =? m); injection Hst as <- <-; [exact Hb|].
    destruct Hb as [H1 H2 H3 H4 H5]. split; simpl; rewrite ?app_length; simpl; auto.
    + unfold count in *. simpl. lia.
    + intros j Hj. destruct (decide (j < length (flag (put w (Blocked o) s)))) as [Hl|Hl].
      * rewrite lookup_app_l in Hj by exact Hl. destruct (H4 j Hj) as [b Hb]. exists b. apply lookup_app_l_Some. exact Hb.
      * rewrite lookup_app_r in Hj by lia. apply list_lookup_singleton_Some in Hj as [_ Hj]. discriminate.
    + intros w' a' Hw. eapply (wf_ext (put w (Blocked o) s)); [reflexivity|simpl; rewrite app_length; lia|]. apply (H5 w').
      destruct w' as [j|j]; [|exact Hw]. rewrite get_T in Hw |- *. simpl in Hw.
      destruct (decide (j < length (thr (put w (Blocked o) s)))) as [Hl|Hl].
      * rewrite lookup_app_l in Hw by exact Hl. exact Hw.
      * rewrite lookup_app_r in Hw by lia. destruct (j - _); discriminate.
Qed.
Lemma take_base k j c s s' e : base s -> k < length (thr s) -> flag s !! k <> Some true -> take_from k j c s = Some (s', e) -> base s'.
Proof.
  intros H Hk Hf Hst. unfold take_from in Hst. destruct (qs s !! j) as [q|] eqn:Eq; [|discriminate]. destruct (q !! c) as [t|]; [|discriminate].
  injection Hst as <- <-. apply base_pos; simpl; auto; [|intros Hc; congruence|intros a [= <-]; exact I].
  eapply base_ext; [exact H|apply insert_length|reflexivity..].
Qed.
Lemma flag_set s k b : k < length (flag s) -> flag (set_flag k b s) !! k = Some b.
Proof. intros Hk. simpl. apply list_lookup_insert. exact Hk. Qed.

(** pop or wait, from Lock or from a wait *)
Lemma eval_base k c s s' e : base s -> k < length (thr s) ->
  (exists b, thr s !! k = Some (Wait b)) -> eval_wait k c s = Some (s', e) -> base s'.
Proof.
  intros H Hk Hw Hst. pose proof (b_flag _ H) as Hfl. unfold eval_wait in Hst.
  assert (Hbf : base (set_flag k false s)) by (apply base_flag; [exact H|discriminate]).
  destruct ((k <? count s) && negb (nothing k s)).
  - eapply take_base; [exact Hbf|exact Hk| |exact Hst]. rewrite flag_set by lia. discriminate.
  - destruct (is_done k s).
    + injection Hst as <- <-. apply base_pos; [exact Hbf|exact Hk| |discriminate]. rewrite flag_set by lia. discriminate.
    + destruct (flag s !! k) as [[]|] eqn:Ef; injection Hst as <- <-; apply base_pos; auto; try (intros; discriminate); try (intros; congruence). eauto.
Qed.
(** as if it had already been waiting *)
Lemma set_pos_pos k p q s : set_pos k p (set_pos k q s) = set_pos k p s.
Proof. unfold set_pos, set_thr. simpl. rewrite list_insert_insert. reflexivity. Qed.
Lemma eval_park k c s q : eval_wait k c (set_pos k q s) = eval_wait k c s.
Proof.
  unfold eval_wait, take_from, nothing, is_done, count. simpl.
  repeat case_match; rewrite ?set_pos_pos; try reflexivity; try (unfold set_pos, set_thr; simpl; rewrite list_insert_insert; reflexivity).
Qed.
Lemma set_pos_id k p s : thr s !! k = Some p -> set_pos k p s = s.
Proof. intros H. unfold set_pos, set_thr. rewrite list_insert_id by exact H. destruct s; reflexivity. Qed.
(** the state in which pop or wait tests *)
Definition ready (k : nat) (s : st) : option st :=
  match thr s !! k with
  | Some Lock => Some (set_pos k (Wait true) (set_flag k true s))
  | Some (Wait true) => Some s
  | _ => None
  end.
Lemma ready_eval k fail c s r : ready k s = Some r -> poll k fail c s = if cleared s && (k <? count s) then Some (wrong s, []) else eval_wait k c r.
Proof. unfold ready, poll. destruct (thr s !! k) as [[n| |[]| |t a]|]; try discriminate; intros [= <-]; [rewrite eval_park|]; reflexivity. Qed.
Lemma set_flag_pos k b p s : set_flag k b (set_pos k p s) = set_pos k p (set_flag k b s).
Proof. reflexivity. Qed.
Lemma ready_base k s r : base s -> ready k s = Some r -> base r /\ thr r !! k = Some (Wait true) /\ k < length (thr r).
Proof.
  intros H. unfold ready. destruct (thr s !! k) as [[n| |[]| |t a]|] eqn:E; try discriminate; intros [= <-]; apply lookup_lt_Some in E as Hl.
  - assert (Ht : thr (set_pos k (Wait true) s) !! k = Some (Wait true)) by (simpl; apply list_lookup_insert, Hl).
    rewrite <- set_flag_pos. split; [|split; [exact Ht|simpl; rewrite insert_length; exact Hl]].
    apply base_flag; [|eauto]. apply base_pos; eauto. discriminate.
  - auto.
Qed.
Lemma poll_base k fail c s s' e : base s -> poll k fail c s = Some (s', e) -> base s'.
Proof.
  intros H Hst. destruct (ready k s) as [r|] eqn:Er.
  - rewrite (ready_eval _ _ _ _ _ Er) in Hst. destruct (cleared s && (k <? count s)); [injection Hst as <- <-; eapply base_ext; eauto|].
    destruct (ready_base _ _ _ H Er) as (Hr & Ht & Hl). eapply eval_base; eauto.
  - unfold poll in Hst. unfold ready in Er. destruct (thr s !! k) as [[n| |[]| |t a]|] eqn:E; try discriminate.
    destruct (cleared s); [injection Hst as <- <-; eapply base_ext; eauto|].
    apply lookup_lt_Some in E as Hl. assert (Hf : flag s !! k <> Some true).
    { intros Hf. destruct (b_wait _ H _ Hf) as [b Hb]. congruence. }
    assert (Hon : base (set_pos k (if S n =? count s then Lock else Loop (S n)) s)).
    { apply base_pos; auto; [intros Hc; congruence|]. intros a. destruct (S n =? count s); discriminate. }
    destruct fail; [injection Hst as <- <-; exact Hon|]. destruct (nothing _ s); [injection Hst as <- <-; exact Hon|].
    eapply take_base; [exact H|exact Hl|exact Hf|exact Hst].
Qed.
Lemma join_base d s s' e : base s -> join d s = Some (s', e) -> base s'.
Proof.
  intros H Hst. unfold join in Hst. repeat case_match; simplify_eq; try (eapply base_ext; eauto; fail).
  apply base_notify. eapply base_ext; eauto.
Qed.
Lemma step_base m s l s' e : base s -> step m s l = Some (s', e) -> base s'.
Proof.
  intros H Hst. unfold step in Hst. destruct (bad s); [discriminate|]. destruct l as [|w|w o|w|w f|k f c|k|w|k|].
  - destruct (called s); [discriminate|]. injection Hst as <- <-. destruct H as [H1 H2 H3 H4 H5]. split; simpl; auto. intros [k|k] a Ha.
    + apply (H5 (T k) a Ha).
    + unfold get in Ha. simpl in Ha. apply lookup_app_Some in Ha as [Ha|[_ Ha]]; [apply (H5 (C k) a Ha)|].
      apply list_lookup_singleton_Some in Ha as [_ <-]. exact I.
  - destruct (get w s) as [[]|] eqn:E; try discriminate. destruct (may w s); [|discriminate]. injection Hst as <- <-.
    eapply base_ext; [eapply (base_put w (Try (next s) (idx s) 0)); [exact H|exact E|exact (b_pos _ H)]|reflexivity..].
  - destruct (get w s) as [[]|] eqn:E; try discriminate. destruct (may w s); [|discriminate].
    destruct (match o with Some y => _ | None => _ end); injection Hst as <- <-; [exact H|].
    eapply base_put; [exact H|exact E|simpl; lia].
  - destruct (get w s) as [[| | | | | | |[]]|] eqn:E; try discriminate. injection Hst as <- <-. eapply base_put; [exact H|exact E|exact I].
  - destruct (get w s) as [a|] eqn:E; try discriminate. eapply call_base; eauto.
  - eapply poll_base; eauto.
  - destruct (thr s !! k) as [[n| |b| |t []]|] eqn:E; try discriminate. injection Hst as <- <-. apply lookup_lt_Some in E as Hl.
    eapply base_ext; [apply (base_pos k (Loop 0) s); [exact H|exact Hl| |discriminate]|reflexivity..].
    intros Hf. destruct (b_wait _ H _ Hf) as [b Hb]. congruence.
  - destruct (get w s) as [[| | | | | | |[]]|] eqn:E; try discriminate. destruct (bool_decide _); [|discriminate]. injection Hst as <- <-.
    eapply base_put; [exact H|exact E|exact I].
  - destruct (thr s !! k) as [[n| |b| |t a]|] eqn:E; try discriminate. injection Hst as <- <-. apply lookup_lt_Some in E as Hl.
    apply base_pos; auto; [eauto|discriminate].
  - eapply join_base; eauto.
Qed.
Lemma init_base c m : 0 < c -> base (init c m).
Proof.
  intros Hc. split; unfold count; simpl; rewrite ?replicate_length; auto.
  - intros k Hk. apply lookup_replicate in Hk as [Hk _]. discriminate.
  - intros [k|k] a; [|discriminate]. rewrite get_T. simpl. destruct (replicate c (Loop 0) !! k) as [p|] eqn:E; [|discriminate].
    apply lookup_replicate in E as [-> _]. discriminate.
Qed.
