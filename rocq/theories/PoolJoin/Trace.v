(** What has happened and the state. *)
From Coq Require Import List Bool Arith Lia.
From stdpp Require Import list.
From Verif.PoolJoin Require Import Model View Inv Cover.

Definition running (s : st) (t : nat) : Prop := exists k a, thr s !! k = Some (Run t a).
Definition inq (s : st) (t : nat) : Prop := exists j q, qs s !! j = Some q /\ t ∈ q.
(** in the queue of a thread that has not left *)
Definition inql (s : st) (t : nat) : Prop := exists j q, qs s !! j = Some q /\ t ∈ q /\ thr s !! j <> Some Exited.
Definition cl_out (s : st) : Prop := called s = true -> forall k a, cl s !! k = Some a -> out a = true.

(** * The queues *)
Definition quiet (e : list event) : Prop := e = [] \/ exists ev, e = [ev] /\ (forall x t, ev <> Pushed x t) /\ (forall t, ev <> Started t).
Definition qchange (s s' : st) (e : list event) : Prop :=
  (qs s' = qs s /\ quiet e) \/
  (exists j t x, j < count s /\ qs s' = qs (push j t s) /\ e = [Pushed x t] /\ (called s = true -> exists k y a, thr s' !! k = Some (Run y a))) \/
  (exists j q c t, qs s !! j = Some q /\ q !! c = Some t /\ qs s' = <[j := delete c q]> (qs s) /\ e = [Started t] /\ running s' t).
Lemma quiet_nil : quiet [].
Proof. left. reflexivity. Qed.
Lemma quiet_one ev : match ev with Pushed _ _ | Started _ => false | _ => true end = true -> quiet [ev].
Proof. intros H. right. exists ev. split; [reflexivity|]. split; intros; intros ->; discriminate. Qed.
Local Hint Resolve quiet_nil quiet_one : core.
Lemma take_qchange k j c s s1 s' e : k < length (thr s1) -> qs s1 = qs s -> take_from k j c s1 = Some (s', e) -> qchange s s' e.
Proof.
  intros Hk Hq Hst. apply take_qs in Hst as (q & t & H1 & H2 & -> & ->). right. right. exists j, q, c, t. rewrite Hq in H1.
  repeat split; auto; [simpl; rewrite Hq; reflexivity|]. exists k, User. simpl. apply list_lookup_insert. exact Hk.
Qed.
Lemma eval_qchange k c s s1 s' e : k < length (thr s1) -> qs s1 = qs s -> eval_wait k c s1 = Some (s', e) -> qchange s s' e.
Proof.
  intros Hk Hq Hst. unfold eval_wait in Hst. repeat case_match; simplify_eq; try (left; split; [exact Hq|auto]; fail).
  eapply (take_qchange k k c s (set_flag k false s1)); eauto.
Qed.
Lemma push_qchange w a a0 j t s : base s -> cl_out s -> get w s = Some a0 -> out a0 = false ->
  qchange s (put w a (push (j mod count s) t s)) [Pushed (task w s) t].
Proof.
  intros Hb Hc Hg Ho. pose proof (b_pos _ Hb). right. left. exists (j mod count s), t, (task w s).
  split; [apply Nat.mod_upper_bound; lia|]. split; [apply put_proj|]. split; [reflexivity|]. intros Hcl.
  destruct (push_proj (j mod count s) t s) as (_ & _ & _ & _ & _ & Et & _).
  destruct w as [k|k]; [|specialize (Hc Hcl k a0 Hg); congruence]. rewrite get_T in Hg. destruct (thr s !! k) as [[| | | |y b]|] eqn:E; try discriminate.
  exists k, y, a. unfold put. rewrite Et, E. simpl. rewrite Et. apply list_lookup_insert. eapply lookup_lt_Some, E.
Qed.
Lemma join_qs d s s' e : join d s = Some (s', e) -> qs s' = qs s /\ quiet e.
Proof.
  intros Hst. unfold join in Hst. repeat case_match; simplify_eq; auto. split; [etransitivity; [apply notify_proj|reflexivity]|auto].
Qed.
Lemma step_qchange m s l s' e : base s -> cl_out s -> step m s l = Some (s', e) -> qchange s s' e.
Proof.
  intros Hb Hc Hst. pose proof (b_pos _ Hb) as Hpos. unfold step in Hst. destruct (bad s); [discriminate|].
  destruct l as [|w|w o|w|w f|k f c|k|w|k|].
  - destruct (called s); [discriminate|]. injection Hst as <- <-. left. auto.
  - destruct (get w s) as [[]|] eqn:E; try discriminate. destruct (may w s); [|discriminate]. injection Hst as <- <-. left. split; [apply put_proj|auto].
  - destruct (get w s) as [[]|] eqn:E; try discriminate. destruct (may w s); [|discriminate].
    destruct (match o with Some y => _ | None => _ end); injection Hst as <- <-; left; (split; [first [reflexivity|apply put_proj]|auto]).
  - destruct (get w s) as [[| | | | | | |[]]|] eqn:E; try discriminate. injection Hst as <- <-. left. split; [apply put_proj|auto].
  - destruct (get w s) as [a|] eqn:E; try discriminate. unfold call in Hst. destruct (uses a && cleared s); [injection Hst as <- <-; left; auto|].
    destruct a as [|t i n|t i|j k|n o|n l o|o|o]; simpl in Hst; try discriminate.
    + destruct f; injection Hst as <- <-; [left; split; [apply put_proj|auto]|]. eapply push_qchange; eauto.
    + injection Hst as <- <-. eapply push_qchange; eauto.
    + injection Hst as <- <-. left. split; [etransitivity; [apply notify_proj|apply put_proj]|auto].
    + left. repeat case_match; simplify_eq; (split; [etransitivity; [apply put_proj|reflexivity]|auto]).
    + left. repeat case_match; simplify_eq; (split; [etransitivity; [apply put_proj|reflexivity]|auto]).
    + left. destruct (length (thr s) =? m); injection Hst as <- <-; (split; [apply put_proj|]); [auto|]. destruct (jn s); auto.
  - unfold poll in Hst. destruct (thr s !! k) as [[n| |[]| |t a]|] eqn:E; try discriminate; apply lookup_lt_Some in E as Hlt.
    + destruct (cleared s); [injection Hst as <- <-; left; auto|].
      destruct (nothing _ s) eqn:En; destruct f; try (injection Hst as <- <-; left; split; [reflexivity|auto]; fail).
      eapply take_qchange; eauto.
    + destruct (cleared s && _); [injection Hst as <- <-; left; auto|]. eapply (eval_qchange k c s (set_flag k true s)); eauto.
    + destruct (cleared s && _); [injection Hst as <- <-; left; auto|]. eapply (eval_qchange k c s s); eauto.
  - destruct (thr s !! k) as [[n| |b| |t []]|] eqn:E; try discriminate. injection Hst as <- <-. left. auto.
  - destruct (get w s) as [[| | | | | | |[]]|] eqn:E; try discriminate. destruct (bool_decide _); [|discriminate]. injection Hst as <- <-.
    left. split; [apply put_proj|auto].
  - destruct (thr s !! k) as [[n| |b| |t a]|] eqn:E; try discriminate. injection Hst as <- <-. left. auto.
  - left. eapply join_qs; eauto.
Qed.

(** * The threads *)
Definition tchange (m : nat) (s s' : st) (e : list event) : Prop :=
  (forall t, running s t -> running s' t \/ Ended t ∈ e) /\
  (forall k, thr s !! k = Some Exited -> thr s' !! k = Some Exited) /\
  (forall k, thr s' !! k = Some Exited -> thr s !! k = Some Exited \/ is_done k s = true /\ (k < count s -> nothing k s = true) /\ qs s' = qs s) /\
  (length (thr s') = length (thr s) \/
   length (thr s') = S (length (thr s)) /\ length (thr s) <> m /\
   match jn s with JWait _ _ | JEnd => Late ∈ e | _ => jn s' = jn s end /\ exists w o, get w s = Some (AddTh o)).
Lemma tchange_ext m s s1 s' e : tchange m s s1 e -> thr s' = thr s1 -> qs s' = qs s1 -> jn s' = jn s1 -> tchange m s s' e.
Proof. intros (H1 & H2 & H3 & H4) Ht Hq Hj. unfold tchange, running in *. rewrite Ht, Hq, Hj. auto. Qed.
Lemma tchange_id m s e : tchange m s s e.
Proof. repeat split; auto. Qed.
Lemma tchange_same m s s' e : thr s' = thr s -> tchange m s s' e.
Proof. intros Ht. unfold tchange, running. rewrite Ht. repeat split; auto. Qed.
Lemma tchange_put m w a a0 s s1 e : get w s = Some a0 -> thr s1 = thr s -> cl s1 = cl s -> tchange m s (put w a s1) e.
Proof.
  intros Hg Ht Hc. assert (Hg1 : get w s1 = Some a0) by (rewrite (get_ext w s) by assumption; exact Hg).
  destruct (put_proj w a s1) as (_ & _ & _ & _ & _ & El & _). repeat split.
  - intros t (k & b & Hk). left. rewrite <- Ht in Hk. assert (Hx : exists b', thr (put w a s1) !! k = Some (Run t b')) by (eapply run_put; eauto).
    destruct Hx as [b' Hx]. exists k, b'. exact Hx.
  - intros k Hk. apply (thr_put w a s1 a0); [exact Hg1|reflexivity|]. rewrite Ht. exact Hk.
  - intros k Hk. left. apply (thr_put w a s1 a0) in Hk; [|exact Hg1|reflexivity]. rewrite Ht in Hk. exact Hk.
  - left. rewrite El, Ht. reflexivity.
Qed.
Lemma tchange_notify m j s s1 e : tchange m s s1 e -> tchange m s (notify j s1) e.
Proof.
  intros (H1 & H2 & H3 & H4). destruct (notify_proj j s1) as (Eq & _ & _ & _ & Ej & _ & El & _). repeat split.
  - intros t Hr. destruct (H1 t Hr) as [(k & a & Hk)|]; [|auto]. left. exists k, a. apply thr_notify_ne; [discriminate|exact Hk].
  - intros k Hk. apply thr_notify_ne; [discriminate|auto].
  - intros k Hk. apply thr_notify_ne in Hk; [|discriminate]. rewrite Eq. auto.
  - rewrite El, Ej. exact H4.
Qed.
Lemma tchange_pos m k p0 p s s1 e : thr s !! k = Some p0 -> is_run p0 = false -> p0 <> Exited -> thr s1 = thr s ->
  (p = Exited -> is_done k s = true /\ (k < count s -> nothing k s = true) /\ qs s1 = qs s) -> tchange m s (set_pos k p s1) e.
Proof.
  intros Hk Hp Hne Ht Hx. apply lookup_lt_Some in Hk as Hl. repeat split.
  - intros t (j & a & Hj). left. exists j, a. simpl. rewrite Ht. rewrite list_lookup_insert_ne; [exact Hj|]. intros ->. rewrite Hk in Hj. injection Hj as ->. discriminate.
  - intros j Hj. simpl. rewrite Ht. rewrite list_lookup_insert_ne; [exact Hj|]. intros ->. congruence.
  - intros j Hj. simpl in Hj. rewrite Ht in Hj. destruct (decide (k = j)) as [->|Hn].
    + rewrite list_lookup_insert in Hj by exact Hl. injection Hj as ->. right. apply Hx. reflexivity.
    + rewrite list_lookup_insert_ne in Hj by exact Hn. auto.
  - left. simpl. rewrite insert_length, Ht. reflexivity.
Qed.
Lemma take_tchange m k j c p0 s s1 s' e : thr s !! k = Some p0 -> is_run p0 = false -> p0 <> Exited -> thr s1 = thr s ->
  take_from k j c s1 = Some (s', e) -> tchange m s s' e.
Proof. intros Hk Hp Hne Ht Hst. apply take_qs in Hst as (q & t & H1 & H2 & -> & ->). eapply tchange_pos; eauto. discriminate. Qed.
Lemma eval_tchange m k c p0 s s1 s' e : thr s !! k = Some p0 -> is_run p0 = false -> p0 <> Exited -> thr s1 = thr s -> qs s1 = qs s -> don s1 = don s ->
  eval_wait k c s1 = Some (s', e) -> tchange m s s' e.
Proof.
  intros Hk Hp Hne Ht Hq Hd Hst. unfold eval_wait in Hst. destruct ((k <? count s1) && negb (nothing k s1)) eqn:En.
  - eapply (take_tchange m k k c p0 s (set_flag k false s1)); eauto.
  - destruct (is_done k s1) eqn:Ed.
    + injection Hst as <- <-. eapply tchange_pos; eauto. intros _. split; [unfold is_done in *; rewrite <- Hd; exact Ed|]. split; [|exact Hq].
      intros Hl. unfold count in *. rewrite Hq, (nothing_ext k s) in En by exact Hq. apply Nat.ltb_lt in Hl. rewrite Hl in En. simpl in En. destruct (nothing k s); [reflexivity|discriminate].
    + repeat case_match; simplify_eq; eapply tchange_pos; eauto; discriminate.
Qed.
Lemma join_tchange m d s s' e : join d s = Some (s', e) -> tchange m s s' e.
Proof.
  intros Hst. unfold join in Hst. repeat case_match; simplify_eq; try (apply tchange_same; reflexivity). apply tchange_notify, tchange_same. reflexivity.
Qed.
Lemma step_tchange m s l s' e : step m s l = Some (s', e) -> tchange m s s' e.
Proof.
  intros Hst. unfold step in Hst. destruct (bad s); [discriminate|]. destruct l as [|w|w o|w|w f|k f c|k|w|k|].
  - destruct (called s); [discriminate|]. injection Hst as <- <-. apply tchange_same. reflexivity.
  - destruct (get w s) as [[]|] eqn:E; try discriminate. destruct (may w s); [|discriminate]. injection Hst as <- <-.
    eapply tchange_ext; [eapply (tchange_put m w (Try (next s) (idx s) 0) _ s s); eauto|reflexivity..].
  - destruct (get w s) as [[]|] eqn:E; try discriminate. destruct (may w s); [|discriminate].
    destruct (match o with Some y => _ | None => _ end); injection Hst as <- <-; [apply tchange_id|eapply tchange_put; eauto].
  - destruct (get w s) as [[| | | | | | |[]]|] eqn:E; try discriminate. injection Hst as <- <-. eapply tchange_put; eauto.
  - destruct (get w s) as [a|] eqn:E; try discriminate. unfold call in Hst. destruct (uses a && cleared s); [injection Hst as <- <-; apply tchange_same; reflexivity|].
    destruct a as [|t i n|t i|j k|n o|n l o|o|o]; simpl in Hst; try discriminate.
    + destruct f; injection Hst as <- <-; eapply tchange_put; eauto; apply push_proj.
    + injection Hst as <- <-. eapply tchange_put; eauto; apply push_proj.
    + injection Hst as <- <-. apply tchange_notify. eapply tchange_put; eauto.
    + repeat case_match; simplify_eq; first [eapply (tchange_put m w _ _ s s); [exact E|reflexivity..]|eapply (tchange_put m w _ _ s (set_flag _ false s)); [exact E|reflexivity..]].
    + repeat case_match; simplify_eq; first [eapply (tchange_put m w _ _ s s); [exact E|reflexivity..]|eapply (tchange_put m w _ _ s (set_flag _ false s)); [exact E|reflexivity..]].
    + destruct (length (thr s) =? m) eqn:En; injection Hst as <- <-; [eapply tchange_put; eauto|]. apply Nat.eqb_neq in En.
      assert (Hj : jn (put w (Blocked o) s) = jn s) by apply put_proj.
      destruct (tchange_put m w (Blocked o) _ s s [] E eq_refl eq_refl) as (H1 & H2 & H3 & H4).
      destruct H4 as [H4|(H4 & _)]; [|destruct (put_proj w (Blocked o) s) as (_ & _ & _ & _ & _ & El & _); lia].
      repeat split; simpl.
      * intros t Hr. destruct (H1 t Hr) as [(k & a & Hk)|Hx]; [|apply elem_of_nil in Hx; destruct Hx]. left. exists k, a. simpl. apply lookup_app_l_Some. exact Hk.
      * intros k Hk. apply lookup_app_l_Some. auto.
      * intros k Hk. apply lookup_app_Some in Hk as [Hk|[_ Hk]]; [auto|]. apply list_lookup_singleton_Some in Hk as [_ Hk]. discriminate.
      * right. rewrite app_length. simpl. split; [lia|]. split; [exact En|]. split; [|eauto]. destruct (jn s); auto; left.
  - unfold poll in Hst. destruct (thr s !! k) as [[n| |[]| |t a]|] eqn:E; try discriminate.
    + destruct (cleared s); [injection Hst as <- <-; apply tchange_same; reflexivity|].
      assert (Hon : forall e, tchange m s (set_pos k (if S n =? count s then Lock else Loop (S n)) s) e).
      { intros e'. eapply tchange_pos; [exact E|reflexivity|discriminate|reflexivity|]. destruct (S n =? count s); discriminate. }
      destruct f; [injection Hst as <- <-; apply Hon|]. destruct (nothing _ s); [injection Hst as <- <-; apply Hon|]. eapply take_tchange; [exact E|reflexivity|discriminate|reflexivity|exact Hst].
    + destruct (cleared s && _); [injection Hst as <- <-; apply tchange_same; reflexivity|]. eapply (eval_tchange m k c _ s (set_flag k true s)); [exact E|reflexivity|discriminate|reflexivity..|exact Hst].
    + destruct (cleared s && _); [injection Hst as <- <-; apply tchange_same; reflexivity|]. eapply (eval_tchange m k c _ s s); [exact E|reflexivity|discriminate|reflexivity..|exact Hst].
  - destruct (thr s !! k) as [[n| |b| |t []]|] eqn:E; try discriminate. injection Hst as <- <-. apply lookup_lt_Some in E as Hl. repeat split; simpl.
    + intros t' (j & a & Hj). destruct (decide (k = j)) as [->|Hn].
      * rewrite E in Hj. injection Hj as -> _. right. left.
      * left. exists j, a. simpl. rewrite list_lookup_insert_ne by exact Hn. exact Hj.
    + intros j Hj. rewrite list_lookup_insert_ne; [exact Hj|]. intros ->. congruence.
    + intros j Hj. left. destruct (decide (k = j)) as [->|Hn].
      * rewrite list_lookup_insert in Hj by exact Hl. discriminate.
      * rewrite list_lookup_insert_ne in Hj by exact Hn. exact Hj.
    + left. apply insert_length.
  - destruct (get w s) as [[| | | | | | |[]]|] eqn:E; try discriminate. destruct (bool_decide _); [|discriminate]. injection Hst as <- <-. eapply tchange_put; eauto.
  - destruct (thr s !! k) as [[n| |b| |t a]|] eqn:E; try discriminate. injection Hst as <- <-. eapply tchange_pos; [exact E|reflexivity|discriminate|reflexivity|discriminate].
  - eapply join_tchange; eauto.
Qed.
