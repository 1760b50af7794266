(** What has happened and the state. *)
From Coq Require Import List Bool Arith Lia.
From stdpp Require Import list.
From Verif.PoolWait Require Import Model View Inv Cover Due.

Definition tid (a : act) : option nat := match a with Try t _ _ | PushIt t _ => Some t | _ => None end.
Definition target (a : act) : option (option nat) :=
  match a with Notify _ k => k | WakeQ _ o | WakeW _ _ o | AddTh o | Blocked o => Some o | _ => None end.
Definition actor (s : st) (x : option nat) (a : act) : Prop := exists w, get w s = Some a /\ task w s = x.
Definition running (s : st) (t : nat) : Prop := exists k a, thr s !! k = Some (Run t a).
Definition inq (s : st) (t : nat) : Prop := exists j q b, qs s !! j = Some q /\ (t, b) ∈ q.
Definition inqt (s : st) (t : nat) : Prop := exists j q, qs s !! j = Some q /\ (t, true) ∈ q.

(** * The queues *)
Definition quiet (e : list event) : Prop := e = [] \/ e = [Missed] \/ e = [Full] \/ exists t, e = [Ended t].
Definition qchange (s s' : st) (e : list event) : Prop :=
  (qs s' = qs s /\ quiet e) \/
  (exists j t x a, j < count s /\ qs s' = qs (push j t s) /\ e = [Pushed x t] /\ actor s x a /\ tid a = Some t) \/
  (exists j q c t b, qs s !! j = Some q /\ q !! c = Some (t, b) /\ qs s' = <[j := delete c q]> (qs s) /\ e = [Started t] /\ running s' t) \/
  (exists x o, qs s' = qs (age s) /\ e = [Awaits x o]).
Lemma take_qchange k j c s s1 s' e : k < length (thr s1) -> qs s1 = qs s -> take_from k j c s1 = Some (s', e) -> qchange s s' e.
Proof.
  intros Hk Hq Hst. apply take_qs in Hst as (q & t & b & H1 & H2 & -> & ->). right. right. left. exists j, q, c, t, b. rewrite Hq in H1.
  repeat split; auto; [simpl; rewrite Hq; reflexivity|]. exists k, User. simpl. apply list_lookup_insert. exact Hk.
Qed.
Lemma eval_qchange k c s s1 s' e : k < length (thr s1) -> qs s1 = qs s -> eval_wait k c s1 = Some (s', e) -> qchange s s' e.
Proof.
  intros Hk Hq Hst. unfold eval_wait in Hst. repeat case_match; simplify_eq; try (left; split; [exact Hq|left; reflexivity]).
  eapply (take_qchange k k c s (set_flag k false s1)); eauto.
Qed.
Lemma step_qchange m s l s' e : base s -> step m s l = Some (s', e) -> qchange s s' e.
Proof.
  intros Hb Hst. pose proof (b_pos _ Hb) as Hpos. destruct l as [|w|w o|w|w f|k f c|k|w|k]; simpl in Hst.
  - injection Hst as <- <-. left. split; [reflexivity|left; reflexivity].
  - destruct (get w s) as [[]|] eqn:E; try discriminate. injection Hst as <- <-. left. split; [apply put_proj|left; reflexivity].
  - destruct (get w s) as [[]|] eqn:E; try discriminate. destruct (match o with Some y => _ | None => _ end); injection Hst as <- <-.
    + left. split; [reflexivity|left; reflexivity].
    + right. right. right. exists (task w s), o. split; [apply put_proj|reflexivity].
  - destruct (get w s) as [[| | | | | | |[]]|] eqn:E; try discriminate. injection Hst as <- <-. left. split; [apply put_proj|left; reflexivity].
  - destruct (get w s) as [a|] eqn:E; try discriminate. destruct a as [|t i n|t i|j k|n o|n l o|o|o]; simpl in Hst; try discriminate.
    + destruct f; injection Hst as <- <-; [left; split; [apply put_proj|left; reflexivity]|]. right. left.
      exists ((i + n) mod count s), t, (task w s), (Try t i n). repeat split; [apply Nat.mod_upper_bound; lia|apply put_proj|]. exists w. auto.
    + injection Hst as <- <-. right. left.
      exists (i mod count s), t, (task w s), (PushIt t i). repeat split; [apply Nat.mod_upper_bound; lia|apply put_proj|]. exists w. auto.
    + injection Hst as <- <-. left. split; [|left; reflexivity]. etransitivity; [apply notify_proj|apply put_proj].
    + left. repeat case_match; simplify_eq; (split; [etransitivity; [apply put_proj|reflexivity]|left; reflexivity]).
    + left. repeat case_match; simplify_eq; (split; [etransitivity; [apply put_proj|reflexivity]|left; reflexivity]).
    + left. destruct (length (thr s) =? m); injection Hst as <- <-; (split; [apply put_proj|unfold quiet; auto]).
  - unfold poll in Hst. destruct (thr s !! k) as [[n| |[]|t a]|] eqn:E; try discriminate; apply lookup_lt_Some in E as Hlt.
    + destruct (nothing _ s) eqn:En.
      * left. destruct f; injection Hst as <- <-; (split; [reflexivity|left; reflexivity]).
      * destruct f; [injection Hst as <- <-; left; split; [reflexivity|right; left; reflexivity]|]. eapply take_qchange; eauto.
    + eapply (eval_qchange k c s (set_flag k true s)); eauto.
    + eapply (eval_qchange k c s s); eauto.
  - destruct (thr s !! k) as [[n| |b|t []]|] eqn:E; try discriminate. injection Hst as <- <-. left. split; [reflexivity|]. right. right. right. eauto.
  - destruct (get w s) as [[| | | | | | |[]]|] eqn:E; try discriminate. destruct (bool_decide _); [|discriminate]. injection Hst as <- <-.
    left. split; [apply put_proj|left; reflexivity].
  - destruct (thr s !! k) as [[n| |b|t a]|] eqn:E; try discriminate. injection Hst as <- <-. left. split; [reflexivity|left; reflexivity].
Qed.

(** * The actors *)
Lemma actor_put w a s a0 x a' : get w s = Some a0 -> actor (put w a s) x a' -> actor s x a' \/ x = task w s /\ a' = a.
Proof.
  intros Hg (w' & Hw & Ht). rewrite (get_put w w' a s a0 Hg) in Hw. rewrite (task_put w a s a0 w' Hg) in Ht.
  destruct (decide (w = w')) as [->|]; [injection Hw as <-; right; auto|]. left. exists w'. auto.
Qed.
Lemma actor_notify j s x a : actor (notify j s) x a -> actor s x a.
Proof. intros (w & Hw & Ht). rewrite get_notify in Hw. rewrite task_notify in Ht. exists w. auto. Qed.
Lemma actor_ext s s' x a : thr s' = thr s -> cl s' = cl s -> actor s' x a -> actor s x a.
Proof. intros Ht Hc (w & Hw & Hx). rewrite (get_ext w s s' Ht Hc) in Hw. rewrite (task_ext w s s' Ht) in Hx. exists w. auto. Qed.
Lemma actor_pos k p s x a : k < length (thr s) -> actor (set_pos k p s) x a ->
  actor s x a \/ exists t, p = Run t a /\ x = Some t.
Proof.
  intros Hk (w & Hw & Hx). rewrite get_set_pos in Hw by exact Hk. destruct (decide (w = T k)) as [->|Hn].
  - right. destruct p as [| | |t b]; try discriminate. injection Hw as ->. exists t. split; [reflexivity|]. simpl in Hx.
    rewrite list_lookup_insert in Hx by exact Hk. auto.
  - left. exists w. split; [exact Hw|]. destruct w as [j|]; [|exact Hx]. simpl in *. rewrite list_lookup_insert_ne in Hx by congruence. exact Hx.
Qed.
(** how the call of an actor goes on *)
Definition goes (s s' : st) (e : list event) (x : option nat) (a0 a : act) : Prop :=
  (tid a = None \/ tid a = tid a0 \/ (tid a = Some (next s) /\ next s' = S (next s))) /\
  (forall o, target a = Some o -> target a0 = Some o \/ Awaits x o ∈ e).
Definition achange (s s' : st) (e : list event) : Prop := forall x a, actor s' x a ->
  actor s x a \/ (a = User /\ (x = None \/ exists t, x = Some t /\ inq s t)) \/ exists a0, actor s x a0 /\ goes s s' e x a0 a.
Lemma achange_put s e w a a0 s1 s' : get w s = Some a0 -> thr s1 = thr s -> cl s1 = cl s ->
  (forall x a', actor s' x a' -> actor (put w a s1) x a') -> goes s s' e (task w s) a0 a -> achange s s' e.
Proof.
  intros Hg Ht Hc Hs' Hgo x a' Ha. apply Hs' in Ha. apply (actor_put w a s1 a0) in Ha; [|rewrite (get_ext w s) by assumption; exact Hg].
  destruct Ha as [Ha|[-> ->]]; [left; eapply actor_ext; eauto|]. right. right. rewrite (task_ext w s s1 Ht). exists a0. split; [exists w; auto|auto].
Qed.
Lemma take_achange k j c s s1 s' e : k < length (thr s) -> qs s1 = qs s -> thr s1 = thr s -> cl s1 = cl s -> take_from k j c s1 = Some (s', e) -> achange s s' e.
Proof.
  intros Hk Hq Ht Hc Hst. apply take_qs in Hst as (q & t & b & H1 & H2 & -> & ->). intros x a Ha. apply actor_pos in Ha; [|simpl; rewrite Ht; exact Hk].
  destruct Ha as [Ha|(t' & [= <- <-] & ->)]; [left; eapply (actor_ext s); [| |exact Ha]; assumption|]. right. left. split; [reflexivity|]. right. exists t. split; [reflexivity|].
  rewrite Hq in H1. exists j, q, b. split; [exact H1|]. eapply elem_of_list_lookup_2, H2.
Qed.
Lemma pos_achange k p s s1 e : k < length (thr s) -> thr s1 = thr s -> cl s1 = cl s -> is_run p = false -> achange s (set_pos k p s1) e.
Proof.
  intros Hk Ht Hc Hp x a Ha. apply actor_pos in Ha; [|rewrite Ht; exact Hk]. destruct Ha as [Ha|(t & -> & _)]; [|discriminate].
  left. eapply (actor_ext s); eauto.
Qed.
Lemma eval_achange k c s s1 s' e : k < length (thr s) -> qs s1 = qs s -> thr s1 = thr s -> cl s1 = cl s -> eval_wait k c s1 = Some (s', e) -> achange s s' e.
Proof.
  intros Hk Hq Ht Hc Hst. unfold eval_wait in Hst. repeat case_match; simplify_eq; try (apply pos_achange; auto; fail).
  eapply (take_achange k k c s (set_flag k false s1)); eauto.
Qed.
Ltac go := split; [simpl; auto|intros ? [= <-]; simpl; auto].
Lemma step_achange m s l s' e : base s -> step m s l = Some (s', e) -> achange s s' e.
Proof.
  intros Hb Hst. destruct l as [|w|w o|w|w f|k f c|k|w|k]; simpl in Hst.
  - injection Hst as <- <-. intros x a ([k|k] & Hw & Hx); [left; exists (T k); auto|]. unfold get in Hw. simpl in Hw, Hx. apply lookup_app_Some in Hw as [Hw|[_ Hw]].
    + left. exists (C k). auto.
    + apply list_lookup_singleton_Some in Hw as [_ <-]. right. left. auto.
  - destruct (get w s) as [[]|] eqn:E; try discriminate. injection Hst as <- <-.
    eapply (achange_put s _ w (Try (next s) (idx s) 0) User s); auto. split; [simpl; auto|discriminate].
  - destruct (get w s) as [[]|] eqn:E; try discriminate. destruct (match o with Some y => _ | None => _ end); injection Hst as <- <-.
    + intros x a Ha. auto.
    + eapply (achange_put s _ w (WakeQ 0 o) User (age s)); auto. split; [simpl; auto|]. intros o' [= <-]. right. left.
  - destruct (get w s) as [[| | | | | | |[]]|] eqn:E; try discriminate. injection Hst as <- <-.
    eapply (achange_put s _ w User _ s); eauto. split; [simpl; auto|discriminate].
  - destruct (get w s) as [a|] eqn:E; try discriminate. destruct a as [|t i n|t i|j k|n o|n l o|o|o]; simpl in Hst; try discriminate.
    + destruct f; injection Hst as <- <-.
      * eapply (achange_put s _ w _ _ s); [exact E|reflexivity|reflexivity|intros ? ? Hx; exact Hx|].
        destruct (S n =? count s); (split; [simpl; auto|discriminate]).
      * destruct (push_proj ((i + n) mod count s) t s) as (_ & _ & _ & _ & ? & ? & _).
        eapply (achange_put s _ w (Notify _ None) _ (push _ t s)); eauto. split; [simpl; auto|discriminate].
    + injection Hst as <- <-. destruct (push_proj (i mod count s) t s) as (_ & _ & _ & _ & ? & ? & _).
      eapply (achange_put s _ w (Notify _ None) _ (push _ t s)); eauto. split; [simpl; auto|discriminate].
    + injection Hst as <- <-. eapply (achange_put s _ w _ _ s); eauto; [intros x a; apply actor_notify|].
      destruct k; [go|split; [simpl; auto|discriminate]].
    + repeat case_match; simplify_eq;
        (eapply (achange_put s _ w _ _ s); [exact E|reflexivity|reflexivity|intros ? ? Hx; exact Hx|go]) ||
        (eapply (achange_put s _ w _ _ (set_flag _ false s)); [exact E|reflexivity|reflexivity|intros ? ? Hx; exact Hx|go]).
    + repeat case_match; simplify_eq;
        (eapply (achange_put s _ w _ _ s); [exact E|reflexivity|reflexivity|intros ? ? Hx; exact Hx|go]) ||
        (eapply (achange_put s _ w _ _ (set_flag _ false s)); [exact E|reflexivity|reflexivity|intros ? ? Hx; exact Hx|go]).
    + destruct (length (thr s) =? m); injection Hst as <- <-;
        (eapply (achange_put s _ w (Blocked o) _ s); [exact E|reflexivity|reflexivity| |go]); [auto|].
      intros x a (w' & Hw & Hx). exists w'. destruct w' as [k|k]; [|auto]. rewrite get_T in Hw |- *. simpl in *.
      set (th := thr (put w (Blocked o) s)) in *. destruct (decide (k < length th)) as [Hl|Hl].
      * rewrite lookup_app_l in Hw, Hx by exact Hl. auto.
      * rewrite lookup_app_r in Hw by lia. destruct (k - length th); discriminate.
  - unfold poll in Hst. destruct (thr s !! k) as [[n| |[]|t a]|] eqn:E; try discriminate; apply lookup_lt_Some in E as Hlt.
    + destruct (nothing _ s) eqn:En.
      * destruct f; injection Hst as <- <-; apply pos_achange; auto; destruct (S n =? count s); reflexivity.
      * destruct f; [injection Hst as <- <-; apply pos_achange; auto; destruct (S n =? count s); reflexivity|]. eapply take_achange; eauto.
    + eapply (eval_achange k c s (set_flag k true s)); eauto.
    + eapply (eval_achange k c s s); eauto.
  - destruct (thr s !! k) as [[n| |b|t []]|] eqn:E; try discriminate. injection Hst as <- <-. apply lookup_lt_Some in E as Hlt.
    intros x a Ha. eapply (pos_achange k (Loop 0) s s [Ended t] Hlt eq_refl eq_refl eq_refl). exact Ha.
  - destruct (get w s) as [[| | | | | | |[]]|] eqn:E; try discriminate. destruct (bool_decide _); [|discriminate]. injection Hst as <- <-.
    eapply (achange_put s _ w User _ s); eauto. split; [simpl; auto|discriminate].
  - destruct (thr s !! k) as [[n| |b|t a]|] eqn:E; try discriminate. injection Hst as <- <-. apply lookup_lt_Some in E as Hlt. apply pos_achange; auto.
Qed.

(** * The tasks that run *)
Definition rchange (s s' : st) (e : list event) : Prop :=
  (forall t, running s t -> running s' t \/ Ended t ∈ e) /\ (forall t, t ∈ fin s -> t ∈ fin s') /\ (forall t, Ended t ∈ e -> t ∈ fin s') /\ next s <= next s'.
Lemma running_put w a s a0 t : get w s = Some a0 -> running s t -> running (put w a s) t.
Proof. intros Hg (k & b & Hk). assert (Hx : exists b', thr (put w a s) !! k = Some (Run t b')) by (eapply run_put; eauto). destruct Hx as [b' Hx]. exists k, b'. exact Hx. Qed.
Lemma running_notify j s t : running s t -> running (notify j s) t.
Proof. intros (k & a & Hk). exists k, a. apply thr_notify_ne; [discriminate|exact Hk]. Qed.
Lemma running_ext s s' t : thr s' = thr s -> running s t -> running s' t.
Proof. unfold running. intros ->. auto. Qed.
Lemma running_pos k p0 p s t : thr s !! k = Some p0 -> is_run p0 = false -> running s t -> running (set_pos k p s) t.
Proof. intros Hk Hp (j & a & Hj). exists j, a. simpl. rewrite list_lookup_insert_ne; [exact Hj|]. intros ->. rewrite Hk in Hj. injection Hj as ->. discriminate. Qed.
Lemma rchange_put s w a a0 s1 s' e : get w s = Some a0 -> thr s1 = thr s -> cl s1 = cl s -> fin s1 = fin s -> next s1 = next s ->
  (forall t, running (put w a s1) t -> running s' t) -> fin s' = fin (put w a s1) -> next (put w a s1) <= next s' -> (forall t, Ended t ∉ e) -> rchange s s' e.
Proof.
  intros Hg Ht Hc Hf Hn Hr Hf' Hn' He. destruct (put_proj w a s1) as (_ & _ & Ef & _ & En & _). split; [|split; [|split]].
  - intros t Hrun. left. apply Hr. eapply running_put; [rewrite (get_ext w s) by assumption; exact Hg|]. eapply running_ext; eauto.
  - intros t. rewrite Hf', Ef, Hf. auto.
  - intros t Hx. exfalso. eapply He, Hx.
  - lia.
Qed.
Lemma rchange_pos s k p0 p s1 e : thr s !! k = Some p0 -> is_run p0 = false -> thr s1 = thr s -> fin s1 = fin s -> next s1 = next s ->
  (forall t, Ended t ∉ e) -> rchange s (set_pos k p s1) e.
Proof.
  intros Hk Hp Ht Hf Hn He. split; [|split; [|split]].
  - intros t Hr. left. eapply running_pos; [rewrite Ht; exact Hk|exact Hp|]. eapply running_ext; eauto.
  - intros t. simpl. rewrite Hf. auto.
  - intros t Hx. exfalso. eapply He, Hx.
  - simpl. lia.
Qed.
Lemma not_in_nil (t : nat) : Ended t ∉ [].
Proof. apply not_elem_of_nil. Qed.
Lemma not_in_one (t : nat) ev : ev <> Ended t -> Ended t ∉ [ev].
Proof. intros Hn Hx. apply elem_of_list_singleton in Hx. congruence. Qed.
Lemma take_rchange k j c s s1 s' e p0 : thr s !! k = Some p0 -> is_run p0 = false -> thr s1 = thr s -> fin s1 = fin s -> next s1 = next s ->
  take_from k j c s1 = Some (s', e) -> rchange s s' e.
Proof.
  intros Hk Hp Ht Hf Hn Hst. apply take_qs in Hst as (q & t & b & H1 & H2 & -> & ->). eapply rchange_pos; eauto.
  intros t'. apply not_in_one. discriminate.
Qed.
Lemma eval_rchange k c s s1 s' e p0 : thr s !! k = Some p0 -> is_run p0 = false -> thr s1 = thr s -> fin s1 = fin s -> next s1 = next s ->
  eval_wait k c s1 = Some (s', e) -> rchange s s' e.
Proof.
  intros Hk Hp Ht Hf Hn Hst. unfold eval_wait in Hst.
  repeat case_match; simplify_eq; try (eapply rchange_pos; [exact Hk|exact Hp|exact Ht|exact Hf|exact Hn|apply not_in_nil]; fail).
  eapply (take_rchange k k c s (set_flag k false s1)); eauto.
Qed.
Ltac rput E w s1 := eapply (rchange_put _ w _ _ s1); [exact E|try apply push_proj; reflexivity|try apply push_proj; reflexivity|try apply push_proj; reflexivity|
  try apply push_proj; reflexivity|intros ? Hx; exact Hx|reflexivity|apply le_n|intros ?; first [apply not_in_nil|apply not_in_one; discriminate]].
Lemma step_rchange m s l s' e : base s -> step m s l = Some (s', e) -> rchange s s' e.
Proof.
  intros Hb Hst. destruct l as [|w|w o|w|w f|k f c|k|w|k]; simpl in Hst.
  - injection Hst as <- <-. split; [|split; [|split]]; simpl; auto. intros t Hx. exfalso. eapply not_in_nil, Hx.
  - destruct (get w s) as [[]|] eqn:E; try discriminate. injection Hst as <- <-.
    destruct (put_proj w (Try (next s) (idx s) 0) s) as (_ & _ & _ & _ & En & _).
    eapply (rchange_put s w (Try (next s) (idx s) 0) _ s); auto; [exact E|simpl; lia|apply not_in_nil].
  - destruct (get w s) as [[]|] eqn:E; try discriminate. destruct (match o with Some y => _ | None => _ end); injection Hst as <- <-.
    + split; [|split; [|split]]; auto. intros t Hx. exfalso. eapply not_in_nil, Hx.
    + rput E w (age s).
  - destruct (get w s) as [[| | | | | | |[]]|] eqn:E; try discriminate. injection Hst as <- <-. rput E w s.
  - destruct (get w s) as [a|] eqn:E; try discriminate. destruct a as [|t i n|t i|j k|n o|n l o|o|o]; simpl in Hst; try discriminate.
    + destruct f; injection Hst as <- <-; [rput E w s|rput E w (push ((i + n) mod count s) t s)].
    + injection Hst as <- <-. rput E w (push (i mod count s) t s).
    + injection Hst as <- <-. set (a := match k with None => User | Some o => Blocked o end).
      destruct (notify_proj j (put w a s)) as (_ & _ & Ef & _ & En & _).
      eapply (rchange_put s w a _ s); auto; [exact E|intros t; apply running_notify|lia|apply not_in_nil].
    + repeat case_match; simplify_eq; first [rput E w s|rput E w (set_flag n false s)].
    + repeat case_match; simplify_eq; first [rput E w s|rput E w (set_flag (count s + n) false s)].
    + destruct (length (thr s) =? m); injection Hst as <- <-; [rput E w s|].
      eapply (rchange_put s w (Blocked o) _ s); auto; [exact E| |apply not_in_nil].
      intros t (k & a & Hk). exists k, a. simpl. apply lookup_app_l_Some. exact Hk.
  - unfold poll in Hst. destruct (thr s !! k) as [[n| |[]|t a]|] eqn:E; try discriminate.
    + destruct (nothing _ s) eqn:En.
      * destruct f; injection Hst as <- <-; (eapply rchange_pos; [exact E|reflexivity..|intros ?; apply not_in_nil]).
      * destruct f; [injection Hst as <- <-; eapply rchange_pos; [exact E|reflexivity..|intros ?; apply not_in_one; discriminate]|]. eapply take_rchange; eauto.
    + eapply (eval_rchange k c s (set_flag k true s)); eauto.
    + eapply (eval_rchange k c s s); eauto.
  - destruct (thr s !! k) as [[n| |b|t []]|] eqn:E; try discriminate. injection Hst as <- <-. split; [|split; [|split]]; simpl.
    + intros t' (i & a & Hi). destruct (decide (i = k)) as [->|Hn].
      * right. rewrite E in Hi. injection Hi as -> _. left.
      * left. exists i, a. simpl. rewrite list_lookup_insert_ne by congruence. exact Hi.
    + intros t' Ht'. right. exact Ht'.
    + intros t' Hx. apply elem_of_list_singleton in Hx. injection Hx as ->. left.
    + lia.
  - destruct (get w s) as [[| | | | | | |[]]|] eqn:E; try discriminate. destruct (bool_decide _); [|discriminate]. injection Hst as <- <-. rput E w s.
  - destruct (thr s !! k) as [[n| |b|t a]|] eqn:E; try discriminate. injection Hst as <- <-.
    eapply rchange_pos; [exact E|reflexivity..|intros ?; apply not_in_nil].
Qed.

(** * The invariant *)
Definition aged (tr : list event) (t : nat) : Prop := exists tr1 x o tr2 x', tr = tr1 ++ Awaits x o :: tr2 /\ Pushed x' t ∈ tr1.
Record tinv (tr : list event) (s : st) : Prop := {
  i_queued : forall x t, Pushed x t ∈ tr -> Started t ∈ tr \/ inq s t;
  i_aged : forall t, aged tr t -> Started t ∈ tr \/ inqt s t;
  i_run : forall t, Started t ∈ tr -> Ended t ∈ tr \/ running s t;
  i_fin : forall t, Ended t ∈ tr -> t ∈ fin s;
  i_q : forall t, inq s t -> t < next s;
  i_act : forall x a, actor s x a -> (forall y, x = Some y -> y < next s) /\
    (forall t, tid a = Some t -> t < next s /\ forall y, x = Some y -> y < t) /\ (forall o, target a = Some o -> Awaits x o ∈ tr);
  i_kid : forall x y, Pushed (Some x) y ∈ tr -> x < y;
  i_old : forall x y, Pushed x y ∈ tr -> y < next s
}.
Lemma aged_snoc tr ev t : aged (tr ++ [ev]) t -> aged tr t \/ (exists x o, ev = Awaits x o) /\ exists x, Pushed x t ∈ tr.
Proof.
  intros (tr1 & x & o & tr2 & x' & He & Ht). destruct tr2 as [|ev2 tr2] using rev_ind.
  - apply app_inj_tail in He as [-> ->]. right. eauto.
  - rewrite app_comm_cons, app_assoc in He. apply app_inj_tail in He as [-> ->]. left. exists tr1, x, o, tr2, x'. auto.
Qed.
Lemma inq_lt s t : inqt s t -> inq s t.
Proof. intros (j & q & H1 & H2). exists j, q, true. auto. Qed.
Lemma delete_elem {A} (q : list A) c x y : q !! c = Some x -> y ∈ q -> y ∈ delete c q \/ y = x.
Proof. intros Hc Hy. apply delete_Permutation in Hc. rewrite Hc in Hy. apply elem_of_cons in Hy. tauto. Qed.
Lemma elem_delete {A} (q : list A) c y : y ∈ delete c q -> y ∈ q.
Proof.
  intros Hy. destruct (decide (c < length q)) as [Hl|Hl].
  - apply lookup_lt_is_Some in Hl as [x Hx]. apply delete_Permutation in Hx. rewrite Hx. right. exact Hy.
  - assert (Hd : delete c q = q); [|congruence]. clear Hy. revert c Hl. induction q as [|z q IH]; intros [|c] Hl; simpl in *; try reflexivity; [lia|]. f_equal. apply IH. lia.
Qed.
(** the queues, before and after *)
Lemma qchange_fwd s s' e : qchange s s' e ->
  (forall t, inq s t -> inq s' t \/ Started t ∈ e) /\ (forall t, inqt s t -> inqt s' t \/ Started t ∈ e) /\
  (forall x t, Pushed x t ∈ e -> inq s' t /\ exists a, actor s x a /\ tid a = Some t) /\ (forall t, Started t ∈ e -> running s' t) /\
  (forall x o t, Awaits x o ∈ e -> inq s t -> inqt s' t) /\ (forall t, inq s' t -> inq s t \/ exists x, Pushed x t ∈ e) /\
  (e = [] \/ exists ev, e = [ev]).
Proof.
  intros [[Hq He]|[(j & t0 & x & a & Hj & Hq & -> & Ha & Ht)|[(j & q & c & t0 & b & H1 & H2 & Hq & -> & Hr)|(x & o & Hq & ->)]]].
  - assert (Hnot : (forall x t, Pushed x t ∉ e) /\ (forall t, Started t ∉ e) /\ (forall x o, Awaits x o ∉ e) /\ (e = [] \/ exists ev, e = [ev])).
    { destruct He as [->|[->|[->|[t ->]]]]; (repeat split; [intros; intros Hx; apply elem_of_list_In in Hx; simpl in Hx; intuition discriminate..|]); eauto. }
    destruct Hnot as (N1 & N2 & N3 & N4). unfold inq, inqt. rewrite Hq. repeat split; auto; intros; exfalso; first [eapply N1; eassumption|eapply N2; eassumption|eapply N3; eassumption].
  - apply lookup_lt_is_Some in Hj as [q Hqj]. pose proof (qs_push_same j t0 s q Hqj) as Hsame.
    assert (Hkeep : forall i r y, qs s !! i = Some r -> y ∈ r -> exists r', qs s' !! i = Some r' /\ y ∈ r').
    { intros i r y Hi Hy. rewrite Hq. destruct (decide (i = j)) as [->|Hn]; [|rewrite qs_push by exact Hn; eauto].
      rewrite Hqj in Hi. injection Hi as ->. eexists. split; [exact Hsame|]. apply elem_of_app. auto. }
    repeat split.
    + intros t (i & r & b & Hi & Hy). left. destruct (Hkeep i r _ Hi Hy) as (r' & H1 & H2). exists i, r', b. auto.
    + intros t (i & r & Hi & Hy). left. destruct (Hkeep i r _ Hi Hy) as (r' & H1 & H2). exists i, r'. auto.
    + apply elem_of_list_singleton in H. injection H as -> ->. exists j, (q ++ [(t0, false)]), false. rewrite Hq. split; [exact Hsame|]. apply elem_of_app. right. left.
    + apply elem_of_list_singleton in H. injection H as -> ->. eauto.
    + intros t Hx. apply elem_of_list_singleton in Hx. discriminate.
    + intros y o t Hx. apply elem_of_list_singleton in Hx. discriminate.
    + intros t (i & r & b & Hi & Hy). rewrite Hq in Hi. destruct (decide (i = j)) as [->|Hn].
      * rewrite Hsame in Hi. injection Hi as <-. apply elem_of_app in Hy as [Hy|Hy]; [left; exists j, q, b; auto|].
        apply elem_of_list_singleton in Hy. injection Hy as -> ->. right. exists x. left.
      * rewrite qs_push in Hi by exact Hn. left. exists i, r, b. auto.
    + eauto.
  - assert (Hkeep : forall i r y, qs s !! i = Some r -> y ∈ r -> (exists r', qs s' !! i = Some r' /\ y ∈ r') \/ y = (t0, b)).
    { intros i r y Hi Hy. rewrite Hq. destruct (decide (j = i)) as [->|Hn]; [|rewrite list_lookup_insert_ne by exact Hn; eauto].
      rewrite H1 in Hi. injection Hi as ->. rewrite list_lookup_insert by (eapply lookup_lt_Some, H1).
      destruct (delete_elem r c _ y H2 Hy) as [Hd| ->]; eauto. }
    repeat split.
    + intros t (i & r & b' & Hi & Hy). destruct (Hkeep i r _ Hi Hy) as [(r' & H3 & H4)|[= -> ->]]; [left; exists i, r', b'; auto|right; left].
    + intros t (i & r & Hi & Hy). destruct (Hkeep i r _ Hi Hy) as [(r' & H3 & H4)|[= -> <-]]; [left; exists i, r'; auto|right; left].
    + apply elem_of_list_singleton in H. discriminate.
    + apply elem_of_list_singleton in H. discriminate.
    + intros t Hx. apply elem_of_list_singleton in Hx. injection Hx as ->. exact Hr.
    + intros y o t Hx. apply elem_of_list_singleton in Hx. discriminate.
    + intros t (i & r & b' & Hi & Hy). rewrite Hq in Hi. left. destruct (decide (j = i)) as [->|Hn].
      * rewrite list_lookup_insert in Hi by (eapply lookup_lt_Some, H1). injection Hi as <-. exists i, q, b'. split; [exact H1|]. eapply elem_delete, Hy.
      * rewrite list_lookup_insert_ne in Hi by exact Hn. exists i, r, b'. auto.
    + eauto.
  - assert (Hkeep : forall i r t b, qs s !! i = Some r -> (t, b) ∈ r -> exists r', qs s' !! i = Some r' /\ (t, true) ∈ r').
    { intros i r t b Hi Hy. rewrite Hq. unfold age. simpl. rewrite list_lookup_fmap, Hi. simpl. eexists. split; [reflexivity|].
      apply elem_of_list_In, in_map_iff. exists (t, b). split; [reflexivity|]. apply elem_of_list_In, Hy. }
    repeat split.
    + intros t (i & r & b & Hi & Hy). left. destruct (Hkeep i r t b Hi Hy) as (r' & ?). exists i, r', true. auto.
    + intros t (i & r & Hi & Hy). left. destruct (Hkeep i r t true Hi Hy) as (r' & ?). exists i, r'. auto.
    + apply elem_of_list_singleton in H. discriminate.
    + apply elem_of_list_singleton in H. discriminate.
    + intros t Hx. apply elem_of_list_singleton in Hx. discriminate.
    + intros y o' t _ (i & r & b & Hi & Hy). destruct (Hkeep i r t b Hi Hy) as (r' & ?). exists i, r'. auto.
    + intros t (i & r & b & Hi & Hy). left. rewrite Hq in Hi. unfold age in Hi. simpl in Hi. rewrite list_lookup_fmap in Hi.
      destruct (qs s !! i) as [r0|] eqn:E; [|discriminate]. injection Hi as <-. apply elem_of_list_In, in_map_iff in Hy as ([t' b'] & [= -> <-] & Hin).
      exists i, r0, b'. split; [exact E|]. apply elem_of_list_In, Hin.
    + eauto.
Qed.
Lemma step_tinv m tr s l s' e : base s -> tinv tr s -> step m s l = Some (s', e) -> tinv (tr ++ e) s'.
Proof.
  intros Hb [Hq Ha Hr Hf Hiq Hact Hkid Hold] Hst.
  destruct (qchange_fwd _ _ _ (step_qchange _ _ _ _ _ Hb Hst)) as (Q1 & Q2 & Q3 & Q4 & Q5 & Q6 & Q7).
  destruct (step_rchange _ _ _ _ _ Hb Hst) as (R1 & R2 & R3 & R4). pose proof (step_achange _ _ _ _ _ Hb Hst) as HA.
  assert (HP : forall x t, Pushed x t ∈ e -> t < next s /\ forall y, x = Some y -> y < t).
  { intros x t Hx. destruct (Q3 x t Hx) as (_ & a & Hac & Ht). destruct (Hact x a Hac) as (_ & H2 & _). auto. }
  split.
  - intros x t Hx. rewrite elem_of_app in *. destruct Hx as [Hx|Hx].
    + destruct (Hq x t Hx) as [|H]; [auto|]. destruct (Q1 t H); auto.
    + right. apply (Q3 x t Hx).
  - intros t Hx. rewrite elem_of_app. destruct Q7 as [->|[ev ->]].
    + rewrite app_nil_r in Hx. destruct (Ha t Hx) as [|H]; [auto|]. destruct (Q2 t H); auto.
    + destruct (aged_snoc _ _ _ Hx) as [Hx'|[(x & o & ->) (x' & Hp)]].
      * destruct (Ha t Hx') as [|H]; [auto|]. destruct (Q2 t H); auto.
      * destruct (Hq x' t Hp) as [|H]; [auto|]. right. eapply Q5; [left|exact H].
  - intros t Hx. rewrite elem_of_app in *. destruct Hx as [Hx|Hx]; [|auto]. destruct (Hr t Hx) as [|H]; [auto|]. destruct (R1 t H); auto.
  - intros t Hx. apply elem_of_app in Hx as [Hx|Hx]; auto.
  - intros t Ht. destruct (Q6 t Ht) as [H|[x H]]; [specialize (Hiq t H); lia|]. destruct (HP x t H). lia.
  - intros x a Hac. destruct (HA x a Hac) as [H|[(-> & Hx)|(a0 & H & [G1 G2])]].
    + destruct (Hact x a H) as (H1 & H2 & H3). repeat split.
      * intros y Hy. specialize (H1 y Hy). lia.
      * destruct (H2 t H0). lia.
      * destruct (H2 t H0). auto.
      * intros o Ho. apply elem_of_app. auto.
    + repeat split; try discriminate. intros y ->. destruct Hx as [|(t & [= <-] & Ht)]; [discriminate|]. specialize (Hiq y Ht). lia.
    + destruct (Hact x a0 H) as (H1 & H2 & H3). repeat split.
      * intros y Hy. specialize (H1 y Hy). lia.
      * destruct G1 as [G1|[G1|[G1 G3]]]; [congruence| |]; [rewrite G1 in H0; destruct (H2 t H0); lia|]. rewrite G1 in H0. injection H0 as <-. lia.
      * intros y Hy. destruct G1 as [G1|[G1|[G1 G3]]]; [congruence| |]; [rewrite G1 in H0; destruct (H2 t H0); auto|]. rewrite G1 in H0. injection H0 as <-. auto.
      * intros o Ho. apply elem_of_app. destruct (G2 o Ho); auto.
  - intros x y Hx. apply elem_of_app in Hx as [Hx|Hx]; [auto|]. destruct (HP _ _ Hx). auto.
  - intros x y Hx. apply elem_of_app in Hx as [Hx|Hx]; [specialize (Hold x y Hx); lia|]. destruct (HP _ _ Hx). lia.
Qed.
Lemma init_tinv c : tinv [] (init c).
Proof.
  assert (Hq : forall t, inq (init c) t -> False).
  { intros t (j & q & b & Hj & Ht). simpl in Hj. apply lookup_replicate in Hj as [-> _]. apply elem_of_nil in Ht. exact Ht. }
  split; try (intros; exfalso; eapply elem_of_nil; eassumption).
  - intros t (tr1 & x & o & tr2 & x' & He & _). destruct tr1; discriminate.
  - intros t Ht. destruct (Hq t Ht).
  - intros x a ([k|k] & Hw & _); [|discriminate]. rewrite get_T in Hw. simpl in Hw. destruct (replicate c (Loop 0) !! k) eqn:E; [|discriminate].
    apply lookup_replicate in E as [-> _]. discriminate.
Qed.
