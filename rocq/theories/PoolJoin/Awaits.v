(** What the tasks wait for. *)
From Coq Require Import List Bool Arith Lia.
From stdpp Require Import list.
From Verif.PoolJoin Require Import Model View Inv Cover.

Definition target (a : act) : option (option nat) :=
  match a with Notify _ k => k | WakeQ _ o | WakeW _ _ o | AddTh o | Blocked o => Some o | _ => None end.
Definition ainv (tr : list event) (s : st) : Prop := forall w a o, get w s = Some a -> target a = Some o -> Awaits (task w s) o ∈ tr.
Lemma ainv_mono tr e s s' : ainv tr s -> (forall w a o, get w s' = Some a -> target a = Some o -> get w s = Some a /\ task w s' = task w s) -> ainv (tr ++ e) s'.
Proof. intros H Hx w a o Hg Ht. destruct (Hx w a o Hg Ht) as [H1 H2]. rewrite H2. apply elem_of_app. left. eauto. Qed.
Lemma ainv_ext tr e s s' : ainv tr s -> thr s' = thr s -> cl s' = cl s -> ainv (tr ++ e) s'.
Proof. intros H Ht Hc. eapply ainv_mono; [exact H|]. intros w a o. rewrite (get_ext w s) by assumption. rewrite (task_ext w s) by assumption. auto. Qed.
Lemma ainv_put tr e w a a0 s s1 : ainv tr s -> get w s = Some a0 -> thr s1 = thr s -> cl s1 = cl s ->
  (forall o, target a = Some o -> target a0 = Some o \/ Awaits (task w s) o ∈ e) -> ainv (tr ++ e) (put w a s1).
Proof.
  intros H Hg Ht Hc Ho w' a' o Hg' Ht'. assert (Hg1 : get w s1 = Some a0) by (rewrite (get_ext w s) by assumption; exact Hg).
  rewrite (get_put w w' a s1 a0 Hg1) in Hg'. rewrite (task_put w a s1 a0 w' Hg1), (task_ext w' s) by assumption. apply elem_of_app.
  destruct (decide (w = w')) as [->|Hn].
  - injection Hg' as <-. destruct (Ho o Ht'); eauto.
  - rewrite (get_ext w' s) in Hg' by assumption. eauto.
Qed.
Lemma ainv_notify tr j s : ainv tr s -> ainv tr (notify j s).
Proof. intros H w a o. rewrite get_notify, task_notify. apply H. Qed.
Lemma ainv_pos tr e k p s s1 : ainv tr s -> k < length (thr s) -> thr s1 = thr s -> cl s1 = cl s -> (forall a, act_of p = Some a -> target a = None) -> ainv (tr ++ e) (set_pos k p s1).
Proof.
  intros H Hk Ht Hc Hp. eapply ainv_mono; [exact H|]. intros w a o Hg Hta. rewrite get_set_pos in Hg by (rewrite Ht; exact Hk). destruct (decide (w = T k)) as [->|Hn].
  - rewrite (Hp a Hg) in Hta. discriminate.
  - rewrite (get_ext w s) in Hg by assumption. split; [exact Hg|]. destruct w as [j|]; [|reflexivity]. simpl. rewrite Ht, list_lookup_insert_ne by congruence. reflexivity.
Qed.
Lemma take_ainv tr k j c s s1 s' e : ainv tr s -> k < length (thr s) -> thr s1 = thr s -> cl s1 = cl s -> take_from k j c s1 = Some (s', e) -> ainv (tr ++ e) s'.
Proof. intros H Hk Ht Hc Hst. apply take_qs in Hst as (q & t & _ & _ & -> & ->). eapply ainv_pos; eauto. intros a [= <-]. reflexivity. Qed.
Lemma eval_ainv tr k c s s1 s' e : ainv tr s -> k < length (thr s) -> thr s1 = thr s -> cl s1 = cl s -> eval_wait k c s1 = Some (s', e) -> ainv (tr ++ e) s'.
Proof.
  intros H Hk Ht Hc Hst. unfold eval_wait in Hst. destruct (_ && _); [eapply (take_ainv tr k k c s (set_flag k false s1)); eauto|].
  repeat case_match; simplify_eq; (eapply ainv_pos; [exact H|exact Hk|exact Ht|exact Hc|discriminate]).
Qed.
Lemma join_ainv tr d s s' e : ainv tr s -> join d s = Some (s', e) -> ainv (tr ++ e) s'.
Proof.
  intros H Hst. unfold join in Hst. repeat case_match; simplify_eq; try (eapply ainv_ext; eauto; fail). apply ainv_notify. eapply ainv_ext; eauto.
Qed.
Ltac aput H E w s s1 := eapply (ainv_put _ _ w _ _ s s1); [exact H|exact E|try apply push_proj; reflexivity|try apply push_proj; reflexivity|simpl; auto; try discriminate].
Lemma step_ainv m tr s l s' e : ainv tr s -> step m s l = Some (s', e) -> ainv (tr ++ e) s'.
Proof.
  intros H Hst. unfold step in Hst. destruct (bad s) eqn:Eb; [discriminate|]. destruct l as [|w|w o|w|w f|k f c|k|w|k|].
  - destruct (called s); [discriminate|]. injection Hst as <- <-. eapply ainv_mono; [exact H|]. intros [k|k] a o Hg Ht; [auto|]. unfold get in Hg. simpl in Hg.
    apply lookup_app_Some in Hg as [Hg|[_ Hg]]; [auto|]. apply list_lookup_singleton_Some in Hg as [_ <-]. discriminate.
  - destruct (get w s) as [[]|] eqn:E; try discriminate. destruct (may w s); [|discriminate]. injection Hst as <- <-.
    assert (Hx : ainv (tr ++ []) (put w (Try (next s) (idx s) 0) s)) by (aput H E w s s). exact Hx.
  - destruct (get w s) as [[]|] eqn:E; try discriminate. destruct (may w s); [|discriminate].
    destruct (match o with Some y => _ | None => _ end); injection Hst as <- <-; [rewrite app_nil_r; exact H|]. aput H E w s s. intros o' [= <-]. right. left.
  - destruct (get w s) as [[| | | | | | |[]]|] eqn:E; try discriminate. injection Hst as <- <-. aput H E w s s.
  - destruct (get w s) as [a|] eqn:E; try discriminate. unfold call in Hst. destruct (uses a && cleared s); [injection Hst as <- <-; eapply ainv_ext; eauto|].
    destruct a as [|t i n|t i|j k|n o|n l o|o|o]; simpl in Hst; try discriminate.
    + destruct f; injection Hst as <- <-; [aput H E w s s; destruct (S n =? count s); discriminate|]. aput H E w s (push ((i + n) mod count s) t s).
    + injection Hst as <- <-. aput H E w s (push (i mod count s) t s).
    + injection Hst as <- <-. apply ainv_notify. aput H E w s s. destruct k; simpl; auto; discriminate.
    + repeat case_match; simplify_eq; first [aput H E w s s; fail|aput H E w s (set_flag n false s)].
    + repeat case_match; simplify_eq; first [aput H E w s s; fail|aput H E w s (set_flag (count s + n) false s)].
    + assert (Hx : forall e, ainv (tr ++ e) (put w (Blocked o) s)) by (intros e'; aput H E w s s).
      destruct (length (thr s) =? m); injection Hst as <- <-; [apply Hx|]. intros w' a o' Hg Ht.
      assert (Hg' : get w' (put w (Blocked o) s) = Some a). { destruct w' as [i|i]; [|exact Hg]. rewrite get_T in Hg |- *. simpl in Hg. destruct (thr (put w (Blocked o) s) !! i) as [p|] eqn:Ei.
        - rewrite (lookup_app_l_Some _ _ _ _ Ei) in Hg. exact Hg.
        - apply lookup_ge_None in Ei. rewrite lookup_app_r in Hg by exact Ei. destruct (i - _); discriminate. }
      assert (Htk : task w' (put w (Blocked o) s) = task w' (St (qs (put w (Blocked o) s)) (thr (put w (Blocked o) s) ++ [Loop 0]) (flag (put w (Blocked o) s) ++ [false]) (don (put w (Blocked o) s))
        (jn (put w (Blocked o) s)) (bad (put w (Blocked o) s)) (cl (put w (Blocked o) s)) (idx (put w (Blocked o) s)) (next (put w (Blocked o) s)) (fin (put w (Blocked o) s)))).
      { destruct w' as [i|i]; [|reflexivity]. rewrite get_T in Hg'. simpl. destruct (thr (put w (Blocked o) s) !! i) as [p|] eqn:Ei; [|discriminate].
        rewrite (lookup_app_l_Some _ _ _ _ Ei). reflexivity. }
      rewrite <- Htk. eapply Hx; eauto.
  - unfold poll in Hst. destruct (thr s !! k) as [[n| |[]| |t a]|] eqn:E; try discriminate; apply lookup_lt_Some in E as Hl.
    + destruct (cleared s); [injection Hst as <- <-; eapply ainv_ext; eauto|].
      assert (Hon : forall e, ainv (tr ++ e) (set_pos k (if S n =? count s then Lock else Loop (S n)) s)).
      { intros e'. eapply ainv_pos; eauto. intros a. destruct (S n =? count s); discriminate. }
      destruct f; [injection Hst as <- <-; apply Hon|]. destruct (nothing _ s); [injection Hst as <- <-; apply Hon|]. eapply take_ainv; eauto.
    + destruct (cleared s && _); [injection Hst as <- <-; eapply ainv_ext; eauto|]. eapply (eval_ainv tr k c s (set_flag k true s)); eauto.
    + destruct (cleared s && _); [injection Hst as <- <-; eapply ainv_ext; eauto|]. eapply (eval_ainv tr k c s s); eauto.
  - destruct (thr s !! k) as [[n| |b| |t []]|] eqn:E; try discriminate. injection Hst as <- <-. apply lookup_lt_Some in E as Hl.
    assert (Hx : ainv (tr ++ [Ended t]) (set_pos k (Loop 0) s)) by (eapply ainv_pos; eauto; discriminate). exact Hx.
  - destruct (get w s) as [[| | | | | | |[]]|] eqn:E; try discriminate. destruct (bool_decide _); [|discriminate]. injection Hst as <- <-. aput H E w s s.
  - destruct (thr s !! k) as [[n| |b| |t a]|] eqn:E; try discriminate. injection Hst as <- <-. apply lookup_lt_Some in E as Hl. eapply ainv_pos; eauto. discriminate.
  - eapply join_ainv; eauto.
Qed.
Lemma init_ainv c m : ainv [] (init c m).
Proof.
  intros [k|k] a o; [|discriminate]. rewrite get_T. simpl. destruct (replicate c (Loop 0) !! k) as [p|] eqn:E; [|discriminate]. apply lookup_replicate in E as [-> _]. discriminate.
Qed.
(** tasks that have ended *)
Definition finv (tr : list event) (s : st) : Prop := forall t, Ended t ∈ tr -> t ∈ fin s.
Lemma step_fin m s l s' e : step m s l = Some (s', e) -> fin s' = fin s /\ (forall t, Ended t ∉ e) \/ exists t, fin s' = t :: fin s /\ e = [Ended t].
Proof.
  assert (Hn : forall t, Ended t ∉ []) by (intros t; apply not_elem_of_nil).
  assert (H1 : forall ev, match ev with Ended _ => false | _ => true end = true -> forall t, Ended t ∉ [ev]).
  { intros ev He t Hx. apply elem_of_list_singleton in Hx. subst ev. discriminate. }
  assert (Hpos : forall k p s1 ev, fin s1 = fin s -> (forall t, Ended t ∉ ev) -> fin (set_pos k p s1) = fin s /\ (forall t, Ended t ∉ ev) \/ exists t, fin (set_pos k p s1) = t :: fin s /\ ev = [Ended t]) by (intros; left; auto).
  assert (Htake : forall k j c s1 s' e, fin s1 = fin s -> take_from k j c s1 = Some (s', e) -> fin s' = fin s /\ forall t, Ended t ∉ e).
  { intros k j c s1 s2 e2 Hf Hst. apply take_qs in Hst as (q & t & _ & _ & -> & ->). split; [exact Hf|apply H1; reflexivity]. }
  assert (Hev : forall k c s1 s' e, fin s1 = fin s -> eval_wait k c s1 = Some (s', e) -> fin s' = fin s /\ forall t, Ended t ∉ e).
  { intros k c s1 s2 e2 Hf Hst. unfold eval_wait in Hst. destruct (_ && _); [eapply (Htake k k c (set_flag k false s1)); eauto|]. repeat case_match; simplify_eq; split; auto. }
  intros Hst. unfold step in Hst. destruct (bad s); [discriminate|]. destruct l as [|w|w o|w|w f|k f c|k|w|k|].
  - repeat case_match; simplify_eq; left; auto.
  - destruct (get w s) as [[]|]; try discriminate. destruct (may w s); [|discriminate]. injection Hst as <- <-. left. split; [apply put_proj|auto].
  - destruct (get w s) as [[]|]; try discriminate. destruct (may w s); [|discriminate]. left.
    destruct (match o with Some y => _ | None => _ end); injection Hst as <- <-; (split; [first [reflexivity|apply put_proj]|auto]); apply H1; reflexivity.
  - destruct (get w s) as [[| | | | | | |[]]|]; try discriminate. injection Hst as <- <-. left. split; [apply put_proj|auto].
  - destruct (get w s) as [a|]; [|discriminate]. left. unfold call in Hst. destruct (uses a && cleared s); [injection Hst as <- <-; auto|].
    destruct a as [|t i n|t i|j k|n o|n l o|o|o]; simpl in Hst; try discriminate.
    + destruct f; injection Hst as <- <-; [split; [apply put_proj|auto]|]. split; [etransitivity; [apply put_proj|apply push_proj]|apply H1; reflexivity].
    + injection Hst as <- <-. split; [etransitivity; [apply put_proj|apply push_proj]|apply H1; reflexivity].
    + injection Hst as <- <-. split; [etransitivity; [apply notify_proj|apply put_proj]|auto].
    + repeat case_match; simplify_eq; (split; [etransitivity; [apply put_proj|reflexivity]|auto]).
    + repeat case_match; simplify_eq; (split; [etransitivity; [apply put_proj|reflexivity]|auto]).
    + destruct (length (thr s) =? m); injection Hst as <- <-; (split; [apply put_proj|]); [auto|]. destruct (jn s); auto; apply H1; reflexivity.
  - left. unfold poll in Hst. destruct (thr s !! k) as [[n| |[]| |t a]|]; try discriminate.
    + destruct (cleared s); [injection Hst as <- <-; auto|]. destruct f; [injection Hst as <- <-; split; [reflexivity|]; destruct (nothing _ s); auto; apply H1; reflexivity|].
      destruct (nothing _ s); [injection Hst as <- <-; auto|]. eauto.
    + destruct (cleared s && _); [injection Hst as <- <-; auto|]. eapply (Hev k c (set_flag k true s)); eauto.
    + destruct (cleared s && _); [injection Hst as <- <-; auto|]. eapply (Hev k c s); eauto.
  - destruct (thr s !! k) as [[n| |b| |t []]|]; try discriminate. injection Hst as <- <-. right. eauto.
  - destruct (get w s) as [[| | | | | | |[]]|]; try discriminate. destruct (bool_decide _); [|discriminate]. injection Hst as <- <-. left. split; [apply put_proj|auto].
  - destruct (thr s !! k) as [[]|]; try discriminate. injection Hst as <- <-. left. auto.
  - left. unfold join in Hst. repeat case_match; simplify_eq; auto; try (split; [reflexivity|apply H1; reflexivity]). split; [etransitivity; [apply notify_proj|reflexivity]|auto].
Qed.
Lemma step_finv m tr s l s' e : finv tr s -> step m s l = Some (s', e) -> finv (tr ++ e) s'.
Proof.
  intros H Hst t Ht. destruct (step_fin _ _ _ _ _ Hst) as [[Hf Hn]|(t0 & Hf & ->)]; rewrite Hf; apply elem_of_app in Ht as [Ht|Ht].
  - auto.
  - destruct (Hn t Ht).
  - right. auto.
  - apply elem_of_list_singleton in Ht. injection Ht as ->. left.
Qed.
