(** How far join is, and the threads. *)
From Coq Require Import List Bool Arith Lia.
From stdpp Require Import list.
From Verif.PoolJoin Require Import Model View Inv Cover Trace.

(** * Steps that are not join's *)
Definition plain (ev : event) : bool := match ev with Called | Returned => false | _ => true end.
Definition frame (s s' : st) (e : list event) : Prop :=
  don s' = don s /\ jn s' = jn s /\ forallb plain e = true /\ (cleared s = false -> bad s' = bad s) /\ (cl_out s -> cl_out s').
Lemma cl_put w a s a0 : get w s = Some a0 -> cl (put w a s) = match w with T _ => cl s | C k => <[k := a]> (cl s) end.
Proof. destruct w as [k|k]; simpl; [|reflexivity]. rewrite get_T. unfold put. destruct (thr s !! k) as [[]|]; reflexivity. Qed.
Lemma frame_ext s s1 s' e : frame s s1 e -> don s' = don s1 -> jn s' = jn s1 -> bad s' = bad s1 -> cl s' = cl s1 -> frame s s' e.
Proof. intros (H1 & H2 & H3 & H4 & H5) Hd Hj Hb Hc. unfold frame, cl_out, called in *. rewrite Hd, Hj, Hb, Hc. auto. Qed.
Lemma frame_put w a a0 s s1 e : get w s = Some a0 -> thr s1 = thr s -> cl s1 = cl s -> don s1 = don s -> jn s1 = jn s -> bad s1 = bad s ->
  forallb plain e = true -> (called s = true -> out a0 = true -> out a = true \/ exists k, w = T k) -> frame s (put w a s1) e.
Proof.
  intros Hg Ht Hc Hd Hj Hb He Ho. assert (Hg1 : get w s1 = Some a0) by (rewrite (get_ext w s) by assumption; exact Hg).
  destruct (put_proj w a s1) as (_ & _ & _ & Ed & Ej & _ & Eb). repeat split; try congruence.
  intros H. unfold cl_out, called in *. rewrite Ej, Hj, (cl_put w a s1 a0 Hg1). intros Hcl. specialize (H Hcl). destruct w as [k|k].
  - intros i b. rewrite Hc. apply H.
  - intros i b. rewrite Hc. pose proof (H k a0 Hg) as H0. destruct (decide (k = i)) as [->|Hn].
    + rewrite list_lookup_insert by (eapply lookup_lt_Some, Hg). intros [= <-]. destruct (Ho Hcl H0) as [|[? ?]]; [assumption|discriminate].
    + rewrite list_lookup_insert_ne by exact Hn. apply H.
Qed.
Lemma frame_pos k p s s1 e : thr s1 = thr s -> cl s1 = cl s -> don s1 = don s -> jn s1 = jn s -> bad s1 = bad s -> forallb plain e = true -> frame s (set_pos k p s1) e.
Proof. intros Ht Hc Hd Hj Hb He. repeat split; auto. intros H. unfold cl_out, called in *. simpl. rewrite Hc, Hj. exact H. Qed.
Lemma frame_wrong s : cleared s = true -> frame s (wrong s) [].
Proof. intros H. repeat split; auto. rewrite H. discriminate. Qed.
Lemma take_frame k j c s s1 s' e : thr s1 = thr s -> cl s1 = cl s -> don s1 = don s -> jn s1 = jn s -> bad s1 = bad s -> take_from k j c s1 = Some (s', e) -> frame s s' e.
Proof. intros Ht Hc Hd Hj Hb Hst. apply take_qs in Hst as (q & t & _ & _ & -> & ->). apply frame_pos; auto. Qed.
Lemma eval_frame k c s s1 s' e : thr s1 = thr s -> cl s1 = cl s -> don s1 = don s -> jn s1 = jn s -> bad s1 = bad s -> eval_wait k c s1 = Some (s', e) -> frame s s' e.
Proof.
  intros Ht Hc Hd Hj Hb Hst. unfold eval_wait in Hst. repeat case_match; simplify_eq; try (apply frame_pos; auto; fail).
  eapply (take_frame k k c s (set_flag k false s1)); eauto.
Qed.
Ltac fput E w s s1 := eapply (frame_put w _ _ s s1); [exact E|try apply push_proj; reflexivity..|reflexivity|simpl; auto].
Lemma step_frame m s l s' e : l <> Join -> step m s l = Some (s', e) -> frame s s' e.
Proof.
  intros Hl Hst. unfold step in Hst. destruct (bad s) eqn:Eb; [discriminate|]. destruct l as [|w|w o|w|w f|k f c|k|w|k|]; try congruence.
  - destruct (called s) eqn:Ec; [discriminate|]. injection Hst as <- <-. repeat split; auto. intros _. unfold cl_out. change (called (set_cl (cl s ++ [User]) s)) with (called s). congruence.
  - destruct (get w s) as [[]|] eqn:E; try discriminate. destruct (may w s) eqn:Em; [|discriminate]. injection Hst as <- <-.
    eapply (frame_ext _ (put w (Try (next s) (idx s) 0) s)); try reflexivity. fput E w s s. intros Hc _. destruct w as [k|k]; [eauto|]. simpl in Em. rewrite Hc in Em. discriminate.
  - destruct (get w s) as [[]|] eqn:E; try discriminate. destruct (may w s) eqn:Em; [|discriminate].
    destruct (match o with Some y => _ | None => _ end); injection Hst as <- <-; [repeat split; auto|].
    fput E w s s. intros Hc _. destruct w as [k|k]; [eauto|]. simpl in Em. rewrite Hc in Em. discriminate.
  - destruct (get w s) as [[| | | | | | |[]]|] eqn:E; try discriminate. injection Hst as <- <-. fput E w s s.
  - destruct (get w s) as [a|] eqn:E; try discriminate. unfold call in Hst. destruct (uses a && cleared s) eqn:Eu.
    { injection Hst as <- <-. apply andb_true_iff in Eu as [_ Eu]. apply frame_wrong, Eu. }
    destruct a as [|t i n|t i|j k|n o|n l o|o|o]; simpl in Hst; try discriminate.
    + destruct f; injection Hst as <- <-; [fput E w s s; discriminate|]. fput E w s (push ((i + n) mod count s) t s); discriminate.
    + injection Hst as <- <-. fput E w s (push (i mod count s) t s); discriminate.
    + injection Hst as <- <-. set (a := match k with None => User | Some o => Blocked o end).
      destruct (notify_proj j (put w a s)) as (_ & _ & _ & ? & ? & ? & _ & ?). eapply (frame_ext _ (put w a s)); auto. fput E w s s; discriminate.
    + repeat case_match; simplify_eq; first [fput E w s s; discriminate|fput E w s (set_flag n false s); discriminate].
    + repeat case_match; simplify_eq; first [fput E w s s; discriminate|fput E w s (set_flag (count s + n) false s); discriminate].
    + assert (H : forall e, forallb plain e = true -> frame s (put w (Blocked o) s) e) by (intros e' He'; eapply (frame_put w _ _ s s); [exact E|auto..]).
      destruct (length (thr s) =? m); injection Hst as <- <-; [auto|]. eapply frame_ext; [apply H|reflexivity..]. destruct (jn s); reflexivity.
  - unfold poll in Hst. destruct (thr s !! k) as [[n| |[]| |t a]|] eqn:E; try discriminate.
    + destruct (cleared s) eqn:Ec; [injection Hst as <- <-; apply frame_wrong, Ec|].
      destruct f; [injection Hst as <- <-; apply frame_pos; auto; destruct (nothing _ s); reflexivity|].
      destruct (nothing _ s); [injection Hst as <- <-; apply frame_pos; auto|]. eapply take_frame; [reflexivity..|exact Hst].
    + destruct (cleared s && _) eqn:Ec; [injection Hst as <- <-; apply andb_true_iff in Ec as [Ec _]; apply frame_wrong, Ec|]. eapply (eval_frame k c s (set_flag k true s)); [reflexivity..|exact Hst].
    + destruct (cleared s && _) eqn:Ec; [injection Hst as <- <-; apply andb_true_iff in Ec as [Ec _]; apply frame_wrong, Ec|]. eapply (eval_frame k c s s); [reflexivity..|exact Hst].
  - destruct (thr s !! k) as [[n| |b| |t []]|] eqn:E; try discriminate. injection Hst as <- <-. eapply (frame_ext _ (set_pos k (Loop 0) s)); try reflexivity. apply frame_pos; auto.
  - destruct (get w s) as [[| | | | | | |[]]|] eqn:E; try discriminate. destruct (bool_decide _); [|discriminate]. injection Hst as <- <-. fput E w s s.
  - destruct (thr s !! k) as [[n| |b| |t a]|] eqn:E; try discriminate. injection Hst as <- <-. apply frame_pos; auto.
Qed.

(** * The invariant *)
Definition all_exited (s : st) : Prop := forall k, k < length (thr s) -> thr s !! k = Some Exited.
Record jinv (m : nat) (tr : list event) (s : st) : Prop := {
  j_len : length (thr s) <= m;
  j_dlen : length (don s) = m;
  j_no : jn s = JNo -> forall k, is_done k s = false;
  j_done : match jn s with
           | JNo => True
           | JSet j => j <= m /\ forall k, k < j -> is_done k s = true
           | JNot j => j < m /\ forall k, k <= j -> is_done k s = true
           | _ => forall k, k < m -> is_done k s = true
           end;
  j_ex : forall k, thr s !! k = Some Exited -> is_done k s = true;
  j_wait : forall k e, jn s = JWait k e -> k <= e <= length (thr s) /\ (forall i, i < k -> thr s !! i = Some Exited) /\ (Late ∉ tr -> e = length (thr s));
  j_end : jn s = JEnd -> Late ∉ tr -> all_exited s /\ exists tr1, tr = tr1 ++ [Returned] /\ Returned ∉ tr1;
  j_cl : cl_out s;
  j_called : Called ∈ tr <-> called s = true;
  j_ret : Returned ∈ tr <-> jn s = JEnd;
  j_bad : Late ∉ tr -> bad s = false
}.
(** once join has returned nothing is left to happen *)
Lemma end_step m s l s' e : jn s = JEnd -> all_exited s -> cl_out s -> step m s l = Some (s', e) -> e = [] /\ thr s' = thr s /\ bad s' = false.
Proof.
  intros Hj Hx Hc Hst. assert (Hcl : called s = true) by (unfold called; rewrite Hj; reflexivity). specialize (Hc Hcl).
  assert (Hx' : forall k p, thr s !! k = Some p -> p = Exited) by (intros k p Hk; pose proof (Hx k (lookup_lt_Some _ _ _ Hk)); congruence).
  assert (HT : forall k, get (T k) s = None). { intros k. rewrite get_T. destruct (thr s !! k) as [p|] eqn:E; [|reflexivity]. rewrite (Hx' k p E). reflexivity. }
  assert (HC : forall k a, get (C k) s = Some a -> out a = true) by exact Hc.
  unfold step in Hst. destruct (bad s) eqn:Eb; [discriminate|]. destruct l as [|w|w o|w|w f|k f c|k|w|k|].
  - rewrite Hcl in Hst. discriminate.
  - destruct w as [k|k]; [rewrite HT in Hst; discriminate|]. simpl may in Hst. rewrite Hcl in Hst. simpl in Hst. repeat case_match; discriminate.
  - destruct w as [k|k]; [rewrite HT in Hst; discriminate|]. simpl may in Hst. rewrite Hcl in Hst. simpl in Hst. repeat case_match; discriminate.
  - destruct w as [k|k]; [rewrite HT in Hst; discriminate|]. repeat case_match; simplify_eq. auto.
  - destruct w as [k|k]; [rewrite HT in Hst; discriminate|]. destruct (get (C k) s) as [a|] eqn:E; [|discriminate]. specialize (HC k a E). destruct a; discriminate.
  - unfold poll in Hst. destruct (thr s !! k) as [p|] eqn:E; [|discriminate]. rewrite (Hx' k p E) in Hst. discriminate.
  - destruct (thr s !! k) as [p|] eqn:E; [|discriminate]. rewrite (Hx' k p E) in Hst. discriminate.
  - destruct w as [k|k]; [rewrite HT in Hst; discriminate|]. repeat case_match; simplify_eq. auto.
  - destruct (thr s !! k) as [p|] eqn:E; [|discriminate]. rewrite (Hx' k p E) in Hst. discriminate.
  - unfold join in Hst. rewrite Hj in Hst. discriminate.
Qed.
Lemma plain_not e : forallb plain e = true -> Called ∉ e /\ Returned ∉ e.
Proof.
  intros H. rewrite forallb_forall in H. split; intros Hx; apply elem_of_list_In, H in Hx; discriminate.
Qed.
Lemma done_set j k s : j < length (don s) -> is_done k (set_done j s) = if decide (k = j) then true else is_done k s.
Proof.
  intros Hj. unfold is_done. simpl. destruct (decide (k = j)) as [->|Hn]; [rewrite list_lookup_insert by exact Hj|rewrite list_lookup_insert_ne by congruence]; reflexivity.
Qed.
Global Instance label_dec : EqDecision label.
Proof. solve_decision. Defined.
Lemma step_jinv m tr s l s' e : jinv m tr s -> step m s l = Some (s', e) -> jinv m (tr ++ e) s'.
Proof.
  intros H Hst. pose proof (step_tchange _ _ _ _ _ Hst) as (_ & T2 & T3 & T4). assert (Hnb : bad s = false) by (unfold step in Hst; destruct (bad s); [discriminate|reflexivity]).
  destruct H as [H1 H2 H3 H4 H5 H6 H7 H8 H9 H10 H11]. destruct (decide (l = Join)) as [->|Hl].
  - unfold step in Hst. rewrite Hnb in Hst. unfold join in Hst. destruct (jn s) as [|j|j| |k e0|] eqn:Ej; try discriminate.
    + destruct (forallb out (cl s)) eqn:Eo; [|discriminate]. injection Hst as <- <-. split; simpl; auto; try discriminate.
      * split; [lia|]. intros k Hk. lia.
      * intros _ k a Ha. rewrite forallb_forall in Eo. apply Eo, elem_of_list_In, elem_of_list_lookup. exists k. exact Ha.
      * split; [reflexivity|]. intros _. apply elem_of_app. right. left.
      * split; [|discriminate]. intros Hr. apply elem_of_app in Hr as [Hr|Hr]; [apply H10 in Hr; discriminate|]. apply elem_of_list_singleton in Hr. discriminate.
    + destruct (j =? m) eqn:Em.
      * injection Hst as <- <-. apply Nat.eqb_eq in Em. subst j. rewrite app_nil_r. split; simpl; auto; try discriminate.
        -- destruct H4 as [_ H4]. exact H4.
        -- intros _. apply H8. unfold called. rewrite Ej. reflexivity.
        -- unfold called in *. simpl. rewrite Ej in H9. exact H9.
        -- split; [|discriminate]. intros Hr. apply H10 in Hr. discriminate.
      * injection Hst as <- <-. apply Nat.eqb_neq in Em. destruct H4 as [H4 H4']. rewrite app_nil_r.
        assert (Hd : forall k, is_done k (set_jn (JNot j) (set_done j s)) = if decide (k = j) then true else is_done k s) by (intros k; apply (done_set j k s); lia).
        split; simpl; auto; try discriminate.
        -- rewrite insert_length. exact H2.
        -- split; [lia|]. intros k Hk. rewrite Hd. destruct (decide (k = j)); [reflexivity|]. apply H4'. lia.
        -- intros k Hk. rewrite Hd. destruct (decide (k = j)); auto.
        -- intros Hc. apply H8. unfold called. rewrite Ej. reflexivity.
        -- unfold called in *. simpl. rewrite Ej in H9. exact H9.
        -- split; [|discriminate]. intros Hr. apply H10 in Hr. discriminate.
    + injection Hst as <- <-. rewrite app_nil_r. destruct (notify_proj j (set_jn (JSet (S j)) s)) as (_ & _ & _ & Ed & Ejn & Ec & El & Eb).
      simpl in Ed, Ejn, Ec, El, Eb. unfold cl_out, called in *.
      assert (Hd : forall k, is_done k (notify j (set_jn (JSet (S j)) s)) = is_done k s) by (intros k; unfold is_done; rewrite Ed; reflexivity). split; rewrite ?Ed, ?Ejn, ?Ec, ?El, ?Eb; auto; try discriminate.
      * destruct H4 as [H4 H4']. split; [lia|]. intros k Hk. rewrite Hd. apply H4'. lia.
      * intros k Hk. rewrite Hd. apply thr_notify_ne in Hk; [|discriminate]. apply H5. exact Hk.
      * unfold cl_out. rewrite Ec. intros _. apply H8. rewrite Ej. reflexivity.
      * unfold called. rewrite Ejn. rewrite Ej in H9. exact H9.
      * split; [|discriminate]. intros Hr. apply H10 in Hr. discriminate.
    + injection Hst as <- <-. rewrite app_nil_r. split; simpl; auto; try discriminate.
      * intros k e0 [= <- <-]. split; [lia|]. split; [intros i Hi; lia|auto].
      * intros _. apply H8. unfold called. rewrite Ej. reflexivity.
      * unfold called in *. simpl. rewrite Ej in H9. exact H9.
      * split; [|discriminate]. intros Hr. apply H10 in Hr. discriminate.
    + destruct (H6 _ _ eq_refl) as (W1 & W2 & W3). destruct (k =? e0) eqn:Ek.
      * injection Hst as <- <-. apply Nat.eqb_eq in Ek. subst e0.
        assert (HL : Late ∉ tr ++ [Returned] -> Late ∉ tr) by (intros Hx Hy; apply Hx, elem_of_app; auto). split; simpl; auto; try discriminate.
        -- intros _ Hx. specialize (W3 (HL Hx)). split; [intros i Hi; simpl in *; apply W2; lia|]. exists tr. split; [reflexivity|]. intros Hr. apply H10 in Hr. discriminate.
        -- intros _. apply H8. unfold called. rewrite Ej. reflexivity.
        -- unfold called in *. simpl. rewrite Ej in H9. rewrite elem_of_app, H9. tauto.
        -- split; [reflexivity|]. intros _. apply elem_of_app. right. left.
      * destruct (thr s !! k) as [[]|] eqn:Et; try discriminate. injection Hst as <- <-. apply Nat.eqb_neq in Ek. rewrite app_nil_r. split; simpl; auto; try discriminate.
        -- intros k' e' [= <- <-]. split; [lia|]. split; [|exact W3]. intros i Hi. destruct (decide (i = k)) as [->|]; [exact Et|]. apply W2. lia.
        -- intros _. apply H8. unfold called. rewrite Ej. reflexivity.
        -- unfold called in *. simpl. rewrite Ej in H9. exact H9.
        -- split; [|discriminate]. intros Hr. apply H10 in Hr. discriminate.
  - destruct (step_frame _ _ _ _ _ Hl Hst) as (F1 & F2 & F3 & F4 & F5). destruct (plain_not _ F3) as [N1 N2].
    assert (HL : Late ∉ tr ++ e -> Late ∉ tr) by (intros Hx Hy; apply Hx, elem_of_app; auto).
    assert (HLe : Late ∉ tr ++ e -> Late ∉ e) by (intros Hx Hy; apply Hx, elem_of_app; auto).
    assert (Hd : forall k, is_done k s' = is_done k s) by (intros k; unfold is_done; rewrite F1; reflexivity).
    split.
    + destruct T4 as [T4|(T4 & T5 & _)]; lia.
    + congruence.
    + rewrite F2. intros Hj k. rewrite Hd. auto.
    + rewrite F2. destruct (jn s); auto; try (destruct H4; split; [assumption|]); intros k' Hk; rewrite Hd; auto.
    + intros k Hk. rewrite Hd. destruct (T3 k Hk) as [|(? & _)]; auto.
    + rewrite F2. intros k e0 Hj. destruct (H6 k e0 Hj) as (W1 & W2 & W3). split; [destruct T4 as [T4|(T4 & _)]; lia|]. split; [intros i Hi; apply T2, W2, Hi|].
      intros Hx. specialize (W3 (HL Hx)). destruct T4 as [T4|(T4 & _ & T5 & _)]; [lia|]. rewrite Hj in T5. destruct (HLe Hx T5).
    + rewrite F2. intros Hj Hx. destruct (H7 Hj (HL Hx)) as (He & tr1 & Htr & Hn). destruct (end_step _ _ _ _ _ Hj He H8 Hst) as (-> & Ht & _).
      split; [unfold all_exited; rewrite Ht; exact He|]. rewrite app_nil_r. eauto.
    + auto.
    + unfold called in *. rewrite F2, elem_of_app, H9. tauto.
    + rewrite F2, elem_of_app, H10. tauto.
    + intros Hx. destruct (jn s) eqn:Ej; try (rewrite F4 by (unfold cleared; rewrite Ej; reflexivity); exact Hnb).
      destruct (H7 eq_refl (HL Hx)) as (He & _). destruct (end_step _ _ _ _ _ Ej He H8 Hst) as (_ & _ & ?). assumption.
Qed.
Lemma init_jinv c m : c <= m -> jinv m [] (init c m).
Proof.
  intros Hc. split; simpl; rewrite ?replicate_length; auto; try discriminate.
  - intros _ k. unfold is_done. simpl. destruct (replicate m false !! k) as [b|] eqn:E; [|reflexivity]. apply lookup_replicate in E as [-> _]. reflexivity.
  - intros k Hk. apply lookup_replicate in Hk as [Hk _]. discriminate.
  - split; [|discriminate]. intros Hx. apply elem_of_nil in Hx. destruct Hx.
  - split; [|discriminate]. intros Hx. apply elem_of_nil in Hx. destruct Hx.
Qed.
