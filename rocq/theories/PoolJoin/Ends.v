(** Left to themselves the threads, and join, come to rest. *)
From Coq Require Import List Bool Arith Lia.
From stdpp Require Import list.
From Verif.PoolJoin Require Import Model Spec View Inv Cover Trace Joined.

Definition item (c : nat) : nat := c + 8.
Definition aw (c m : nat) (a : act) : nat :=
  match a with
  | User => 0 | Blocked _ => 1
  | Notify _ None => 2 | Notify _ (Some _) => 3
  | PushIt _ _ => item c + 3
  | Try _ _ n => item c + 3 + (c - n)
  | AddTh _ => c + 6
  | WakeW n l _ => (l - n) + c + 10
  | WakeQ n _ => (c - n) + m + c + 12
  end.
Definition pw (c m : nat) (p : pos) (b : bool) : nat :=
  match p with
  | Loop n => (c - n) + 3
  | Lock => 2
  | Exited => 0
  | Wait v => (if v then 1 else 0) + (if b then 0 else c + 5)
  | Run _ a => c + 4 + aw c m a
  end.
(** join notifies m times, which may wake m threads; a thread it waits for may be one of those added since *)
Definition jw (m : nat) (p : jpos) : nat :=
  match p with
  | JNo => 3 * m + m + 5
  | JSet j => 3 * (m - j) + m + 4
  | JNot j => 3 * (m - j) + m + 3
  | JBegin => m + 3
  | JWait k e => (e - k) + 2
  | JEnd => 1
  end.
Definition mu (m : nat) (s : st) : nat := (if bad s then 0 else 1) + jw m (jn s) +
  list_sum (zip_with (pw (count s) m) (thr s) (flag s)) + list_sum (map (aw (count s) m) (cl s)) + item (count s) * list_sum (map length (qs s)).
Record ok (m : nat) (s : st) : Prop := {
  o_base : base s;
  o_loop : forall k n, thr s !! k = Some (Loop n) -> n < count s;
  o_join : exists tr, jinv m tr s
}.
Lemma sum_insert l k x y : l !! k = Some x -> list_sum (<[k := y]> l) + x = list_sum l + y.
Proof. revert k. induction l as [|z l IH]; intros [|k] H; simpl in *; try discriminate; [injection H as ->; lia|]. specialize (IH k H). lia. Qed.
Lemma sum_zip_insert c m l f k p b p0 b0 : l !! k = Some p0 -> f !! k = Some b0 ->
  list_sum (zip_with (pw c m) (<[k := p]> l) (<[k := b]> f)) + pw c m p0 b0 = list_sum (zip_with (pw c m) l f) + pw c m p b.
Proof. intros Hl Hf. rewrite <- insert_zip_with. apply sum_insert. rewrite lookup_zip_with, Hl, Hf. reflexivity. Qed.
Lemma flag_some s k p : base s -> thr s !! k = Some p -> exists b, flag s !! k = Some b.
Proof. intros Hb Hk. apply lookup_lt_Some in Hk. rewrite <- (b_flag _ Hb) in Hk. apply lookup_lt_is_Some in Hk as [b Hb']. eauto. Qed.
Lemma mu_pos m s k p p0 b0 : thr s !! k = Some p0 -> flag s !! k = Some b0 ->
  mu m (set_pos k p s) + pw (count s) m p0 b0 = mu m s + pw (count s) m p b0.
Proof.
  intros Hk Hf. unfold mu. change (count (set_pos k p s)) with (count s). simpl. pose proof (sum_zip_insert (count s) m _ _ k p b0 _ _ Hk Hf) as H.
  rewrite (list_insert_id (flag s) k b0 Hf) in H. lia.
Qed.
Lemma mu_flag m s k b p0 b0 : thr s !! k = Some p0 -> flag s !! k = Some b0 ->
  mu m (set_flag k b s) + pw (count s) m p0 b0 = mu m s + pw (count s) m p0 b.
Proof.
  intros Hk Hf. unfold mu. change (count (set_flag k b s)) with (count s). simpl. pose proof (sum_zip_insert (count s) m _ _ k p0 b _ _ Hk Hf) as H.
  rewrite (list_insert_id (thr s) k p0 Hk) in H. lia.
Qed.
Lemma mu_put m w a s a0 : base s -> get w s = Some a0 -> mu m (put w a s) + aw (count s) m a0 = mu m s + aw (count s) m a.
Proof.
  intros Hb Hg. destruct w as [k|k].
  - unfold get in Hg. unfold put. destruct (thr s !! k) as [[| | | |t b]|] eqn:E; try discriminate. injection Hg as ->.
    destruct (flag_some _ _ _ Hb E) as [b0 Hf]. pose proof (mu_pos m s k (Run t a) _ _ E Hf) as H. simpl in H. lia.
  - unfold get in Hg. unfold put, mu. change (count (set_cl (<[k:=a]> (cl s)) s)) with (count s). simpl.
    rewrite list_fmap_insert. pose proof (sum_insert (map (aw (count s) m) (cl s)) k (aw (count s) m a0) (aw (count s) m a)) as H.
    rewrite list_lookup_fmap, Hg in H. specialize (H eq_refl). unfold fmap in *. simpl in H |- *. change (list_fmap act nat) with (@map act nat). lia.
Qed.
Lemma mu_push m j t s : j < count s -> mu m (push j t s) = mu m s + item (count s).
Proof.
  intros Hj. apply lookup_lt_is_Some in Hj as [q Hq]. assert (Hc : count (push j t s) = count s) by apply push_proj.
  unfold mu. rewrite Hc. unfold push. rewrite Hq. simpl.
  assert (Hs : list_sum (map length (<[j := q ++ [t]]> (qs s))) = S (list_sum (map length (qs s)))).
  { pose proof (sum_insert (map length (qs s)) j (length q) (length (q ++ [t]))) as H.
    change (map length (<[j := q ++ [t]]> (qs s))) with (length <$> (<[j := q ++ [t]]> (qs s))).
    rewrite list_fmap_insert. change (map length (qs s)) with (length <$> qs s) in *. rewrite list_lookup_fmap, Hq in H. specialize (H eq_refl).
    rewrite app_length in H. simpl in H. rewrite app_length. simpl. lia. }
  rewrite Hs. lia.
Qed.
Lemma mu_notify m j s : base s -> mu m (notify j s) <= mu m s + 1.
Proof.
  intros Hb. unfold notify. destruct (thr s !! j) as [[| |v| |]|] eqn:E; try lia. destruct (flag_some _ _ _ Hb E) as [b0 Hf].
  pose proof (mu_pos m s j (Wait true) _ _ E Hf) as H. simpl in H. destruct v; lia.
Qed.
Lemma mu_take m k j c s s' e p0 b0 : base s -> thr s !! k = Some p0 -> flag s !! k = Some b0 -> take_from k j c s = Some (s', e) ->
  mu m s' + pw (count s) m p0 b0 + item (count s) = mu m s + (count s + 4).
Proof.
  intros Hb Hk Hf Hst. apply take_qs in Hst as (q & t & H1 & H2 & _ & ->).
  set (s1 := set_qs (<[j := delete c q]> (qs s)) s). assert (Hc : count s1 = count s) by apply insert_length.
  pose proof (mu_pos m s1 k (Run t User) p0 b0 Hk Hf) as H. rewrite Hc in H.
  assert (Hm : mu m s1 + item (count s) = mu m s).
  { unfold mu. rewrite Hc. unfold s1. simpl. pose proof (sum_insert (map length (qs s)) j (length q) (length (delete c q))) as Hs.
    change (map length (<[j := delete c q]> (qs s))) with (length <$> (<[j := delete c q]> (qs s))). rewrite list_fmap_insert.
    change (map length (qs s)) with (length <$> qs s) in *. rewrite list_lookup_fmap, H1 in Hs. specialize (Hs eq_refl).
    assert (Hd : S (length (delete c q)) = length q). { rewrite length_delete by eauto. apply lookup_lt_Some in H2. lia. }
    assert (Hs' : list_sum (length <$> qs s) = S (list_sum (<[j := length (delete c q)]> (length <$> qs s)))) by lia. rewrite Hs'. lia. }
  simpl pw in H. lia.
Qed.
Lemma mu_eval m k c s s' e v : base s -> thr s !! k = Some (Wait v) -> v = true -> eval_wait k c s = Some (s', e) -> mu m s' < mu m s.
Proof.
  intros Hb Hk -> Hst. destruct (flag_some _ _ _ Hb Hk) as [b0 Hf]. unfold eval_wait in Hst.
  assert (Hb' : base (set_flag k false s)) by (apply base_flag; [exact Hb|discriminate]).
  pose proof (mu_flag m s k false _ _ Hk Hf) as H1. pose proof (flag_set s k false (lookup_lt_Some _ _ _ Hf)) as Hf'.
  destruct ((k <? count s) && negb (nothing k s)).
  - pose proof (mu_take m k k c (set_flag k false s) s' e (Wait true) false Hb' Hk Hf' Hst) as H2.
    change (count (set_flag k false s)) with (count s) in H2. unfold item in H2. simpl in H1, H2. destruct b0; lia.
  - destruct (is_done k s).
    + injection Hst as <- <-. pose proof (mu_pos m (set_flag k false s) k Exited _ _ Hk Hf') as H2. change (count (set_flag k false s)) with (count s) in H2. simpl in H1, H2. destruct b0; lia.
    + rewrite Hf in Hst. destruct b0; injection Hst as <- <-.
      * pose proof (mu_pos m s k (Wait false) _ _ Hk Hf) as H. simpl in H. lia.
      * pose proof (mu_pos m s k (Loop 0) _ _ Hk Hf) as H. simpl in H. lia.
Qed.
Lemma mu_wrong m s : bad s = false -> mu m (wrong s) < mu m s.
Proof. intros H. unfold mu. rewrite H. unfold count. simpl. lia. Qed.
Lemma mu_jn m p s : mu m (set_jn p s) + jw m (jn s) = mu m s + jw m p.
Proof. unfold mu, count. simpl. lia. Qed.
Lemma poll_mu m k f c s s' e : ok m s -> bad s = false -> poll k f c s = Some (s', e) -> mu m s' < mu m s.
Proof.
  intros [Hb Hl _] Hnb Hst. unfold poll in Hst. destruct (thr s !! k) as [[n| |[]| |t a]|] eqn:E; try discriminate; destruct (flag_some _ _ _ Hb E) as [b0 Hf].
  - destruct (cleared s); [injection Hst as <- <-; apply mu_wrong, Hnb|]. specialize (Hl k n E).
    assert (Hon : mu m (set_pos k (if S n =? count s then Lock else Loop (S n)) s) < mu m s).
    { pose proof (mu_pos m s k (if S n =? count s then Lock else Loop (S n)) _ _ E Hf) as H. destruct (S n =? count s) eqn:Ec; simpl in H.
      - lia.
      - apply Nat.eqb_neq in Ec. lia. }
    destruct f; [injection Hst as <- <-; exact Hon|]. destruct (nothing _ s); [injection Hst as <- <-; exact Hon|].
    pose proof (mu_take m _ _ _ _ _ _ _ _ Hb E Hf Hst) as H. unfold item in H. simpl in H. lia.
  - destruct (cleared s && _); [injection Hst as <- <-; apply mu_wrong, Hnb|].
    destruct (ready k s) as [r|] eqn:Er; [|unfold ready in Er; rewrite E in Er; discriminate]. destruct (ready_base k s r Hb Er) as (Hbr & Htr & _).
    unfold ready in Er. rewrite E in Er. injection Er as <-. rewrite <- (eval_park k c _ (Wait true)) in Hst.
    pose proof (mu_eval m k c _ s' e true Hbr Htr eq_refl Hst) as H.
    assert (Hlen : k < length (flag s)) by (eapply lookup_lt_Some, Hf).
    pose proof (mu_flag m s k true _ _ E Hf) as H1.
    pose proof (mu_pos m (set_flag k true s) k (Wait true) Lock true E (flag_set s k true Hlen)) as H2.
    change (count (set_flag k true s)) with (count s) in H2. simpl in H1, H2. lia.
  - destruct (cleared s && _); [injection Hst as <- <-; apply mu_wrong, Hnb|]. eapply mu_eval; eauto.
Qed.
Lemma step_mu m s l s' e : ok m s -> internal l -> step m s l = Some (s', e) -> mu m s' < mu m s.
Proof.
  intros Hok Hi Hst. pose proof (o_base _ _ Hok) as Hb. destruct (o_join _ _ Hok) as [tr HJ]. pose proof (j_len _ _ _ HJ) as Hlim. pose proof (b_pos _ Hb) as Hpos.
  unfold step in Hst. destruct (bad s) eqn:Hnb; [discriminate|]. destruct l as [|w|w o|w|w f|k f c|k|w|k|]; simpl in Hi; try contradiction.
  - destruct (get w s) as [a|] eqn:E; try discriminate. unfold call in Hst. destruct (uses a && cleared s); [injection Hst as <- <-; apply mu_wrong, Hnb|]. pose proof (b_wf _ Hb _ _ E) as Hwf.
    pose proof (fun a' => mu_put m w a' s a Hb E) as Hput.
    destruct a as [|t i n|t i|j k|n o|n l o|o|o]; simpl in Hst; try discriminate.
    + simpl in Hwf. destruct f; injection Hst as <- <-.
      * specialize (Hput (if S n =? count s then PushIt t i else Try t i (S n))). destruct (S n =? count s); simpl in Hput; lia.
      * assert (Hj : (i + n) mod count s < count s) by (apply Nat.mod_upper_bound; lia). set (j := (i + n) mod count s) in *.
        pose proof (mu_push m j t s Hj) as H1. assert (Hc : count (push j t s) = count s) by apply push_proj.
        pose proof (mu_put m w (Notify j None) (push j t s) (Try t i n) (base_push j t s Hb)) as H2.
        rewrite (get_ext w s), Hc in H2 by apply push_proj. specialize (H2 E). simpl in H2. lia.
    + injection Hst as <- <-. assert (Hj : i mod count s < count s) by (apply Nat.mod_upper_bound; lia). set (j := i mod count s) in *.
      pose proof (mu_push m j t s Hj) as H1. assert (Hc : count (push j t s) = count s) by apply push_proj.
      pose proof (mu_put m w (Notify j None) (push j t s) (PushIt t i) (base_push j t s Hb)) as H2.
      rewrite (get_ext w s), Hc in H2 by apply push_proj. specialize (H2 E). simpl in H2. lia.
    + injection Hst as <- <-. set (a := match k with None => User | Some o => Blocked o end).
      assert (Hb' : base (put w a s)) by (eapply base_put; [exact Hb|exact E|destruct k; exact I]).
      pose proof (mu_notify m j _ Hb') as H1. specialize (Hput a). unfold a in *. destruct k; simpl in Hput; lia.
    + simpl in Hwf. destruct (n =? count s) eqn:Ec.
      * injection Hst as <- <-. specialize (Hput (WakeW 0 (length (thr s) - count s) o)). simpl in Hput. lia.
      * apply Nat.eqb_neq in Ec. pose proof (Hput (WakeQ (S n) o)) as Hn. simpl in Hn.
        destruct f; [injection Hst as <- <-; lia|]. destruct (flag s !! n) as [[]|] eqn:Ef; injection Hst as <- <-; try lia.
        destruct (b_wait _ Hb _ Ef) as [b Hk]. pose proof (mu_flag m s n false _ _ Hk Ef) as H1.
        pose proof (mu_put m w (Notify n (Some o)) (set_flag n false s) (WakeQ n o)) as H2.
        specialize (H2 (base_flag n false s Hb ltac:(discriminate)) E). change (count (set_flag n false s)) with (count s) in H2. simpl in H1, H2. lia.
    + simpl in Hwf. destruct (n =? l) eqn:Ec.
      * injection Hst as <- <-. specialize (Hput (AddTh o)). simpl in Hput. lia.
      * apply Nat.eqb_neq in Ec. pose proof (Hput (WakeW (S n) l o)) as Hn. simpl in Hn.
        destruct f; [injection Hst as <- <-; lia|]. destruct (flag s !! (count s + n)) as [[]|] eqn:Ef; injection Hst as <- <-; try lia.
        destruct (b_wait _ Hb _ Ef) as [b Hk]. pose proof (mu_flag m s (count s + n) false _ _ Hk Ef) as H1.
        pose proof (mu_put m w (Notify (count s + n) (Some o)) (set_flag (count s + n) false s) (WakeW n l o)) as H2.
        specialize (H2 (base_flag (count s + n) false s Hb ltac:(discriminate)) E). change (count (set_flag (count s + n) false s)) with (count s) in H2. simpl in H1, H2. lia.
    + specialize (Hput (Blocked o)). simpl in Hput. destruct (length (thr s) =? m); injection Hst as <- <-; [lia|].
      destruct (put_proj w (Blocked o) s) as (Eq & Ef & _ & _ & Ej & El & Ebd).
      assert (Hx : mu m (St (qs (put w (Blocked o) s)) (thr (put w (Blocked o) s) ++ [Loop 0]) (flag (put w (Blocked o) s) ++ [false]) (don (put w (Blocked o) s)) (jn (put w (Blocked o) s)) (bad (put w (Blocked o) s)) (cl (put w (Blocked o) s)) (idx (put w (Blocked o) s)) (next (put w (Blocked o) s)) (fin (put w (Blocked o) s)))
        = mu m (put w (Blocked o) s) + (count s + 3)).
      { unfold mu, count. simpl. rewrite zip_with_app by (rewrite El, Ef; symmetry; exact (b_flag _ Hb)). rewrite list_sum_app.
        rewrite Eq. simpl. lia. }
      lia.
  - eapply poll_mu; eauto.
  - destruct (thr s !! k) as [[n| |b| |t []]|] eqn:E; try discriminate. injection Hst as <- <-. destruct (flag_some _ _ _ Hb E) as [b0 Hf].
    pose proof (mu_pos m s k (Loop 0) _ _ E Hf) as H. simpl in H. unfold mu in *. unfold count in *. simpl in *. lia.
  - destruct (get w s) as [[| | | | | | |[]]|] eqn:E; try discriminate. destruct (bool_decide _); [|discriminate]. injection Hst as <- <-.
    pose proof (mu_put m w User s _ Hb E) as H. simpl in H. lia.
  - unfold join in Hst. pose proof (j_done _ _ _ HJ) as Hd. pose proof (fun p => mu_jn m p s) as Hjn. destruct (jn s) as [|j|j| |k e0|] eqn:Ej; try discriminate.
    + destruct (forallb out (cl s)); [|discriminate]. injection Hst as <- <-. specialize (Hjn (JSet 0)). simpl in Hjn. lia.
    + destruct Hd as [Hd _]. destruct (j =? m) eqn:Em; injection Hst as <- <-.
      * apply Nat.eqb_eq in Em. specialize (Hjn JBegin). simpl in Hjn. lia.
      * specialize (Hjn (JNot j)). simpl in Hjn. change (mu m (set_jn (JNot j) (set_done j s))) with (mu m (set_jn (JNot j) s)). lia.
    + destruct Hd as [Hd _]. injection Hst as <- <-. specialize (Hjn (JSet (S j))). simpl in Hjn. pose proof (mu_notify m j (set_jn (JSet (S j)) s)) as Hn.
      assert (Hb' : base (set_jn (JSet (S j)) s)) by (eapply base_ext; eauto). specialize (Hn Hb'). lia.
    + injection Hst as <- <-. specialize (Hjn (JWait 0 (length (thr s)))). simpl in Hjn. lia.
    + destruct (j_wait _ _ _ HJ _ _ Ej) as (W1 & _). destruct (k =? e0) eqn:Ek; [injection Hst as <- <-; specialize (Hjn JEnd); simpl in Hjn; lia|].
      apply Nat.eqb_neq in Ek. destruct (thr s !! k) as [[]|]; try discriminate. injection Hst as <- <-. specialize (Hjn (JWait (S k) e0)). simpl in Hjn. lia.
Qed.

(** * The scan stays in range *)
Definition loops (s : st) : Prop := forall k n, thr s !! k = Some (Loop n) -> n < count s.
Lemma loops_ext s s' : loops s -> count s' = count s -> (forall k n, thr s' !! k = Some (Loop n) -> thr s !! k = Some (Loop n)) -> loops s'.
Proof. intros H Hc Ht k n Hk. rewrite Hc. eauto. Qed.
Lemma loops_put w a s a0 : loops s -> get w s = Some a0 -> loops (put w a s).
Proof.
  intros H Hg. eapply loops_ext; [exact H|unfold count; destruct (put_proj w a s) as (-> & _); reflexivity|].
  intros k n. apply (thr_put w a s a0 k); auto.
Qed.
Lemma loops_pos k p s : loops s -> (forall n, p = Loop n -> n < count s) -> loops (set_pos k p s).
Proof.
  intros H Hp j n Hj. simpl in Hj. change (count (set_pos k p s)) with (count s). destruct (decide (k = j)) as [->|Hn].
  - apply list_lookup_insert_Some in Hj as [(_ & -> & _)|(_ & Hj)]; eauto.
  - rewrite list_lookup_insert_ne in Hj by exact Hn. eauto.
Qed.
Lemma take_loops k j c s s' e : loops s -> take_from k j c s = Some (s', e) -> loops s'.
Proof.
  intros H Hst. apply take_qs in Hst as (q & t & _ & _ & _ & ->). apply loops_pos; [|discriminate].
  eapply loops_ext; [exact H|apply insert_length|auto].
Qed.
Lemma eval_loops k c s s' e : base s -> loops s -> eval_wait k c s = Some (s', e) -> loops s'.
Proof.
  intros Hb H Hst. pose proof (b_pos _ Hb) as Hpos. unfold eval_wait in Hst.
  destruct (_ && _); [eapply (take_loops k k c (set_flag k false s)); eauto|].
  destruct (is_done k s); [injection Hst as <- <-; apply loops_pos; [exact H|discriminate]|].
  destruct (flag s !! k) as [[]|]; injection Hst as <- <-; apply loops_pos; auto; try discriminate; intros n [= <-]; exact Hpos.
Qed.
Lemma step_loops m s l s' e : base s -> loops s -> step m s l = Some (s', e) -> loops s'.
Proof.
  intros Hb Hl Hst. pose proof (b_pos _ Hb) as Hpos. unfold step in Hst. destruct (bad s); [discriminate|].
  assert (Hput : forall w a a0, get w s = Some a0 -> loops (put w a s)) by (intros; eapply loops_put; eauto).
  destruct l as [|w|w o|w|w f|k f c|k|w|k|].
  - destruct (called s); [discriminate|]. injection Hst as <- <-. exact Hl.
  - destruct (get w s) as [[]|] eqn:E; try discriminate. destruct (may w s); [|discriminate]. injection Hst as <- <-. exact (Hput w _ _ E).
  - destruct (get w s) as [[]|] eqn:E; try discriminate. destruct (may w s); [|discriminate]. destruct (match o with Some y => _ | None => _ end); injection Hst as <- <-; [exact Hl|exact (Hput w _ _ E)].
  - destruct (get w s) as [[| | | | | | |[]]|] eqn:E; try discriminate. injection Hst as <- <-. exact (Hput w _ _ E).
  - destruct (get w s) as [a|] eqn:E; try discriminate.
    assert (Hps : forall j t, loops (put w (Notify j None) (push j t s))).
    { intros j t. destruct (push_proj j t s) as (_ & _ & _ & _ & Ec & Et & Eq & _).
      eapply loops_put; [|rewrite (get_ext w s) by assumption; exact E]. eapply loops_ext; [exact Hl|exact Eq|rewrite Et; auto]. }
    assert (Hfl : forall j o, loops (put w (Notify j o) (set_flag j false s))).
    { intros j o. eapply loops_put; [|rewrite (get_ext w s) by reflexivity; exact E]. exact Hl. }
    unfold call in Hst. destruct (uses a && cleared s); [injection Hst as <- <-; exact Hl|].
    destruct a as [|t i n|t i|j k|n o|n l o|o|o]; simpl in Hst; try discriminate.
    + destruct f; injection Hst as <- <-; [exact (Hput w _ _ E)|apply Hps].
    + injection Hst as <- <-. apply Hps.
    + injection Hst as <- <-. set (a := match k with None => User | Some o => Blocked o end). pose proof (Hput w a _ E) as H1.
      destruct (notify_proj j (put w a s)) as (Eq & _).
      eapply loops_ext; [exact H1|unfold count; rewrite Eq; reflexivity|]. intros i n. apply thr_notify_ne. discriminate.
    + repeat case_match; simplify_eq; first [apply Hfl|exact (Hput w _ _ E)].
    + repeat case_match; simplify_eq; first [apply Hfl|exact (Hput w _ _ E)].
    + pose proof (Hput w (Blocked o) _ E) as H1. destruct (length (thr s) =? m); injection Hst as <- <-; [exact H1|].
      intros k n Hk. simpl in Hk. apply lookup_app_Some in Hk as [Hk|[_ Hk]]; [exact (H1 k n Hk)|]. apply list_lookup_singleton_Some in Hk as [_ [= <-]].
      unfold count. simpl. destruct (put_proj w (Blocked o) s) as (-> & _). exact Hpos.
  - unfold poll in Hst. destruct (thr s !! k) as [[n| |[]| |t a]|] eqn:E; try discriminate.
    + destruct (cleared s); [injection Hst as <- <-; exact Hl|].
      assert (Hon : loops (set_pos k (if S n =? count s then Lock else Loop (S n)) s)).
      { apply loops_pos; [exact Hl|]. specialize (Hl k n E). intros i. destruct (S n =? count s) eqn:Ec; [discriminate|].
        apply Nat.eqb_neq in Ec. intros [= <-]. lia. }
      destruct f; [injection Hst as <- <-; exact Hon|]. destruct (nothing _ s); [injection Hst as <- <-; exact Hon|]. eapply take_loops; [exact Hl|exact Hst].
    + destruct (cleared s && _); [injection Hst as <- <-; exact Hl|].
      destruct (ready k s) as [r|] eqn:Er; [|unfold ready in Er; rewrite E in Er; discriminate]. destruct (ready_base k s r Hb Er) as (Hbr & Htr & _).
      unfold ready in Er. rewrite E in Er. injection Er as <-. rewrite <- (eval_park k c _ (Wait true)) in Hst.
      eapply eval_loops; [exact Hbr| |exact Hst]. apply loops_pos; [exact Hl|discriminate].
    + destruct (cleared s && _); [injection Hst as <- <-; exact Hl|]. eapply eval_loops; eauto.
  - destruct (thr s !! k) as [[n| |b| |t []]|] eqn:E; try discriminate. injection Hst as <- <-.
    assert (Hx : loops (set_pos k (Loop 0) s)) by (apply loops_pos; [exact Hl|intros n [= <-]; exact Hpos]). exact Hx.
  - destruct (get w s) as [[| | | | | | |[]]|] eqn:E; try discriminate. destruct (bool_decide _); [|discriminate]. injection Hst as <- <-. exact (Hput w _ _ E).
  - destruct (thr s !! k) as [[n| |b| |t a]|] eqn:E; try discriminate. injection Hst as <- <-. apply loops_pos; [exact Hl|discriminate].
  - unfold join in Hst. repeat case_match; simplify_eq; try exact Hl.
    destruct (notify_proj j (set_jn (JSet (S j)) s)) as (Eq & _). eapply loops_ext; [exact Hl|unfold count; rewrite Eq; reflexivity|].
    intros i n Hk. apply thr_notify_ne in Hk; [exact Hk|discriminate].
Qed.
Lemma step_ok m s l s' e : ok m s -> step m s l = Some (s', e) -> ok m s'.
Proof.
  intros [Hb Hl [tr Hj]] Hst. split; [eapply step_base; eauto|eapply (step_loops m s); eauto|]. exists (tr ++ e). eapply step_jinv; eauto.
Qed.
Lemma init_ok m c : 0 < c -> c <= m -> ok m (init c m).
Proof.
  intros Hc Hm. split; [apply init_base, Hc| |exists []; apply init_jinv, Hm].
  intros k n Hk. simpl in Hk. apply lookup_replicate in Hk as [[= ->] _]. unfold count. simpl. rewrite replicate_length. exact Hc.
Qed.
Lemma run_ok m ls : forall s s' e, ok m s -> run m s ls = Some (s', e) -> ok m s'.
Proof.
  induction ls as [|l ls IH]; simpl; intros s s' e Ho Hr; [injection Hr as <- <-; exact Ho|].
  destruct (step m s l) as [[s1 e1]|] eqn:Es; [|discriminate]. destruct (run m s1 ls) as [[s2 e2]|] eqn:Er; [|discriminate]. injection Hr as <- <-.
  eapply IH; [eapply step_ok|]; eauto.
Qed.
Lemma run_mu m ls : forall s s' e, ok m s -> Forall internal ls -> run m s ls = Some (s', e) -> length ls <= mu m s.
Proof.
  induction ls as [|l ls IH]; simpl; intros s s' e Ho Hi Hr; [lia|].
  destruct (step m s l) as [[s1 e1]|] eqn:Es; [|discriminate]. destruct (run m s1 ls) as [[s2 e2]|] eqn:Er; [|discriminate].
  inversion Hi as [|? ? H1 H2]; subst. pose proof (step_mu _ _ _ _ _ Ho H1 Es). specialize (IH _ _ _ (step_ok _ _ _ _ _ Ho Es) H2 Er). lia.
Qed.
Lemma ends m c ls s tr : 0 < c -> c <= m -> run m (init c m) ls = Some (s, tr) ->
  exists b, forall ls' s' tr', Forall internal ls' -> run m s ls' = Some (s', tr') -> length ls' <= b.
Proof. intros Hc Hm Hr. exists (mu m s). intros ls' s' tr' Hi Hr'. eapply run_mu; eauto. eapply run_ok; [apply init_ok|]; eauto. Qed.
