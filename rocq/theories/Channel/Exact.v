(** Executions in which the counters of senders and receivers are exact: no sender or receiver is overwritten by move
    assignment, and no receiver is copied after set_ready. *)
From Coq Require Import List Bool ZArith Lia Arith.
From stdpp Require Import list.
From Verif.Channel Require Import Queue QueueProof Model Sum Inv InvStep InvStep2 InvStep3 InvRun Moves Spec Trace TraceStep TraceRun TraceMore.

Definition tidy (s : st) (l : label) : bool :=
  match l with
  | LOverS _ | LOverR _ => false
  | LCopyR h => match (rcv_h s !! h : option (nat * bool)) with Some (_, r) => negb r | None => true end
  | _ => true
  end.
Fixpoint tidy_run (s : st) (ls : list label) : bool :=
  match ls with [] => true | l :: ls => tidy s l && match step s l with Some (s', _) => tidy_run s' ls | None => true end end.

Definition einv (s : st) : Prop := forall k n, nodes s !! k = Some n ->
  (deadb k s = false -> scount n = sndc s k) /\ (rvoid n = false -> rcount n = nrcv s k).
Lemma einv_gen s s' d n n' : einv s -> nodes s !! d = Some n -> nodes s' = <[d := n']> (nodes s) -> (forall k, deadb k s' = false -> deadb k s = false) -> rvoid n' = rvoid n ->
  (forall k, k <> d -> deadb k s = false -> sndc s' k = sndc s k) -> (forall k, k <> d -> nrcv s' k = nrcv s k) ->
  (deadb d s = false -> scount n' + sndc s d = scount n + sndc s' d) -> (rvoid n = false -> rcount n' + nrcv s d = rcount n + nrcv s' d) -> einv s'.
Proof.
  intros E Hn Hs D V Sk Rk Sd Rd k nk H. rewrite Hs in H. apply list_lookup_insert_Some in H as [(-> & <- & _)|(Nk & H)].
  - destruct (E k n Hn) as [E1 E2]. rewrite V. split; [intros Dk; apply D in Dk; specialize (E1 Dk); specialize (Sd Dk); lia|intros W; specialize (E2 W); specialize (Rd W); lia].
  - destruct (E k nk H) as [E1 E2]. rewrite Rk by done. split; [|done]. intros Dk. apply D in Dk. rewrite Sk by done. auto.
Qed.
Lemma sndc_eq s s' d n n' : snd_h s' = snd_h s -> nodes s !! d = Some n -> nodes s' = <[d := n']> (nodes s) -> down n' = down n ->
  (forall k, sumf (clrf k) (jobs s') = sumf (clrf k) (jobs s)) -> forall k, sndc s' k = sndc s k.
Proof.
  intros S Hn Hs Dn J k. unfold sndc. rewrite S, J, Hs. pose proof (sumf_insert (downf k) _ _ _ n' Hn) as X. unfold downf in X at 2 4. rewrite Dn in X. lia.
Qed.
Lemma clr_set s s' t i p p' b c : jobs s !! t = Some (i, p) -> jobs s' = <[t := (i, p')]> (jobs s ++ js b c) ->
  (forall k, clrf k (i, p') = clrf k (i, p)) -> forall k, sumf (clrf k) (jobs s') = sumf (clrf k) (jobs s).
Proof. intros Ht Hj E k. rewrite Hj. pose proof (sf_set (clrf k) _ _ _ (i, p') b c (fun _ => eq_refl) Ht) as X. rewrite E in X. lia. Qed.
Lemma clr_del s s' t i p b c : jobs s !! t = Some (i, p) -> jobs s' = delete t (jobs s ++ js b c) ->
  (forall k, clrf k (i, p) = 0) -> forall k, sumf (clrf k) (jobs s') = sumf (clrf k) (jobs s).
Proof. intros Ht Hj E k. rewrite Hj. pose proof (sf_del (clrf k) _ _ _ b c (fun _ => eq_refl) Ht) as X. rewrite E in X. lia. Qed.
Lemma clr_run s s' b c : jobs s' = jobs s ++ js b c -> forall k, sumf (clrf k) (jobs s') = sumf (clrf k) (jobs s).
Proof. intros Hj k. rewrite Hj. by apply sf_run. Qed.
(** counters and senders as before *)
Lemma einv_quiet s s' d n n' : einv s -> nodes s !! d = Some n -> nodes s' = <[d := n']> (nodes s) -> dead s' = dead s -> snd_h s' = snd_h s -> rcv_h s' = rcv_h s ->
  rvoid n' = rvoid n -> down n' = down n -> scount n' = scount n -> rcount n' = rcount n -> (forall k, sumf (clrf k) (jobs s') = sumf (clrf k) (jobs s)) -> einv s'.
Proof.
  intros E Hn Hs D S R V Dn Sc Rc J. assert (forall k, sndc s' k = sndc s k) as Q by (by eapply sndc_eq). assert (forall k, nrcv s' k = nrcv s k) as Q' by (intros; unfold nrcv; by rewrite R).
  apply (einv_gen s s' d n n'); try done; intros; rewrite ?Q, ?Q'; try lia; try done. unfold deadb in *. by rewrite <- D.
Qed.
Lemma einv_quiet0 s s' d n : einv s -> nodes s !! d = Some n -> nodes s' = nodes s -> dead s' = dead s -> snd_h s' = snd_h s -> rcv_h s' = rcv_h s ->
  (forall k, sumf (clrf k) (jobs s') = sumf (clrf k) (jobs s)) -> einv s'.
Proof. intros E Hn Hs D S R J. apply (einv_quiet s s' d n n); try done. by rewrite Hs, list_insert_id. Qed.
Lemma rms_snd d k n s : snd_h (rms d k n s) = snd_h s.
Proof. unfold rms. by destruct (k =? 0). Qed.
Lemma rms_rcv d k n s : rcv_h (rms d k n s) = rcv_h s.
Proof. unfold rms. by destruct (k =? 0). Qed.
Ltac qq := first [done | by rewrite ?run_dead, ?run_nodes, ?run_snd, ?run_rcv | by (simpl; rewrite ?run_dead, ?run_nodes, ?run_snd, ?run_rcv)].
Lemma einv_jmove s s' ev : inv s -> einv s -> jmove s s' ev -> einv s'.
Proof.
  intros I E M. destruct M.
  - eapply (einv_quiet s _ i n (enq 0 m n)); try qq. eapply (clr_run s); by rewrite run_jobs.
  - eapply (einv_quiet s _ i n (with_running (running n || b) n)); try qq. eapply (clr_run s); by rewrite run_jobs.
  - eapply (einv_quiet s _ i n (with_running (running n || b) (with_close true (final n) n))); try qq. eapply (clr_run s); by rewrite run_jobs.
  - destruct (i_job s I _ _ _ H) as (n & Hn & _). eapply (einv_quiet0 s _ i n); try qq. by eapply (clr_del s _ t i _ false 0 H); [simpl; rewrite app_nil_r|].
  - eapply (einv_quiet s _ i n (with_que q' n)); try qq. by eapply (clr_set s _ t i _ _ false 0 H0); [simpl; rewrite app_nil_r|].
  - eapply (einv_quiet s _ i n (with_close false (closeq n) n)); try qq. by eapply (clr_set s _ t i _ _ false 0 H0); [simpl; rewrite app_nil_r|].
  - eapply (einv_quiet0 s _ u nu); try qq. by eapply (clr_set s _ t i _ _ false 0 H0); [simpl; rewrite app_nil_r|].
  - eapply (einv_quiet s _ u nu (cleared nu)); try qq. eapply (clr_set s _ t i _ _ (cl_run nu) u H0); [simpl; by rewrite run_jobs|done].
  - destruct (i_job s I _ _ _ H) as (n & Hn & _). eapply (einv_quiet0 s _ i n); try qq. by eapply (clr_del s _ t i _ false 0 H); [simpl; rewrite app_nil_r|].
  - destruct (i_job s I _ _ _ H) as (n & Hn & _). eapply (einv_quiet0 s _ i n); try qq. by eapply (clr_set s _ t i _ _ false 0 H); [simpl; rewrite app_nil_r|].
  - destruct (i_job s I _ _ _ H) as (n & Hn & _). eapply (einv_quiet0 s _ i n); try qq. by eapply (clr_set s _ t i _ _ false 0 H); [simpl; rewrite app_nil_r|].
  - eapply (einv_quiet s _ i n (with_susp (if b then S (length rest) else 1) n)); try qq. by eapply (clr_set s _ t i _ _ false 0 H0); [simpl; rewrite app_nil_r|].
  - destruct (i_job s I _ _ _ H) as (n & Hn & _). eapply (einv_quiet0 s _ i n); try qq. by eapply (clr_set s _ t i _ _ false 0 H); [simpl; rewrite app_nil_r|].
  - destruct (i_job s I _ _ _ H) as (n & Hn & _). eapply (einv_quiet0 s _ i n); try qq. by eapply (clr_set s _ t i _ _ false 0 H); [simpl; rewrite app_nil_r|].
  - eapply (einv_quiet s _ d nd (enq p o nd)); try qq. eapply (clr_set s _ t i _ _ (en_run nd) d H); [simpl; by rewrite run_jobs|done].
  - destruct (i_job s I _ _ _ H) as (n & Hn & _). eapply (einv_quiet0 s _ i n); try qq. by eapply (clr_set s _ t i _ _ false 0 H); [simpl; rewrite app_nil_r|].
  - eapply (einv_quiet s _ i n (cleared n)); try qq. eapply (clr_del s _ t i _ (cl_run n) i H0); [simpl; by rewrite run_jobs|done].
  - eapply (einv_quiet s _ i n (with_running false n)); try qq. by eapply (clr_set s _ t i _ _ false 0 H0); [simpl; rewrite app_nil_r|].
  - eapply (einv_quiet s _ i n (with_running (dn_run n) n)); try qq. intros k.
    rewrite (clr_run (end_job t s) _ (dn_run n) i) by (by rewrite run_jobs). by eapply (clr_del s _ t i _ false 0 H0); [simpl; rewrite app_nil_r|].
  - assert (forall k, sndc (set_job t i (JClear (down n)) (set_node i (with_down [] n) s)) k = sndc s k) as Q.
    { intros k. unfold sndc. simpl. pose proof (sumf_insert (downf k) _ _ _ (with_down [] n) H) as X. pose proof (sumf_insert (clrf k) _ _ _ (i, JClear (down n)) H0) as Y.
      assert (downf k (with_down [] n) = 0) as X1 by done. assert (clrf k (i, JFinal) = 0) as Y1 by done. assert (clrf k (i, JClear (down n)) = downf k n) as Y2 by done. lia. }
    eapply (einv_gen s _ i n (with_down [] n)); try qq. intros _. by rewrite Q.
  - destruct (i_job s I _ _ _ H) as (n & Hn & _). eapply (einv_gen s _ i n n); try qq; [simpl; by rewrite list_insert_id|..].
    + intros k Nk Dk. unfold sndc. simpl. pose proof (sumf_insert (clrf k) _ _ _ (i, JClear rest) H) as Y. unfold clrf in Y at 2 4. unfold cnt in Y. simpl in Y.
      destruct (Nat.eqb_spec e.1 k) as [Ek|]; [congruence|]. simpl in Y. unfold clrf, cnt in *. lia.
    + intros Dk. unfold sndc. simpl. pose proof (sumf_insert (clrf i) _ _ _ (i, JClear rest) H) as Y. unfold clrf in Y at 2 4. unfold cnt in Y. simpl in Y.
      destruct (Nat.eqb_spec e.1 i) as [Ek|]; [congruence|]. simpl in Y. unfold clrf, cnt in *. lia.
  - assert (forall x, sndc (set_job t i (JClear rest) (rms d k n s)) x + (if d =? x then 1 else 0) = sndc s x) as Q.
    { intros x. pose proof (q_rms s x d n k H0) as (_ & _ & _ & _ & Q & _). unfold sndc in *. simpl.
      pose proof (sumf_insert (clrf x) (jobs (rms d k n s)) t _ (i, JClear rest) ltac:(rewrite rms_jobs; exact H)) as Y. unfold clrf in Y at 2 4. unfold cnt in *. simpl in Y.
      unfold b2n in Y. destruct (d =? x); simpl in Y; lia. }
    eapply (einv_gen s _ d n (with_scount k n)); try qq; simpl; rewrite ?rms_nodes, ?rms_dead; try done.
    + unfold deadb. simpl. by rewrite rms_dead.
    + intros x Nx Dx. specialize (Q x). destruct (Nat.eqb_spec d x); [congruence|]. lia.
    + intros x Nx. unfold nrcv. simpl. by rewrite rms_rcv.
    + intros _. specialize (Q d). rewrite Nat.eqb_refl in Q. lia.
    + unfold nrcv. simpl. by rewrite rms_rcv.
  - eapply (einv_quiet s _ i n (with_proc false n)); try qq. by eapply (clr_del s _ t i _ false 0 H0); [simpl; rewrite app_nil_r|].
  - eapply (einv_quiet0 s _ i n); try qq. by eapply (clr_set s _ t i _ _ false 0 H0); [simpl; rewrite app_nil_r|].
  - intros k n Hk. destruct (E k n Hk) as [E1 E2]. split; [|done]. intros D. change (scount n = sndc s k). apply E1. unfold deadb in *. simpl in D. rewrite existsb_app in D. by apply orb_false_iff in D as [D _].
Qed.

Lemma sumf_del_cnt k (l : list nat) h i : l !! h = Some i -> cnt k (delete h l) + b2n (i =? k) = cnt k l.
Proof. intros H. unfold cnt. exact (sumf_delete _ _ _ _ H). Qed.
Lemma einv_rcv s i n c h pe : einv s -> nodes s !! i = Some n -> rvoid n = false -> (forall k, k <> i -> sumf (rcvf k) h = nrcv s k) ->
  c + nrcv s i = rcount n + sumf (rcvf i) h -> einv (set_node i (with_rcount c n) (set_rcv h (set_pends pe s))).
Proof.
  intros E Hn V Hk Hi. assert (forall k, sndc (set_node i (with_rcount c n) (set_rcv h (set_pends pe s))) k = sndc s k) as Q by (by eapply sndc_eq).
  eapply (einv_gen s _ i n (with_rcount c n)); try qq. intros _. by rewrite Q.
Qed.
Lemma einv_remove_receiver s s' ev i n h hs : inv s -> einv s -> rcv_h s !! h = Some (i, false) -> nodes s !! i = Some n ->
  (forall k, sumf (rcvf k) hs + rcvf k (i, false) = nrcv s k) -> remove_receiver i (set_rcv hs s) = Some (s', ev) -> einv s'.
Proof.
  intros I E Hh Hn Q H. unfold remove_receiver in H. simpl in H. rewrite Hn in H.
  assert (forall k, k <> i -> sumf (rcvf k) hs = nrcv s k) as Qk. { intros k Nk. specialize (Q k). unfold rcvf in Q at 2. simpl in Q. destruct (Nat.eqb_spec i k); [congruence|]. lia. }
  pose proof (Q i) as Qi. unfold rcvf in Qi at 2. simpl in Qi. rewrite Nat.eqb_refl in Qi. simpl in Qi.
  destruct (rvoid n) eqn:V.
  - injection H as <- <-. intros k nk Hk. destruct (E k nk Hk) as [E1 E2]. split; [done|]. intros Vk. rewrite E2 by done. unfold nrcv. simpl. rewrite Qk; [done|]. intros ->. simpl in Hk. congruence.
  - destruct (E i n Hn) as [_ E2]. specialize (E2 V). destruct (rcount n) as [|[|c]] eqn:Rc; [lia| |].
    + injection H as <- <-. apply (einv_rcv s i n 0 hs (pends s ++ [PRecv i])); try done. lia.
    + injection H as <- <-. destruct s. apply (einv_rcv _ i n (S c) hs pends); try done. simpl in *. lia.
Qed.
Lemma einv_step s l s' ev : inv s -> einv s -> buf1 l -> tidy s l = true -> step s l = Some (s', ev) -> einv s'.
Proof.
  intros I E B T H. destruct (job_label l) eqn:Jl.
  { destruct (step_jmoves s l s' ev I Jl H) as [M|[-> _]]; [by eapply einv_jmove|done]. }
  assert (forall st us v sn, (sn = [] \/ us = [None] /\ sn = [length (nodes s)]) -> (sn = [] -> us = map Some (omap id us)) ->
    (forall p u, us !! p = Some (Some u) -> u < length (nodes s)) ->
    map_senders (length (nodes s)) 0 (omap id us) (St (nodes s ++ [new_node st us v 1]) (dead s) (jobs s) (pends s) (snd_h s ++ sn) (rcv_h s ++ [(length (nodes s), false)])) = Some (s', ev) -> einv s') as New.
  { clear H. intros st us v sn Hsn Hus Hu M. apply map_senders_ok in M as (D & J & P & S & R & Eub & N & Cn & Dn). simpl in *.
    set (d := length (nodes s)) in *. set (nn := new_node st us v 1) in *.
    assert (forall k, is_Some (nodes s !! k) -> k <> d) as Lt. { intros k X. apply lookup_lt_is_Some in X. unfold d. lia. }
    assert (forall k, k <> d -> sndc s' k = sndc s k /\ nrcv s' k = nrcv s k) as Q2.
    { intros k Hk. unfold sndc, nrcv. rewrite J, S, R, Dn, !sumf_app, cnt_app. cbn [sumf]. rewrite (proj2 (Nat.eqb_neq k d)) by done.
      assert (downf k nn = 0) by done. assert (rcvf k (d, false) = 0) by (unfold rcvf; simpl; by rewrite (proj2 (Nat.eqb_neq d k))).
      assert (cnt k sn = 0); [|lia]. destruct Hsn as [-> | [_ ->]]; [done|]. unfold cnt. simpl. by rewrite (proj2 (Nat.eqb_neq d k)). }
    assert (cnt d (snd_h s) = 0) as S0.
    { destruct (cnt d (snd_h s)) as [|x0] eqn:X0; [done|]. assert (d ∈ snd_h s) as X by (apply cnt_pos; lia). apply (i_snd s I) in X as (n & X & _). by destruct (Lt d). }
    assert (sumf (downf d) (nodes s) = 0) as S1.
    { apply sumf_0. intros n X. apply elem_of_list_lookup in X as [k X]. unfold downf. destruct (cnt d (map fst (down n))) as [|x0] eqn:X0; [done|].
      assert (d ∈ map fst (down n)) as Y by (apply cnt_pos; lia). apply elem_of_list_fmap in Y as ([d' p] & Eq & Y). simpl in Eq. subst d'.
      apply (n_down _ _ _ (i_node s I k n X)) in Y as (nd & Y & _). by destruct (Lt d). }
    assert (sumf (clrf d) (jobs s) = 0) as S2.
    { apply sumf_0. intros [k p] X. apply elem_of_list_lookup in X as [t X]. destruct (i_job s I _ _ _ X) as (n & Hn & Jn). unfold clrf. simpl. destruct p; try done.
      destruct (cnt d (map fst rest)) as [|x0] eqn:X0; [done|]. assert (d ∈ map fst rest) as Y by (apply cnt_pos; lia). apply elem_of_list_fmap in Y as ([d' p] & Eq & Y). simpl in Eq. subst d'.
      apply Jn in Y. by destruct (Lt d). }
    assert (nrcv s d = 0) as R0.
    { apply sumf_0. intros [k b] X. unfold rcvf. simpl. rewrite (proj2 (Nat.eqb_neq k d)); [done|]. apply Lt. by eapply (i_rcv s I). }
    assert (sndc s' d = length us) as Sd.
    { unfold sndc. rewrite J, S, Dn, sumf_app, cnt_app, S0, S1, S2, Nat.eqb_refl. cbn [sumf]. assert (downf d nn = 0) as -> by done.
      destruct Hsn as [-> | [-> ->]]; simpl; [rewrite (Hus eq_refl) at 2; rewrite map_length; simpl; lia|unfold cnt; simpl; rewrite Nat.eqb_refl; simpl; lia]. }
    assert (nrcv s' d = 1) as Rd. { unfold nrcv in *. rewrite R, sumf_app, R0. unfold rcvf. simpl. by rewrite Nat.eqb_refl. }
    intros k nk Hk. rewrite N in Hk. destruct (decide (k < d)) as [L|L].
    - rewrite lookup_app_l in Hk by done. destruct (nodes s !! k) as [n|] eqn:Hn; [|done]. injection Hk as <-. simpl. destruct (Q2 k ltac:(lia)) as [-> ->]. unfold deadb. rewrite D. by apply E.
    - rewrite lookup_app_r in Hk by (unfold d in L; lia). destruct (k - length (nodes s)) as [|x] eqn:Ek; [|done]. assert (k = d) as -> by (unfold d in *; lia).
      injection Hk as <-. simpl. rewrite Sd, Rd. split; [done|]. by intros ->. }
  destruct l as [|h v b|k hs v|h m|h|h|h|h|h|h|h|k|t|t o|i]; simpl in H; try done.
  - injection H as <- <-. apply (New Default [None] false [length (nodes s)]); try done; [auto|]. intros [|p] u; simpl; done.
  - destruct (rcv_h s !! h) as [[u r]|] eqn:Hh; [|done]. destruct r; [by injection H as <- <-|].
    simpl in B. subst b. apply (New Default [Some u] v []); try done; [auto| |by rewrite app_nil_r].
    intros [|p] u'; simpl; [|done]. intros [= ->]. apply lookup_lt_is_Some. eapply (i_rcv s I). by eapply elem_of_list_lookup_2.
  - destruct k; try done; destruct hs as [|h0 hs]; try done; destruct (handles (h0 :: hs) s) as [us|] eqn:Hus; try done.
    all: assert (forall p u, us !! p = Some u -> u < length (nodes s)) as Lt by
      (intros p u Hp; apply mapM_Some in Hus; eapply Forall2_lookup_r in Hp; [|exact Hus]; destruct Hp as (x & _ & Hx);
       destruct (rcv_h s !! x) as [[u' b]|] eqn:E'; [|done]; simpl in Hx; injection Hx as ->; apply lookup_lt_is_Some; eapply (i_rcv s I); by eapply elem_of_list_lookup_2).
    1: apply (New Zip (map Some us) v []). 5: apply (New RoundRobin (map Some us) v []). 9: apply (New Unordered (map Some us) v []).
    all: try (by left); try (by rewrite omap_some, app_nil_r); try (intros _; by rewrite omap_some).
    all: intros p u Hp; rewrite list_lookup_fmap in Hp; destruct (us !! p) as [u'|] eqn:Eu; [|done]; injection Hp as ->; by eapply Lt.
  - destruct (snd_h s !! h) as [i|] eqn:Hh; [|done]. unfold add_sender in H.
    change (deadb i (set_snd (snd_h s ++ [i]) s)) with (deadb i s) in H.
    assert (forall k, sndc (set_snd (snd_h s ++ [i]) s) k = sndc s k + b2n (i =? k)) as Q. { intros k. unfold sndc. simpl. rewrite cnt_app. unfold cnt at 2. simpl. lia. }
    destruct (deadb i s) eqn:De.
    + injection H as <- <-. intros k nk Hk. destruct (E k nk Hk) as [E1 E2]. split; [|done]. intros Dk. rewrite Q, (E1 Dk). destruct (Nat.eqb_spec i k) as [->|]; [|simpl; lia].
      change (deadb k s = false) in Dk. congruence.
    + simpl in H. destruct (nodes s !! i) as [n|] eqn:Hn; [|done]. injection H as <- <-.
      assert (forall k, sndc (set_node i (with_scount (S (scount n)) n) (set_snd (snd_h s ++ [i]) s)) k = sndc s k + b2n (i =? k)) as Q'.
      { intros k. rewrite <- Q. by apply (sndc_eq (set_snd (snd_h s ++ [i]) s) _ i n (with_scount (S (scount n)) n)). }
      eapply (einv_gen s _ i n (with_scount (S (scount n)) n)); try qq.
      * intros k Nk _. rewrite Q'. destruct (Nat.eqb_spec i k); [congruence|]. simpl. lia.
      * intros _. rewrite Q', Nat.eqb_refl. simpl. lia.
  - destruct (snd_h s !! h) as [i|] eqn:Hh; [|done].
    assert (forall k, sndc (set_snd (delete h (snd_h s)) s) k + b2n (i =? k) = sndc s k) as Q. { intros k. unfold sndc. simpl. pose proof (sumf_del_cnt k _ _ _ Hh). lia. }
    apply remove_sender_eq in H as [(De & -> & ->)|(De & n & Hn & [(Z & -> & ->)|(k & Z & -> & ->)])]; simpl in *.
    + intros k nk Hk. destruct (E k nk Hk) as [E1 E2]. split; [|done]. intros Dk. specialize (E1 Dk). specialize (Q k). destruct (Nat.eqb_spec i k) as [->|]; [|simpl in *; lia].
      change (deadb k s = true) in De. change (deadb k s = false) in Dk. congruence.
    + exfalso. pose proof (n_snd _ _ _ (i_node s I i n Hn) De) as X. unfold sndc in X. assert (0 < cnt i (snd_h s)); [|lia]. apply cnt_pos. by eapply elem_of_list_lookup_2.
    + assert (forall x, sndc (rms i k n (set_snd (delete h (snd_h s)) s)) x + b2n (i =? x) = sndc s x) as Q'.
      { intros x. rewrite <- Q. pose proof (q_rms (set_snd (delete h (snd_h s)) s) x i n k Hn) as (_ & _ & _ & _ & Y & _). by rewrite Y. }
      eapply (einv_gen s _ i n (with_scount k n)); try done; rewrite ?rms_nodes, ?rms_dead; try done.
      * unfold deadb. by rewrite rms_dead.
      * intros x Nx _. specialize (Q' x). destruct (Nat.eqb_spec i x); [congruence|]. simpl in Q'. lia.
      * intros x _. unfold nrcv. by rewrite rms_rcv.
      * intros _. specialize (Q' i). rewrite Nat.eqb_refl in Q'. simpl in *. lia.
      * intros _. unfold nrcv. by rewrite rms_rcv.
  - simpl in T. destruct (rcv_h s !! h) as [[i r]|] eqn:Hh; [|done]. apply negb_true_iff in T as ->. unfold add_receiver in H. simpl in H. apply elem_of_list_lookup_2 in Hh as Hi.
    destruct (i_rcv s I i false Hi) as [n Hn]. rewrite Hn in H. 
    assert (forall k, sumf (rcvf k) (rcv_h s ++ [(i, false)]) = nrcv s k + (if i =? k then 1 else 0)) as Q. { intros k. rewrite sumf_app. unfold nrcv. unfold rcvf at 2. simpl. destruct (i =? k); simpl; lia. }
    destruct (rvoid n) eqn:V; injection H as <- <-.
    + intros k nk Hk. destruct (E k nk Hk) as [E1 E2]. split; [done|]. intros Vk. rewrite (E2 Vk). unfold nrcv at 2. simpl. rewrite Q. destruct (Nat.eqb_spec i k) as [->|]; [|lia]. simpl in Hk. congruence.
    + destruct s. apply (einv_rcv _ i n (S (rcount n)) (rcv_h ++ [(i, false)]) pends); try done; intros; simpl in *; rewrite Q.
      * destruct (Nat.eqb_spec i k); [congruence|]. lia.
      * rewrite Nat.eqb_refl. lia.
  - destruct (rcv_h s !! h) as [[i r]|] eqn:Hh; [|done]. apply elem_of_list_lookup_2 in Hh as Hi. destruct (i_rcv s I i r Hi) as [n Hn].
    assert (forall k, sumf (rcvf k) (delete h (rcv_h s)) + rcvf k (i, r) = nrcv s k) as Q by (intros k; exact (sumf_delete (rcvf k) _ _ _ Hh)). destruct r.
    { injection H as <- <-. intros k nk Hk. destruct (E k nk Hk) as [E1 E2]. split; [done|]. intros Vk. rewrite (E2 Vk), <- Q. unfold nrcv. simpl. unfold rcvf at 2. simpl. destruct (i =? k); simpl; lia. }
    by eapply (einv_remove_receiver s s' ev i n h).
  - destruct (rcv_h s !! h) as [[i r]|] eqn:Hh; [|done]. apply elem_of_list_lookup_2 in Hh as Hi. destruct (i_rcv s I i r Hi) as [n Hn]. destruct r; [by injection H as <- <-|].
    eapply (einv_remove_receiver s s' ev i n h); try done. intros k. pose proof (sumf_insert (rcvf k) _ _ _ (i, true) Hh) as X. unfold rcvf in X at 4. simpl in X. unfold nrcv. destruct (i =? k); simpl in X; lia.
Qed.
Lemma einv_init : einv init.
Proof. by intros k n H. Qed.
