(** The invariant of Inv.v holds in all states reachable: the remaining steps. *)
From Coq Require Import List Bool ZArith Lia Arith.
From stdpp Require Import list.
From Verif.Channel Require Import Queue QueueProof Model Sum Inv InvStep InvStep2.
Ltac fq := unfold ownf, bcf, cjob, clrf in *; cbn [fst snd own_pc bc_pc dead] in *.
Ltac dq := match goal with H : _ /\ _ |- _ => destruct H end.

Lemma elem_of_del {A} (l : list A) i x : x ∈ delete i l -> x ∈ l.
Proof.
  intros H. apply elem_of_list_lookup in H as [j H]. apply elem_of_list_lookup.
  destruct (decide (j < i)); [rewrite lookup_delete_lt in H by done|rewrite lookup_delete_ge in H by lia]; eauto.
Qed.
Lemma elem_of_del_ne {A} (l : list A) i x y : x ∈ l -> l !! i = Some y -> x <> y -> x ∈ delete i l.
Proof.
  intros H Hi N. apply elem_of_list_lookup in H as [j H]. apply elem_of_list_lookup. destruct (decide (j < i)).
  - exists j. by rewrite lookup_delete_lt.
  - destruct (decide (j = i)) as [->|]; [congruence|]. exists (pred j). rewrite lookup_delete_ge by lia. by replace (S (pred j)) with j by lia.
Qed.
(** handles only *)
Lemma jobs_same s s' : inv s -> jobs s' = jobs s -> nodes s' = nodes s -> dead s' = dead s -> forall t k p, jobs s' !! t = Some (k, p) -> jinv s' k p.
Proof. intros I E N D t k p H. rewrite E in H. apply (jinv_same s); try done. by eapply (i_job s I). Qed.
Lemma jobs_same1 s s' i n n' : inv s -> jobs s' = jobs s -> nodes s !! i = Some n -> nodes s' = <[i := n']> (nodes s) -> dead s' = dead s -> nrel n n' -> que n' = que n ->
  forall t k p, jobs s' !! t = Some (k, p) -> jinv s' k p.
Proof.
  intros I E Hn N D R Qe t k p H. rewrite E in H. eapply (jinv_other s _ i n n'); try done. { by eapply (i_job s I). }
  intros e _ _. by rewrite Qe.
Qed.
Lemma st_set_snd s h : inv s -> inv (set_snd (delete h (snd_h s)) s).
Proof.
  intros I. destruct (snd_h s !! h) as [i|] eqn:H.
  - apply (inv_frame0 s); try done; try (intros; by eauto).
    + intros k. pose proof (sumf_delete (fun x => b2n (x =? k)) _ _ _ H) as X. unfold same, own, bc, credit, npend, sndc, nrcv. simpl. unfold cnt in *. repeat split; try lia. done.
    + by apply (jobs_same s).
    + intros j. apply elem_of_del.
  - apply lookup_ge_None in H. assert (delete h (snd_h s) = snd_h s) as ->. { clear I. revert h H. induction (snd_h s); intros [|h] H; simpl in *; try done; [lia|]. f_equal. apply IHl. lia. }
    by destruct s.
Qed.
Lemma st_set_rcv s h : inv s -> inv (set_rcv (delete h (rcv_h s)) s).
Proof.
  intros I. destruct (rcv_h s !! h) as [i|] eqn:H.
  - apply (inv_frame0 s); try done; try (intros; by eauto).
    + intros k. pose proof (sumf_delete (rcvf k) _ _ _ H) as X. unfold same, own, bc, credit, npend, sndc, nrcv. simpl. repeat split; try lia. done.
    + by apply (jobs_same s).
    + intros j b Hj. apply elem_of_del in Hj. eauto.
  - apply lookup_ge_None in H. assert (delete h (rcv_h s) = rcv_h s) as ->. { clear I. revert h H. induction (rcv_h s); intros [|h] H; simpl in *; try done; [lia|]. f_equal. apply IHl. lia. }
    by destruct s.
Qed.
Lemma st_copyS_dead s i : inv s -> i ∈ snd_h s -> deadb i s = true -> inv (set_snd (snd_h s ++ [i]) s).
Proof.
  intros I Hi De. assert (forall k, sndc (set_snd (snd_h s ++ [i]) s) k = sndc s k + b2n (i =? k)) as Q.
  { intros k. unfold sndc. simpl. rewrite cnt_app. unfold cnt at 2. simpl. lia. }
  constructor; simpl.
  - intros k n Hn. pose proof (i_node s I k n Hn) as Ni. destruct Ni. constructor; try done.
    intros A. change (deadb k s = false) in A. rewrite Q. destruct (Nat.eqb_spec i k) as [->|]; [congruence|]. specialize (n_snd A). simpl. lia.
  - by apply (jobs_same s).
  - intros j. rewrite elem_of_app, elem_of_list_singleton. intros [H| ->]; by apply (i_snd s I).
  - intros j b. apply (i_rcv s I).
  - intros j. apply (i_pend s I).
Qed.
Lemma st_copyS s i n : inv s -> i ∈ snd_h s -> deadb i s = false -> nodes s !! i = Some n ->
  inv (set_node i (with_scount (S (scount n)) n) (set_snd (snd_h s ++ [i]) s)).
Proof.
  intros I Hi Al Hn. pose proof (i_node s I i n Hn) as Ni. set (n' := with_scount (S (scount n)) n).
  assert (0 < scount n) as Sc. { pose proof (n_snd _ _ _ Ni Al) as X. unfold sndc in X. apply cnt_pos in Hi. lia. }
  set (s0 := set_snd (snd_h s ++ [i]) s). set (s' := set_node i n' s0).
  assert (forall k, own s' k = own s k /\ bc s' k = bc s k /\ credit s' k = credit s k /\ npend s' k = npend s k /\ sndc s' k = sndc s k + b2n (i =? k) /\ nrcv s' k = nrcv s k) as Q.
  { intros k. pose proof (q_node s0 k i n n' Hn) as Q1. fold s' in Q1. change (cnode k n') with (cnode k n) in *. change (downf k n') with (downf k n) in *.
    assert (sndc s0 k = sndc s k + b2n (i =? k)) by (unfold s0, sndc; simpl; rewrite cnt_app; unfold cnt at 2; simpl; lia).
    change (own s0 k) with (own s k) in *. change (bc s0 k) with (bc s k) in *. change (credit s0 k) with (credit s k) in *. change (npend s0 k) with (npend s k) in *.
    change (nrcv s0 k) with (nrcv s k) in *. repeat dq. repeat split; lia. }
  assert (upsp s s') as U.
  { intros d nd Hd. simpl. destruct (decide (i = d)) as [->|N]; [exists n'; rewrite (lookup_set _ _ _ _ Hn); replace nd with n by congruence; done|exists nd; by rewrite list_lookup_insert_ne]. }
  constructor.
  - intros k nk Hk. simpl in Hk. destruct (decide (i = k)) as [->|N].
    + rewrite (lookup_set _ _ _ _ Hn) in Hk. injection Hk as <-. destruct (Q k) as (Q1 & Q2 & Q3 & Q4 & Q5 & Q6). rewrite Nat.eqb_refl in *. apply (ninv_ads s); try done. simpl in Q5. lia.
    + rewrite list_lookup_insert_ne in Hk by done. destruct (Q k) as (Q1 & Q2 & Q3 & Q4 & Q5 & Q6). rewrite (proj2 (Nat.eqb_neq i k)) in * by done.
      eapply (ninv_keep s); try done. { by apply I. } unfold same. simpl in Q5. repeat split; try lia. done.
  - by apply (jobs_same1 s s' i n n').
  - intros j Hj. assert (j ∈ snd_h s) as Hj'. { simpl in Hj. apply elem_of_app in Hj as [Hj|Hj]; [done|]. apply elem_of_list_singleton in Hj as ->. done. }
    apply (i_snd s I) in Hj' as (nj & H1 & H2). destruct (U _ _ H1) as (nj' & H3 & H4). exists nj'. split; [done|congruence].
  - intros j b Hj. apply (i_rcv s I) in Hj as [nj Hj]. destruct (U _ _ Hj) as (nj' & H3 & H4). by exists nj'.
  - intros j Hj. apply (i_pend s I) in Hj as [nj Hj]. destruct (U _ _ Hj) as (nj' & H3 & H4). by exists nj'.
Qed.
Lemma st_dropS s h i n k : inv s -> snd_h s !! h = Some i -> nodes s !! i = Some n -> deadb i s = false -> scount n = S k ->
  inv (rms i k n (set_snd (delete h (snd_h s)) s)).
Proof.
  intros I Hh Hn Al Sk. set (n' := with_scount k n). set (s0 := set_snd (delete h (snd_h s)) s). set (s' := rms i k n s0).
  assert (dead s' = dead s) as D by (unfold s'; by rewrite rms_dead).
  assert (nodes s' = <[i := n']> (nodes s)) as E by (unfold s'; by rewrite rms_nodes).
  assert (pends s' = pends s ++ (if k =? 0 then [PSend i] else [])) as P by (unfold s'; by rewrite rms_pends).
  assert (snd_h s' = delete h (snd_h s)) as PS by (unfold s'; by rewrite rms_snd).
  assert (rcv_h s' = rcv_h s) as PR by (unfold s'; by rewrite rms_rcv).
  assert (jobs s' = jobs s) as PJ by (unfold s'; by rewrite rms_jobs).
  assert (forall x, own s' x = own s x /\ bc s' x = bc s x /\ credit s' x = credit s x /\
    npend s' x = npend s x + b2n ((k =? 0) && (i =? x)) /\ sndc s' x + b2n (i =? x) = sndc s x /\ nrcv s' x = nrcv s x) as Q.
  { intros x. pose proof (q_rms s0 x i n k Hn) as Q1. simpl in Q1. fold s' in Q1.
    assert (sndc s0 x + b2n (i =? x) = sndc s x). { unfold s0, sndc. simpl. pose proof (sumf_delete (fun y => b2n (y =? x)) _ _ _ Hh) as X. unfold cnt. simpl in X. lia. }
    change (own s0 x) with (own s x) in *. change (bc s0 x) with (bc s x) in *. change (credit s0 x) with (credit s x) in *. change (npend s0 x) with (npend s x) in *.
    change (nrcv s0 x) with (nrcv s x) in *. repeat dq. repeat split; lia. }
  clearbody s'. apply (inv_frame s _ i n n'); try done.
  - intros x N. destruct (Q x) as (Q1 & Q2 & Q3 & Q4 & Q5 & Q6). rewrite (proj2 (Nat.eqb_neq i x)) in * by done. rewrite andb_false_r in *. simpl in *.
    unfold same. rewrite P. repeat split; try lia. intros H. apply elem_of_app. by left.
  - intros U. destruct (Q i) as (Q1 & Q2 & Q3 & Q4 & Q5 & Q6). rewrite Nat.eqb_refl, ?andb_true_r in *. simpl in *.
    apply (ninv_rms s); rewrite ?P; try done; try lia. { by apply I. } intros H. apply elem_of_app. by left.
  - by apply (jobs_same1 s s' i n n').
  - rewrite PS. intros j. apply elem_of_del.
  - rewrite PR. eauto.
  - intros j. rewrite P, !elem_of_app. destruct (k =? 0); [rewrite !elem_of_list_singleton|rewrite !elem_of_nil]; intros [[H|H]|[H|H]]; try done; auto; injection H as ->; auto.
Qed.
(** receivers *)
Lemma q_rcv s k i n c (h : list (nat * bool)) pe : nodes s !! i = Some n -> let s' := set_node i (with_rcount c n) (set_rcv h (set_pends pe s)) in
  own s' k = own s k /\ bc s' k = bc s k /\ credit s' k = credit s k /\ sndc s' k = sndc s k.
Proof.
  intros Hn. simpl. pose proof (q_node (set_rcv h (set_pends pe s)) k i n (with_rcount c n) Hn) as Q1. simpl in Q1.
  change (cnode k (with_rcount c n)) with (cnode k n) in *. change (downf k (with_rcount c n)) with (downf k n) in *.
  set (s0 := set_rcv h (set_pends pe s)) in *.
  change (own s0 k) with (own s k) in *. change (bc s0 k) with (bc s k) in *. change (credit s0 k) with (credit s k) in *. change (sndc s0 k) with (sndc s k) in *. lia.
Qed.
Lemma st_rcv s i n c h pe : inv s -> nodes s !! i = Some n -> rvoid n = false ->
  (forall j b, (j, b) ∈ h -> exists b', (j, b') ∈ rcv_h s) -> (forall k, sumf (rcvf k) h <= if k =? i then c else nrcv s k) ->
  (pe = pends s \/ pe = pends s ++ [PRecv i]) -> (c = 0 -> PRecv i ∈ pe) ->
  inv (set_node i (with_rcount c n) (set_rcv h (set_pends pe s))).
Proof.
  intros I Hn V Hh Hc Hp Hz. set (n' := with_rcount c n). set (s' := set_node i n' (set_rcv h (set_pends pe s))).
  assert (forall k, npend s' k = npend s k) as Np. { intros k. unfold npend. simpl. destruct Hp as [-> | ->]; [done|]. rewrite sumf_app. simpl. lia. }
  assert (forall k, PRecv k ∈ pends s -> PRecv k ∈ pends s') as Pp. { intros k. simpl. destruct Hp as [-> | ->]; [done|]. rewrite elem_of_app. auto. }
  apply (inv_frame s _ i n n'); try done.
  - intros k N. destruct (q_rcv s k i n c h pe Hn) as (Q1 & Q2 & Q3 & Q4). fold n' s' in Q1, Q2, Q3, Q4. unfold same. specialize (Hc k). rewrite (proj2 (Nat.eqb_neq k i)) in Hc by done.
    repeat split; try lia; [by rewrite Np|exact Hc|auto].
  - intros U. destruct (q_rcv s i i n c h pe Hn) as (Q1 & Q2 & Q3 & Q4). fold n' s' in Q1, Q2, Q3, Q4. specialize (Hc i). rewrite Nat.eqb_refl in Hc.
    apply (ninv_rcv s); try done. { by apply I. } apply Pp.
  - by apply (jobs_same1 s s' i n n').
  - intros j. simpl. destruct Hp as [-> | ->]; [auto|]. rewrite !elem_of_app, !elem_of_list_singleton. intros [[H|H]|[H|H]]; try done; auto. injection H as ->. auto.
Qed.
(** pending critical sections *)
Lemma npend_del s k x p : pends s !! k = Some p -> npend (set_pends (delete k (pends s)) s) x + pendf x p = npend s x.
Proof. intros H. unfold npend. simpl. by apply sumf_delete. Qed.
Lemma st_precv s k i n : inv s -> pends s !! k = Some (PRecv i) -> nodes s !! i = Some n ->
  let b := (negb (empty_q n) || closeq n) && negb (running n) in
  inv (run_if b i (set_node i (with_running (running n || b) n) (set_pends (delete k (pends s)) s))).
Proof.
  intros I Hk Hn b. pose proof (i_node s I i n Hn) as Ni. set (n' := with_running (running n || b) n).
  set (s0 := set_pends (delete k (pends s)) s). set (s1 := set_node i n' s0). set (s' := run_if b i s1).
  assert (dead s' = dead s) as D by (unfold s'; by rewrite run_dead).
  assert (nodes s' = <[i := n']> (nodes s)) as E by (unfold s'; by rewrite run_nodes).
  assert (pends s' = delete k (pends s)) as P by (unfold s'; by rewrite run_pends).
  assert (snd_h s' = snd_h s) as PS by (unfold s'; by rewrite run_snd).
  assert (rcv_h s' = rcv_h s) as PR by (unfold s'; by rewrite run_rcv).
  assert (jobs s' = jobs s ++ (if b then [(i, JPend)] else [])) as PJ by (unfold s'; by rewrite run_jobs).
  assert (forall x, own s' x = own s x + b2n (b && (i =? x)) /\ bc s' x = bc s x /\ credit s' x = credit s x /\
    npend s' x = npend s x /\ sndc s' x = sndc s x /\ nrcv s' x = nrcv s x) as Q.
  { intros x. pose proof (q_node s0 x i n n' Hn) as Q1. pose proof (q_run s1 x b i) as Q2. simpl in Q2. fold s1 in Q1. fold s' in Q2.
    pose proof (npend_del s k x _ Hk) as Q3. fold s0 in Q3. simpl in Q3.
    change (cnode x n') with (cnode x n) in *. change (downf x n') with (downf x n) in *.
    change (own s0 x) with (own s x) in *. change (bc s0 x) with (bc s x) in *. change (credit s0 x) with (credit s x) in *.
    change (nrcv s0 x) with (nrcv s x) in *. change (sndc s0 x) with (sndc s x) in *. repeat dq. repeat split; lia. }
  assert (forall x, x <> i -> PRecv x ∈ pends s -> PRecv x ∈ pends s') as Pp. { intros x N H. rewrite P. eapply elem_of_del_ne; [done|done|]. congruence. }
  clearbody s'. apply (inv_frame s _ i n n'); try done.
  - intros x N. destruct (Q x) as (Q1 & Q2 & Q3 & Q4 & Q5 & Q6). rewrite (proj2 (Nat.eqb_neq i x)) in * by done. rewrite andb_false_r in *. simpl in *.
    unfold same. repeat split; try lia. by apply Pp.
  - intros U. destruct (Q i) as (Q1 & Q2 & Q3 & Q4 & Q5 & Q6). rewrite Nat.eqb_refl, andb_true_r in Q1.
    assert (deadb i s' = deadb i s) as D' by (unfold deadb; by rewrite D). destruct Ni.
    constructor; simpl; try done; rewrite ?D, ?D', ?Q2, ?Q3, ?Q4, ?Q5, ?Q6; try done.
    + intros d' p' H'. destruct (n_down d' p' H') as (nd & H1' & H2'). destruct (U d' nd H1') as (nd' & H3 & H4). exists nd'. by rewrite H4.
    + rewrite Q1. unfold b. destruct (running n); simpl in *; rewrite ?andb_false_r; simpl; [lia|]. destruct (negb (empty_q n) || closeq n); simpl; lia.
    + intros A B C. unfold b in B. change (empty_q n = false ∨ closeq n = true) in C. destruct (running n); [done|]. simpl in B. rewrite andb_true_r in B.
      destruct C as [C|C]; rewrite C in B; [done|by rewrite orb_true_r in B].
  - apply (jobs_all_run s _ (if b then [(i, JPend)] else [])); [done| |].
    + intros t' x q H. eapply (jinv_other s _ i n n'); try done. by eapply (i_job s I).
    + intros x q H. destruct b eqn:R; [|by apply elem_of_nil in H]. apply elem_of_list_singleton in H. injection H as -> ->.
      eapply (jinv_run _ _ n'); [rewrite E; by eapply lookup_set|]. apply (nonfinal s i n); [done|]. unfold b in R.
      apply andb_true_iff in R as [R _]. apply orb_true_iff in R as [R|R]; [left; by apply negb_true_iff|by right].
  - by rewrite PS.
  - rewrite PR. eauto.
  - intros j. rewrite P. intros [H|H]; apply elem_of_del in H; auto.
Qed.
Lemma st_psend s k i n : inv s -> pends s !! k = Some (PSend i) -> nodes s !! i = Some n ->
  let b := (rcount n =? 0) && negb (running n) in
  inv (run_if b i (set_node i (with_running (running n || b) (with_close true (final n) n)) (set_pends (delete k (pends s)) s))).
Proof.
  intros I Hk Hn b. pose proof (i_node s I i n Hn) as Ni. set (n' := with_running (running n || b) (with_close true (final n) n)).
  set (s0 := set_pends (delete k (pends s)) s). set (s1 := set_node i n' s0). set (s' := run_if b i s1).
  assert (dead s' = dead s) as D by (unfold s'; by rewrite run_dead).
  assert (nodes s' = <[i := n']> (nodes s)) as E by (unfold s'; by rewrite run_nodes).
  assert (pends s' = delete k (pends s)) as P by (unfold s'; by rewrite run_pends).
  assert (snd_h s' = snd_h s) as PS by (unfold s'; by rewrite run_snd).
  assert (rcv_h s' = rcv_h s) as PR by (unfold s'; by rewrite run_rcv).
  assert (jobs s' = jobs s ++ (if b then [(i, JPend)] else [])) as PJ by (unfold s'; by rewrite run_jobs).
  assert (forall x, own s' x = own s x + b2n (b && (i =? x)) /\ bc s' x = bc s x /\ credit s' x = credit s x /\
    npend s' x + b2n (i =? x) = npend s x /\ sndc s' x = sndc s x /\ nrcv s' x = nrcv s x) as Q.
  { intros x. pose proof (q_node s0 x i n n' Hn) as Q1. pose proof (q_run s1 x b i) as Q2. simpl in Q2. fold s1 in Q1. fold s' in Q2.
    pose proof (npend_del s k x _ Hk) as Q3. fold s0 in Q3. simpl in Q3.
    change (cnode x n') with (cnode x n) in *. change (downf x n') with (downf x n) in *.
    change (own s0 x) with (own s x) in *. change (bc s0 x) with (bc s x) in *. change (credit s0 x) with (credit s x) in *.
    change (nrcv s0 x) with (nrcv s x) in *. change (sndc s0 x) with (sndc s x) in *. repeat dq. repeat split; lia. }
  assert (final n = false /\ closeq n = false) as [Fi Cl].
  { destruct (Q i) as (_ & _ & _ & Q4 & _). rewrite Nat.eqb_refl in Q4. pose proof (n_close _ _ _ Ni) as C. simpl in Q4.
    destruct (final n), (closeq n), (scount n =? 0); simpl in C; try lia. }
  assert (forall x, PRecv x ∈ pends s -> PRecv x ∈ pends s') as Pp. { intros x H. rewrite P. eapply elem_of_del_ne; [done|done|]. congruence. }
  clearbody s'. apply (inv_frame s _ i n n'); try done.
  - intros x N. destruct (Q x) as (Q1 & Q2 & Q3 & Q4 & Q5 & Q6). rewrite (proj2 (Nat.eqb_neq i x)) in * by done. rewrite andb_false_r in *. simpl in *.
    unfold same. repeat split; try lia. by apply Pp.
  - intros U. destruct (Q i) as (Q1 & Q2 & Q3 & Q4 & Q5 & Q6). rewrite Nat.eqb_refl in *. rewrite andb_true_r in Q1. simpl in Q4.
    assert (deadb i s' = deadb i s) as D' by (unfold deadb; by rewrite D). destruct Ni.
    constructor; simpl; try done; rewrite ?D, ?D', ?Q2, ?Q3, ?Q5, ?Q6; try done.
    + intros d' p' H'. destruct (n_down d' p' H') as (nd & H1' & H2'). destruct (U d' nd H1') as (nd' & H3 & H4). exists nd'. by rewrite H4.
    + rewrite Q1. unfold b. destruct (running n); simpl in *; rewrite ?andb_false_r; simpl; [lia|]. destruct (rcount n =? 0); simpl; lia.
    + rewrite Cl, Fi in *. simpl in *. lia.
    + intros A B C. unfold b in B. rewrite A in B. by destruct (running n).
  - apply (jobs_all_run s _ (if b then [(i, JPend)] else [])); [done| |].
    + intros t' x q H. eapply (jinv_other s _ i n n'); try done. by eapply (i_job s I).
    + intros x q H. destruct b eqn:R; [|by apply elem_of_nil in H]. apply elem_of_list_singleton in H. injection H as -> ->.
      eapply (jinv_run _ _ n'); [rewrite E; by eapply lookup_set|]. done.
  - by rewrite PS.
  - rewrite PR. eauto.
  - intros j. rewrite P. intros [H|H]; apply elem_of_del in H; auto.
Qed.
