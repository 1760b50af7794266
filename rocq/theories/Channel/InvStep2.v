(** The invariant of Inv.v holds in all states reachable: senders, receivers, clients. *)
From Coq Require Import List Bool ZArith Lia Arith.
From stdpp Require Import list.
From Verif.Channel Require Import Queue QueueProof Model Sum Inv InvStep.
Ltac fq := unfold ownf, bcf, cjob, clrf in *; cbn [fst snd own_pc bc_pc dead] in *.
Ltac dq := match goal with H : _ /\ _ |- _ => destruct H end.

Definition en_run (n : node) : bool := (rcount n =? 0) && negb (running n).
Lemma nonfinal_s s i n : ninv s i n -> 0 < scount n -> final n = false.
Proof. intros Ni H. pose proof (n_close _ _ _ Ni) as C. destruct (final n), (scount n); simpl in C; try lia; done. Qed.
Lemma nrel_enq (p : nat) (m : msg) (n : node) : nrel n (enq p m n).
Proof. split; [done|]. split; [done|]. split; [|done]. apply empty_append. Qed.
(** JSend *)
Lemma st_send s t i o d p rest nd : inv s -> jobs s !! t = Some (i, JSend o ((d, p) :: rest)) -> nodes s !! d = Some nd -> deadb d s = false ->
  inv (set_job t i (JSend o rest) (run_if (en_run nd) d (set_node d (enq p o nd) s))).
Proof.
  intros I Ht Hd Al. destruct (i_job s I _ _ _ Ht) as (n & Hn & Fi & Nd & Sub & Po). pose proof (i_node s I d nd Hd) as Nid.
  pose proof (i_node s I i n Hn) as Nii.
  assert (ups nd !! p = Some (Some i)) as Up. { destruct (n_down _ _ _ Nii d p) as (nd' & H1 & H2); [apply Sub; left|congruence]. }
  assert (plen (que nd) p = 0) as Pz. { specialize (Po (d, p) ltac:(left)). unfold port in Po. simpl in Po. by rewrite Hd in Po. }
  assert (0 < scount nd) as Sc.
  { pose proof (n_snd _ _ _ Nid Al) as X. unfold sndc in X. pose proof (sumf_lookup (downf d) _ _ _ Hn) as Y.
    assert (0 < downf d n); [|lia]. apply cnt_pos. apply elem_of_list_fmap. exists (d, p). split; [done|]. apply Sub. left. }
  assert (alive (dead s) (d, p) = 1) as A1. { unfold alive. simpl. unfold deadb in Al. by rewrite Al. }
  set (nd' := enq p o nd). set (s0 := set_node d nd' s). set (s1 := run_if (en_run nd) d s0). set (j' := JSend o rest). set (s' := set_job t i j' s1).
  assert (jobs s1 !! t = Some (i, JSend o ((d, p) :: rest))) as Ht1 by (unfold s1; rewrite run_jobs; by apply lookup_app_l_Some).
  assert (dead s' = dead s) as D by (unfold s', s1; simpl; by rewrite run_dead).
  assert (nodes s' = <[d := nd']> (nodes s)) as E by (unfold s', s1; simpl; by rewrite run_nodes).
  assert (pends s' = pends s) as P by (unfold s', s1; simpl; by rewrite run_pends).
  assert (snd_h s' = snd_h s) as PS by (unfold s', s1; simpl; by rewrite run_snd).
  assert (rcv_h s' = rcv_h s) as PR by (unfold s', s1; simpl; by rewrite run_rcv).
  assert (jobs s' = <[t := (i, j')]> (jobs s ++ (if en_run nd then [(d, JPend)] else []))) as PJ by (unfold s', s1; simpl; by rewrite run_jobs).
  assert (forall k, isup k nd p = (i =? k)) as Iu. { intros k. unfold isup. by rewrite Up. }
  assert (forall k, own s' k = own s k + b2n (en_run nd && (d =? k)) /\ bc s' k = bc s k /\ credit s' k = credit s k /\
    npend s' k = npend s k /\ sndc s' k = sndc s k /\ nrcv s' k = nrcv s k) as Q.
  { intros k. pose proof (q_node s k d nd nd' Hd) as Q1. pose proof (q_run s0 k (en_run nd) d) as Q2.
    pose proof (q_job s1 k t _ (i, j') Ht1) as Q3. simpl in Q2, Q3. 
    assert (cnode k nd' = cnode k nd + b2n (i =? k)) as X. { rewrite <- Iu. apply (cnode_append k nd p o). apply Nid. }
    change (downf k nd') with (downf k nd) in *. fold s0 in Q1. fold s1 in Q2. change (set_jobs (<[t := (i, j')]> (jobs s1)) s1) with s' in Q3.
    assert (dead s1 = dead s) as D1 by (unfold s1; by rewrite run_dead). rewrite D1 in Q3.
    repeat dq. fq. unfold j' in *. simpl in *. rewrite A1 in *. destruct (i =? k); simpl in *; lia. }
  clearbody s'. apply (inv_frame s _ d nd nd'); try done.
  - intros k N. destruct (Q k) as (Q1 & Q2 & Q3 & Q4 & Q5 & Q6). rewrite (proj2 (Nat.eqb_neq d k)) in * by done. rewrite andb_false_r in *. simpl in *.
    unfold same. rewrite P. repeat split; try lia. done.
  - intros U. destruct (Q d) as (Q1 & Q2 & Q3 & Q4 & Q5 & Q6). rewrite Nat.eqb_refl, ?andb_true_r in *. simpl in *.
    apply (ninv_enq s); rewrite ?P; try done; try lia. rewrite Q1. unfold en_run. done.
  - apply (jobs_all s _ t i j' (if en_run nd then [(d, JPend)] else [])); [done|by eapply lookup_lt_Some| | |].
    + intros t' k q H N. pose proof (i_job s I _ _ _ H) as J. eapply (jinv_other s _ d nd nd'); try done. { intros _. apply nrel_enq. }
      intros [d' p'] He H1 Z. simpl in *. subst d'. unfold nd'. cbn [enq que with_running with_que]. rewrite plen_append, Z.
      destruct (Nat.eqb_spec p p') as [->|]; [|done]. exfalso. destruct q as [| | | |o' r| | | |]; simpl in He; try by apply elem_of_nil in He.
      destruct J as (nk & Hk & _ & _ & Sk & _). destruct (n_down _ _ _ (i_node s I k nk Hk) d p') as (nd2 & H2 & H3); [by apply Sk|].
      assert (k = i) as -> by congruence.
      pose proof (sumf_two (bcf i) _ _ _ _ _ Ht H ltac:(done)) as Y. unfold bcf in Y at 1 2. simpl in Y. rewrite Nat.eqb_refl in Y.
      pose proof (n_bc _ _ _ Nii) as W. unfold bc in W. lia.
    + assert (jinv s i j') as J.
      { exists n. split; [done|]. apply NoDup_cons in Nd as [_ Nd]. repeat split; try done. - intros e He. apply Sub. by right. - intros e He. apply Po. by right. }
      eapply (jinv_other s _ d nd nd'); try done. { intros _. apply nrel_enq. }
      intros [d' p'] He H1 Z. simpl in *. subst d'. unfold nd'. cbn [enq que with_running with_que]. rewrite plen_append, Z.
      destruct (Nat.eqb_spec p p') as [->|]; [|done]. apply NoDup_cons in Nd as [Ni _]. done.
    + intros k q H. destruct (en_run nd) eqn:R; [|by apply elem_of_nil in H]. apply elem_of_list_singleton in H. injection H as -> ->.
      eapply (jinv_run _ _ nd'); [rewrite E; by eapply lookup_set|]. exact (nonfinal_s _ _ _ Nid Sc).
  - by rewrite PS.
  - rewrite PR. eauto.
  - intros j. rewrite P. auto.
Qed.
(** a client sends *)
Lemma st_client s h i m n : inv s -> snd_h s !! h = Some i -> nodes s !! i = Some n -> deadb i s = false ->
  inv (run_if (en_run n) i (set_node i (enq 0 m n) s)).
Proof.
  intros I Hh Hn Al. pose proof (i_node s I i n Hn) as Ni. destruct (i_snd s I i) as (n0 & Hn0 & Up); [by eapply elem_of_list_lookup_2|].
  replace n0 with n in * by congruence. clear n0 Hn0.
  assert (0 < scount n) as Sc.
  { pose proof (n_snd _ _ _ Ni Al) as X. unfold sndc in X. assert (0 < cnt i (snd_h s)); [|lia]. apply cnt_pos. by eapply elem_of_list_lookup_2. }
  set (n' := enq 0 m n). set (s0 := set_node i n' s). set (s' := run_if (en_run n) i s0).
  assert (dead s' = dead s) as D by (unfold s'; by rewrite run_dead).
  assert (nodes s' = <[i := n']> (nodes s)) as E by (unfold s'; by rewrite run_nodes).
  assert (pends s' = pends s) as P by (unfold s'; by rewrite run_pends).
  assert (snd_h s' = snd_h s) as PS by (unfold s'; by rewrite run_snd).
  assert (rcv_h s' = rcv_h s) as PR by (unfold s'; by rewrite run_rcv).
  assert (jobs s' = jobs s ++ (if en_run n then [(i, JPend)] else [])) as PJ by (unfold s'; by rewrite run_jobs).
  assert (forall k, own s' k = own s k + b2n (en_run n && (i =? k)) /\ bc s' k = bc s k /\ credit s' k = credit s k /\
    npend s' k = npend s k /\ sndc s' k = sndc s k /\ nrcv s' k = nrcv s k) as Q.
  { intros k. pose proof (q_node s k i n n' Hn) as Q1. pose proof (q_run s0 k (en_run n) i) as Q2. simpl in Q2. 
    assert (cnode k n' = cnode k n) as X.
    { change (cnode k n') with (cnode k (with_que (q_append 0 m (que n)) n)). rewrite (cnode_append k n 0 m) by apply Ni. unfold isup. rewrite Up. simpl. lia. }
    change (downf k n') with (downf k n) in *. fold s0 in Q1. fold s' in Q2. repeat dq. repeat split; lia. }
  clearbody s'. apply (inv_frame s _ i n n'); try done.
  - intros k N. destruct (Q k) as (Q1 & Q2 & Q3 & Q4 & Q5 & Q6). rewrite (proj2 (Nat.eqb_neq i k)) in * by done. rewrite andb_false_r in *. simpl in *.
    unfold same. rewrite P. repeat split; try lia. done.
  - intros U. destruct (Q i) as (Q1 & Q2 & Q3 & Q4 & Q5 & Q6). rewrite Nat.eqb_refl, ?andb_true_r in *. simpl in *.
    apply (ninv_enq s); rewrite ?P; try done; try lia. { rewrite Q1. done. } rewrite Up. done.
  - apply (jobs_all_run s _ (if en_run n then [(i, JPend)] else [])); [done| |].
    + intros t' k q H. pose proof (i_job s I _ _ _ H) as J. eapply (jinv_other s _ i n n'); try done. { intros _. apply nrel_enq. }
      intros [d' p'] He H1 Z. simpl in *. subst d'. unfold n'. cbn [enq que with_running with_que]. rewrite plen_append, Z.
      destruct (Nat.eqb_spec 0 p') as [<-|]; [|done]. exfalso. destruct q as [| | | |o' r| | | |]; simpl in He; try by apply elem_of_nil in He.
      destruct J as (nk & Hk & _ & _ & Sk & _). destruct (n_down _ _ _ (i_node s I k nk Hk) i 0) as (nd2 & H2 & H3); [by apply Sk|].
      replace nd2 with n in * by congruence. by rewrite Up in H3.
    + intros k q H. destruct (en_run n) eqn:R; [|by apply elem_of_nil in H]. apply elem_of_list_singleton in H. injection H as -> ->.
      eapply (jinv_run _ _ n'); [rewrite E; by eapply lookup_set|]. exact (nonfinal_s _ _ _ Ni Sc).
  - by rewrite PS.
  - rewrite PR. eauto.
  - intros j. rewrite P. auto.
Qed.
(** JFinal *)
Lemma st_final s t i n : inv s -> nodes s !! i = Some n -> jobs s !! t = Some (i, JFinal) ->
  inv (set_job t i (JClear (down n)) (set_node i (with_down [] n) s)).
Proof.
  intros I Hn Ht. pose proof (i_node s I i n Hn) as Ni. assert (final n = true) as Fi. { destruct (i_job s I _ _ _ Ht) as (n0 & Hn0 & J). congruence. }
  set (n' := with_down [] n). set (s' := set_job t i (JClear (down n)) (set_node i n' s)).
  assert (forall k, equal s s' k) as Q.
  { intros k. pose proof (q_node s k i n n' Hn) as Q1. pose proof (q_job (set_node i n' s) k t _ (i, JClear (down n)) Ht) as Q2.
    simpl in Q2. change (cnode k n') with (cnode k n) in *. change (downf k n') with 0 in *. repeat dq. fq. unfold s', set_job, equal. unfold downf in *. simpl in *. destruct (i =? k); simpl; repeat split; lia. }
  apply (inv_frame s _ i n n'); try done; try (intros; by eauto).
  - intros k N. by apply equal_same.
  - intros U. destruct Ni. destruct (Q i) as (Q1 & Q2 & Q3 & Q4 & Q5 & Q6 & Q7).
    constructor; simpl; try done; rewrite ?Q1, ?Q2, ?Q3, ?Q4, ?Q5, ?Q6, ?Q7; try done.
    + intros d p H. by apply elem_of_nil in H.
    + constructor.
  - apply (jobs_all s _ t i (JClear (down n)) []); [by rewrite app_nil_r|by eapply lookup_lt_Some| | |].
    + intros t' k q H N. pose proof (i_job s I _ _ _ H) as J. destruct (decide (i = k)) as [->|Ne].
      * destruct J as (n0 & Hn0 & J). replace n0 with n in * by congruence. exists n'. split; [by eapply lookup_set|].
        assert (forall j, is_Some (nodes s !! j) -> is_Some (nodes s' !! j)) as X.
        { intros j Hj. apply lookup_lt_is_Some. simpl. rewrite insert_length. by apply lookup_lt_is_Some. }
        destruct q; simpl; try done; try (destruct J as [J1 J2]; congruence).
        -- destruct J as [J1 J2]. split; [|done]. eapply Forall_impl; [done|]. by apply X.
        -- destruct J as [J1 J2]. split; [done|]. intros e He. by apply X, J2.
      * eapply (jinv_other s _ i n n'); try done.
    + exists n'. simpl. split; [by eapply lookup_set|]. split; [done|]. intros [d p] He. destruct (n_down _ _ _ Ni d p He) as (nd & H & _).
      apply lookup_lt_is_Some. rewrite insert_length. simpl. by eapply lookup_lt_Some.
    + intros k q H. by apply elem_of_nil in H.
Qed.
(** JClear *)
Lemma st_clear_dead s t i e rest : inv s -> jobs s !! t = Some (i, JClear (e :: rest)) -> inv (set_job t i (JClear rest) s).
Proof.
  intros I Ht. apply (st_move s t i (JClear (e :: rest))); try done.
  - intros k. unfold clrf, cnt. simpl. lia.
  - intros (n & Hn & J1 & J2). exists n. split; [done|]. split; [done|]. intros e' He. apply J2. by right.
Qed.
Definition rms (d : nat) (k : nat) (n : node) (s : st) : st :=
  let s1 := set_node d (with_scount k n) s in if k =? 0 then add_pend (PSend d) s1 else s1.
Lemma q_rms s k d n k' : nodes s !! d = Some n -> let s' := rms d k' n s in
  own s' k = own s k /\ bc s' k = bc s k /\ credit s' k = credit s k /\ npend s' k = npend s k + b2n ((k' =? 0) && (d =? k)) /\
  sndc s' k = sndc s k /\ nrcv s' k = nrcv s k.
Proof.
  intros Hn. pose proof (q_node s k d n (with_scount k' n) Hn) as Q. change (cnode k (with_scount k' n)) with (cnode k n) in *.
  change (downf k (with_scount k' n)) with (downf k n) in *. repeat dq. unfold rms. destruct (k' =? 0); simpl; [|repeat split; lia].
  unfold own, bc, credit, npend, sndc, nrcv in *. simpl in *. rewrite sumf_app. simpl. repeat split; lia.
Qed.
Lemma rms_nodes d k n s : nodes (rms d k n s) = <[d := with_scount k n]> (nodes s).
Proof. unfold rms. by destruct (k =? 0). Qed.
Lemma rms_dead d k n s : dead (rms d k n s) = dead s.
Proof. unfold rms. by destruct (k =? 0). Qed.
Lemma rms_jobs d k n s : jobs (rms d k n s) = jobs s.
Proof. unfold rms. by destruct (k =? 0). Qed.
Lemma rms_snd d k n s : snd_h (rms d k n s) = snd_h s.
Proof. unfold rms. by destruct (k =? 0). Qed.
Lemma rms_rcv d k n s : rcv_h (rms d k n s) = rcv_h s.
Proof. unfold rms. by destruct (k =? 0). Qed.
Lemma rms_pends d k n s : pends (rms d k n s) = pends s ++ (if k =? 0 then [PSend d] else []).
Proof. unfold rms. destruct (k =? 0); [done|]. by rewrite app_nil_r. Qed.
Lemma st_clear s t i d p rest n k : inv s -> jobs s !! t = Some (i, JClear ((d, p) :: rest)) -> nodes s !! d = Some n -> deadb d s = false ->
  scount n = S k -> inv (set_job t i (JClear rest) (rms d k n s)).
Proof.
  intros I Ht Hn Al Sk. set (n' := with_scount k n). set (s1 := rms d k n s). set (s' := set_job t i (JClear rest) s1).
  assert (jobs s1 !! t = Some (i, JClear ((d, p) :: rest))) as Ht1 by (unfold s1; by rewrite rms_jobs).
  assert (dead s' = dead s) as D by (unfold s', s1; simpl; by rewrite rms_dead).
  assert (nodes s' = <[d := n']> (nodes s)) as E by (unfold s', s1; simpl; by rewrite rms_nodes).
  assert (pends s' = pends s ++ (if k =? 0 then [PSend d] else [])) as P by (unfold s', s1; simpl; by rewrite rms_pends).
  assert (snd_h s' = snd_h s) as PS by (unfold s', s1; simpl; by rewrite rms_snd).
  assert (rcv_h s' = rcv_h s) as PR by (unfold s', s1; simpl; by rewrite rms_rcv).
  assert (jobs s' = <[t := (i, JClear rest)]> (jobs s ++ [])) as PJ by (unfold s', s1; simpl; by rewrite rms_jobs, app_nil_r).
  assert (forall x, own s' x = own s x /\ bc s' x = bc s x /\ credit s' x = credit s x /\
    npend s' x = npend s x + b2n ((k =? 0) && (d =? x)) /\ sndc s' x + b2n (d =? x) = sndc s x /\ nrcv s' x = nrcv s x) as Q.
  { intros x. pose proof (q_rms s x d n k Hn) as Q1. pose proof (q_job s1 x t _ (i, JClear rest) Ht1) as Q2. simpl in Q1, Q2.
    fold s1 in Q1. change (set_jobs (<[t := (i, JClear rest)]> (jobs s1)) s1) with s' in Q2.
    repeat dq. fq. unfold cnt in *. simpl in *. destruct (i =? x), (d =? x); simpl in *; repeat split; lia. }
  clearbody s'. apply (inv_frame s _ d n n'); try done.
  - intros x N. destruct (Q x) as (Q1 & Q2 & Q3 & Q4 & Q5 & Q6). rewrite (proj2 (Nat.eqb_neq d x)) in * by done. rewrite andb_false_r in *. simpl in *.
    unfold same. rewrite P. repeat split; try lia. intros H. apply elem_of_app. by left.
  - intros U. destruct (Q d) as (Q1 & Q2 & Q3 & Q4 & Q5 & Q6). rewrite Nat.eqb_refl, ?andb_true_r in *. simpl in *.
    apply (ninv_rms s); rewrite ?P; try done; try lia. { by apply I. } intros H. apply elem_of_app. by left.
  - apply (jobs_all s _ t i (JClear rest) []); [done|by eapply lookup_lt_Some| | |].
    + intros t' x q H N. eapply (jinv_other s _ d n n'); try done. by eapply (i_job s I).
    + assert (jinv s i (JClear rest)) as J.
      { destruct (i_job s I _ _ _ Ht) as (n0 & Hn0 & J1 & J2). exists n0. split; [done|]. split; [done|]. intros e He. apply J2. by right. }
      eapply (jinv_other s _ d n n'); done.
    + intros x q H. by apply elem_of_nil in H.
  - by rewrite PS.
  - rewrite PR. eauto.
  - intros j. rewrite P, !elem_of_app. destruct (k =? 0); [rewrite !elem_of_list_singleton|rewrite !elem_of_nil]; intros [[H|H]|[H|H]]; try done; auto; injection H as ->; auto.
Qed.
Lemma st_clear_end s t i n : inv s -> nodes s !! i = Some n -> jobs s !! t = Some (i, JClear []) ->
  inv (end_job t (set_node i (with_proc false n) s)).
Proof.
  intros I Hn Ht. pose proof (i_node s I i n Hn) as Ni. assert (final n = true) as Fi. { destruct (i_job s I _ _ _ Ht) as (n0 & Hn0 & J & _). congruence. }
  set (n' := with_proc false n). set (s' := end_job t (set_node i n' s)).
  assert (forall k, equal s s' k) as Q.
  { intros k. pose proof (q_node s k i n n' Hn) as Q1. pose proof (q_end (set_node i n' s) k t _ Ht) as Q2.
    simpl in Q2. change (cnode k n') with (cnode k n) in *. change (downf k n') with (downf k n) in *. fold s' in Q2. repeat dq. fq. unfold cnt in *. simpl in *. unfold equal. destruct (i =? k); simpl; repeat split; lia. }
  apply (inv_frame s _ i n n'); try done; try (intros; by eauto).
  - intros k N. by apply equal_same.
  - intros U. destruct Ni. destruct (Q i) as (Q1 & Q2 & Q3 & Q4 & Q5 & Q6 & Q7).
    constructor; simpl; try done; rewrite ?Q1, ?Q2, ?Q3, ?Q4, ?Q5, ?Q6, ?Q7; try done.
    intros d' p' H'. destruct (n_down d' p' H') as (nd & H1' & H2'). destruct (U d' nd H1') as (nd' & H3 & H4). exists nd'. by rewrite H4.
  - apply (jobs_all_end s _ t []); [by rewrite app_nil_r|by eapply lookup_lt_Some| |].
    + intros t' k q H N. eapply (jinv_other s _ i n n'); try done. by eapply (i_job s I).
    + intros k q H. by apply elem_of_nil in H.
Qed.
