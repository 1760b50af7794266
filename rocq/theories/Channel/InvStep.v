(** The invariant of Inv.v holds in all states reachable. *)
From Coq Require Import List Bool ZArith Lia Arith.
From stdpp Require Import list.
From Verif.Channel Require Import Queue QueueProof Model Sum Inv.

Lemma deadb_in i s : deadb i s = true <-> i ∈ dead s.
Proof.
  unfold deadb. rewrite existsb_exists. split.
  - intros (x & H & E). apply Nat.eqb_eq in E as ->. by apply elem_of_list_In.
  - intros H. exists i. rewrite Nat.eqb_refl. split; [|done]. by apply elem_of_list_In.
Qed.
Lemma empty_append st p m q : q_empty st q = false -> q_empty st (q_append p m q) = false.
Proof.
  destruct st; intros E.
  - simpl in *. destruct p; [rewrite list_lookup_alter|rewrite list_lookup_alter_ne by done; done].
    destruct (qs q !! 0) as [[|]|]; done.
  - apply empty_zip in E. apply empty_zip. rewrite Forall_lookup in *. intros i c. rewrite append_lookup.
    destruct (qs q !! i) as [c'|] eqn:H; [|done]. simpl. intros [= <-]. apply E in H. destruct (p =? i); [|done]. by destruct c'.
  - apply empty_rr in E as (m' & c & E). apply empty_rr. rewrite append_lookup. cbn [q_append qi]. rewrite E. simpl. destruct (p =? qi q); simpl; eauto.
  - destruct (q_empty Unordered (q_append p m q)) eqn:F; [|done]. apply empty_unordered in F. rewrite <- E. symmetry. apply empty_unordered.
    rewrite Forall_lookup in *. intros i c H. specialize (F i). rewrite append_lookup, H in F. simpl in F.
    destruct (p =? i); [|by apply (F c)]. specialize (F _ eq_refl). by destruct c.
Qed.

(** ** what stays *)
Definition upsp (s s' : st) : Prop := forall d nd, nodes s !! d = Some nd -> exists nd', nodes s' !! d = Some nd' /\ ups nd' = ups nd.
Definition same (s s' : st) (k : nat) : Prop :=
  own s' k <= own s k /\ bc s' k = bc s k /\ credit s' k = credit s k /\ npend s' k = npend s k /\ sndc s' k <= sndc s k /\
  nrcv s' k <= nrcv s k /\ (PRecv k ∈ pends s -> PRecv k ∈ pends s').
Lemma ninv_keep s s' k n : ninv s k n -> upsp s s' -> dead s' = dead s -> same s s' k -> ninv s' k n.
Proof.
  intros [] U D (Q1 & Q2 & Q3 & Q4 & Q5 & Q6 & Q7). assert (deadb k s' = deadb k s) as D' by (unfold deadb; by rewrite D).
  constructor; try done; rewrite ?D, ?D', ?Q2, ?Q3, ?Q4; try done.
  - intros d p H. destruct (n_down d p H) as (nd & H1 & H2). destruct (U d nd H1) as (nd' & H3 & H4). exists nd'. by rewrite H4.
  - lia.
  - intros A. specialize (n_snd A). lia.
  - auto.
  - intros A. specialize (n_rcv A). lia.
Qed.
Definition nrel (n n' : node) : Prop :=
  final n' = final n /\ down n ⊆ down n' /\ (empty_q n = false -> empty_q n' = false) /\ (closeq n = true -> closeq n' = true).
Lemma nrel_refl n : nrel n n.
Proof. done. Qed.
Definition js_rest (p : pc) : list (nat * nat) := match p with JSend _ r => r | _ => [] end.
Lemma jinv_keep s s' k p : jinv s k p -> dead s' = dead s ->
  (forall j n, nodes s !! j = Some n -> exists n', nodes s' !! j = Some n' /\ (j = k -> nrel n n')) ->
  (forall e, e ∈ js_rest p -> port s e = 0 -> port s' e = 0) -> jinv s' k p.
Proof.
  intros (n & Hn & J) D N P. destruct (N k n Hn) as (n' & Hn' & R). destruct (R eq_refl) as (F & Dn & E & C).
  assert (forall j, is_Some (nodes s !! j) -> is_Some (nodes s' !! j)) as S.
  { intros j [nj Hj]. destruct (N j nj Hj) as (nj' & Hj' & _). by eexists. }
  assert (deadb k s' = deadb k s) as D' by (unfold deadb; by rewrite D).
  exists n'. split; [done|]. destruct p; rewrite ?F, ?D', ?D; try done.
  - destruct J as [J1 J2]. split; [|done]. eapply Forall_impl; [done|]. intros x Hx. by apply S.
  - destruct J as (J1 & J2 & J3 & J4). repeat split; try done; try (by apply J4). etrans; done.
  - destruct J as (J1 & J2 & J3 & J4). repeat split; try done. { etrans; done. } intros e He. by apply P; [|apply J4].
  - destruct J as (J1 & J2). split; [done|]. intros e He. by apply S, J2.
Qed.
Lemma inv_frame s s' i n n' : inv s -> nodes s !! i = Some n -> nodes s' = <[i := n']> (nodes s) -> ups n' = ups n -> dead s' = dead s ->
  (forall k, k <> i -> same s s' k) -> (upsp s s' -> ninv s' i n') -> (forall t k p, jobs s' !! t = Some (k, p) -> jinv s' k p) ->
  (forall j, j ∈ snd_h s' -> j ∈ snd_h s) -> (forall j b, (j, b) ∈ rcv_h s' -> exists b', (j, b') ∈ rcv_h s) ->
  (forall j, PRecv j ∈ pends s' \/ PSend j ∈ pends s' -> j = i \/ PRecv j ∈ pends s \/ PSend j ∈ pends s) -> inv s'.
Proof.
  intros I Hn E Hu D Q N J S R P.
  assert (upsp s s') as U.
  { intros d nd Hd. rewrite E. destruct (decide (i = d)) as [->|Ne].
    - exists n'. rewrite list_lookup_insert by (by eapply lookup_lt_Some). split; [done|]. congruence.
    - exists nd. by rewrite list_lookup_insert_ne. }
  assert (forall j, is_Some (nodes s !! j) -> is_Some (nodes s' !! j)) as X.
  { intros j [nj Hj]. destruct (U j nj Hj) as (nj' & Hj' & _). by eexists. }
  constructor.
  - intros k nk Hk. rewrite E in Hk. destruct (decide (i = k)) as [->|Ne].
    + rewrite list_lookup_insert in Hk by (by eapply lookup_lt_Some). injection Hk as <-. auto.
    + rewrite list_lookup_insert_ne in Hk by done. eapply ninv_keep; eauto. by apply I.
  - done.
  - intros j Hj. apply S, (i_snd s I) in Hj as (nj & H1 & H2). destruct (U j nj H1) as (nj' & H3 & H4). exists nj'. by rewrite H4.
  - intros j b Hj. apply R in Hj as [b' Hj]. by eapply X, (i_rcv s I).
  - intros j Hj. apply X. apply P in Hj as [->|Hj]; [by eexists|by apply (i_pend s I)].
Qed.

(** ** one process at a time *)
Ltac dq := match goal with H : _ /\ _ |- _ => destruct H end.
(** enqueue *)
Definition enq (p : nat) (m : msg) (n : node) : node :=
  with_running (running n || ((rcount n =? 0) && negb (running n))) (with_que (q_append p m (que n)) n).
Lemma ninv_enq s s' d n p m : ninv s d n -> upsp s s' -> dead s' = dead s ->
  own s' d <= own s d + b2n ((rcount n =? 0) && negb (running n)) -> bc s' d = bc s d -> credit s' d = credit s d ->
  npend s' d = npend s d -> sndc s' d <= sndc s d -> nrcv s' d <= nrcv s d -> (PRecv d ∈ pends s -> PRecv d ∈ pends s') ->
  0 < scount n -> (forall u, ups n !! p = Some (Some u) -> plen (que n) p = 0) -> ninv s' d (enq p m n).
Proof.
  intros [] U D Q1 Q2 Q3 Q4 Q5 Q6 Q7 Sc Pl. assert (deadb d s' = deadb d s) as D' by (unfold deadb; by rewrite D).
  constructor; simpl; try done; rewrite ?D, ?D', ?Q2, ?Q3, ?Q4; try done.
  - by rewrite alter_length.
  - intros d' p' H. destruct (n_down d' p' H) as (nd & H1 & H2). destruct (U d' nd H1) as (nd' & H3 & H4). exists nd'. by rewrite H4.
  - destruct (running n), (rcount n =? 0); simpl in *; lia.
  - intros p' u c Hu. change (alter (λ c, c ++ [m]) p (qs (que n))) with (qs (q_append p m (que n))). rewrite append_lookup.
    destruct (qs (que n) !! p') as [c'|] eqn:Hc; [|done]. simpl. intros [= <-]. destruct (Nat.eqb_spec p p') as [->|]; [|by eauto].
    specialize (Pl u Hu). unfold plen in Pl. rewrite Hc in Pl. rewrite app_length. simpl. lia.
  - intros F. rewrite F in n_close. destruct (scount n); [lia|]. simpl in n_close. lia.
  - intros A. specialize (n_snd A). lia.
  - intros ->. destruct (running n); done.
  - intros A. specialize (n_rcv A). lia.
Qed.
(** clear_to_send *)
Definition cleared (n : node) : node :=
  let k := pred (susp n) in let do_run := (k =? 0) && (negb (empty_q n) || closeq n) in
  with_running (if k =? 0 then (do_run && running n) else running n) (with_susp k n).
Definition cl_run (n : node) : bool := (pred (susp n) =? 0) && (negb (empty_q n) || closeq n).
Lemma ninv_clear s s' d n : ninv s d n -> upsp s s' -> dead s' = dead s ->
  own s' d <= own s d + b2n (cl_run n) -> bc s' d <= bc s d -> S (credit s' d + bc s' d) = credit s d + bc s d ->
  npend s' d = npend s d -> sndc s' d <= sndc s d -> nrcv s' d <= nrcv s d -> (PRecv d ∈ pends s -> PRecv d ∈ pends s') ->
  ninv s' d (cleared n).
Proof.
  intros [] U D Q1 Q2 Q3 Q4 Q5 Q6 Q7. assert (deadb d s' = deadb d s) as D' by (unfold deadb; by rewrite D).
  assert (0 < susp n) as Hs by lia. assert (own s d = 0 /\ running n = true) as [O R].
  { destruct (susp n =? 0) eqn:E; [apply Nat.eqb_eq in E; lia|]. destruct (running n); simpl in n_own; split; try done; lia. }
  unfold cl_run in Q1. unfold cleared. rewrite R, andb_true_r.
  constructor; simpl; try done; rewrite ?D, ?D', ?Q4; try done.
  - intros d' p' H. destruct (n_down d' p' H) as (nd & H1 & H2). destruct (U d' nd H1) as (nd' & H3 & H4). exists nd'. by rewrite H4.
  - rewrite O in Q1. destruct (pred (susp n) =? 0) eqn:E; simpl in *.
    + destruct (negb (empty_q n) || closeq n); simpl in *; lia.
    + lia.
  - lia.
  - lia.
  - intros A. specialize (n_exact A). lia.
  - intros F. destruct (n_final F). lia.
  - intros A. specialize (n_snd A). lia.
  - intros A B C. destruct (pred (susp n) =? 0) eqn:E; [|done]. simpl in B. change (empty_q n = false ∨ closeq n = true) in C.
    destruct C as [C|C]; rewrite C in B; simpl in B; [done|]. by rewrite orb_true_r in B.
  - intros A. specialize (n_rcv A). lia.
Qed.
(** remove_sender *)
Lemma ninv_rms s s' d n k : ninv s d n -> upsp s s' -> dead s' = dead s -> scount n = S k -> deadb d s = false ->
  own s' d <= own s d -> bc s' d = bc s d -> credit s' d = credit s d -> npend s' d = npend s d + b2n (k =? 0) ->
  S (sndc s' d) <= sndc s d -> nrcv s' d <= nrcv s d -> (PRecv d ∈ pends s -> PRecv d ∈ pends s') -> ninv s' d (with_scount k n).
Proof.
  intros [] U D Sk Al Q1 Q2 Q3 Q4 Q5 Q6 Q7. assert (deadb d s' = deadb d s) as D' by (unfold deadb; by rewrite D).
  constructor; simpl; try done; rewrite ?D, ?D', ?Q2, ?Q3, ?Q4; try done.
  - intros d' p' H. destruct (n_down d' p' H) as (nd & H1 & H2). destruct (U d' nd H1) as (nd' & H3 & H4). exists nd'. by rewrite H4.
  - lia.
  - rewrite Sk in n_close. simpl in n_close. lia.
  - intros A. specialize (n_snd A). lia.
  - intros A B C. auto.
  - intros A. specialize (n_rcv A). lia.
Qed.
Lemma ninv_ads s s' d n : ninv s d n -> upsp s s' -> dead s' = dead s -> 0 < scount n ->
  own s' d = own s d -> bc s' d = bc s d -> credit s' d = credit s d -> npend s' d = npend s d ->
  sndc s' d <= S (sndc s d) -> nrcv s' d = nrcv s d -> pends s' = pends s -> ninv s' d (with_scount (S (scount n)) n).
Proof.
  intros [] U D Sk Q1 Q2 Q3 Q4 Q5 Q6 Q7. assert (deadb d s' = deadb d s) as D' by (unfold deadb; by rewrite D).
  constructor; simpl; try done; rewrite ?D, ?D', ?Q1, ?Q2, ?Q3, ?Q4, ?Q6, ?Q7; try done.
  - intros d' p' H. destruct (n_down d' p' H) as (nd & H1 & H2). destruct (U d' nd H1) as (nd' & H3 & H4). exists nd'. by rewrite H4.
  - destruct (scount n); [lia|]. simpl in n_close. lia.
  - intros A. specialize (n_snd A). lia.
Qed.
(** remove_receiver, add_receiver *)
Lemma ninv_rcv s s' d n k : ninv s d n -> upsp s s' -> dead s' = dead s ->
  own s' d = own s d -> bc s' d = bc s d -> credit s' d = credit s d -> npend s' d = npend s d ->
  sndc s' d = sndc s d -> nrcv s' d <= k -> rvoid n = false -> (PRecv d ∈ pends s -> PRecv d ∈ pends s') -> (k = 0 -> PRecv d ∈ pends s') ->
  ninv s' d (with_rcount k n).
Proof.
  intros [] U D Q1 Q2 Q3 Q4 Q5 Q6 V Q7 Q8. assert (deadb d s' = deadb d s) as D' by (unfold deadb; by rewrite D).
  constructor; simpl; try done; rewrite ?D, ?D', ?Q1, ?Q2, ?Q3, ?Q4, ?Q5; try done; [|auto|congruence].
  intros d' p' H. destruct (n_down d' p' H) as (nd & H1 & H2). destruct (U d' nd H1) as (nd' & H3 & H4). exists nd'. by rewrite H4.
Qed.

(** ** jobs *)
Lemma jobs_all s s' t i p js : jobs s' = <[t := (i, p)]> (jobs s ++ js) -> t < length (jobs s) ->
  (forall t' k p', jobs s !! t' = Some (k, p') -> t' <> t -> jinv s' k p') -> jinv s' i p -> (forall k p', (k, p') ∈ js -> jinv s' k p') ->
  forall t' k p', jobs s' !! t' = Some (k, p') -> jinv s' k p'.
Proof.
  intros E Ht A B C t' k p' H. rewrite E in H. apply list_lookup_insert_Some in H as [(-> & [= <- <-] & _)|(N & H)]; [done|].
  apply lookup_app_Some in H as [H|[_ H]]; [eauto|]. apply C. by eapply elem_of_list_lookup_2.
Qed.
Lemma jobs_all_end s s' t js : jobs s' = delete t (jobs s ++ js) -> t < length (jobs s) ->
  (forall t' k p', jobs s !! t' = Some (k, p') -> t' <> t -> jinv s' k p') -> (forall k p', (k, p') ∈ js -> jinv s' k p') ->
  forall t' k p', jobs s' !! t' = Some (k, p') -> jinv s' k p'.
Proof.
  intros E Ht A C t' k p' H. rewrite E in H.
  assert (exists t'', t'' <> t /\ (jobs s ++ js) !! t'' = Some (k, p')) as (t'' & N & H').
  { destruct (decide (t' < t)) as [L|L].
    - exists t'. rewrite lookup_delete_lt in H by done. split; [lia|done].
    - exists (S t'). rewrite lookup_delete_ge in H by lia. split; [lia|done]. }
  apply lookup_app_Some in H' as [H'|[_ H']]; [eauto|]. apply C. by eapply elem_of_list_lookup_2.
Qed.
Lemma jobs_all_run s s' js : jobs s' = jobs s ++ js ->
  (forall t' k p', jobs s !! t' = Some (k, p') -> jinv s' k p') -> (forall k p', (k, p') ∈ js -> jinv s' k p') ->
  forall t' k p', jobs s' !! t' = Some (k, p') -> jinv s' k p'.
Proof.
  intros E A C t' k p' H. rewrite E in H. apply lookup_app_Some in H as [H|[_ H]]; [eauto|]. apply C. by eapply elem_of_list_lookup_2.
Qed.
(** the others keep their invariant when node i becomes n' *)
Lemma jinv_other s s' i n n' k p : jinv s k p -> nodes s !! i = Some n -> nodes s' = <[i := n']> (nodes s) -> dead s' = dead s ->
  (i = k -> nrel n n') -> (forall e, e ∈ js_rest p -> e.1 = i -> plen (que n) e.2 = 0 -> plen (que n') e.2 = 0) -> jinv s' k p.
Proof.
  intros J Hn E D R P. assert (i < length (nodes s)) as L by (by eapply lookup_lt_Some). apply (jinv_keep s); try done.
  - intros j nj Hj. rewrite E. destruct (decide (i = j)) as [->|N].
    + exists n'. rewrite list_lookup_insert by done. split; [done|]. intros ->. replace nj with n by congruence. by apply R.
    + exists nj. by rewrite list_lookup_insert_ne.
  - intros e He. unfold port. rewrite E. destruct (decide (i = e.1)) as [->|N].
    + rewrite list_lookup_insert by done. rewrite Hn. by apply P.
    + by rewrite list_lookup_insert_ne.
Qed.
(** two jobs at once *)
Lemma own_two s i n t p t' p' : inv s -> nodes s !! i = Some n -> jobs s !! t = Some (i, p) -> jobs s !! t' = Some (i, p') -> t <> t' ->
  own_pc p = 1 -> own_pc p' = 1 \/ bc_pc p' = 1 -> False.
Proof.
  intros I Hn H1 H2 N O O'. destruct (i_node s I i n Hn). pose proof (sumf_two (ownf i) _ _ _ _ _ H1 H2 N) as X.
  unfold ownf in X at 1 2. simpl in X. rewrite Nat.eqb_refl, O in X.
  pose proof (sumf_lookup (bcf i) _ _ _ H2) as Y. unfold bcf in Y at 1. simpl in Y. rewrite Nat.eqb_refl in Y.
  unfold own in *. unfold bc in *. destruct O' as [O'|O']; rewrite O' in *.
  - destruct (running n); simpl in *; lia.
  - destruct (susp n); simpl in *; [lia|]. destruct (running n); simpl in *; lia.
Qed.
Lemma own_zero s i n t p : inv s -> nodes s !! i = Some n -> jobs s !! t = Some (i, p) -> own_pc p = 1 -> own s i = 1 /\ susp n = 0 /\ running n = true /\ credit s i = 0 /\ bc s i = 0.
Proof.
  intros I Hn H1 O. destruct (i_node s I i n Hn). pose proof (sumf_lookup (ownf i) _ _ _ H1) as X. unfold ownf in X at 1. simpl in X.
  rewrite Nat.eqb_refl, O in X. unfold own in *. destruct (running n), (susp n); simpl in *; try lia.
Qed.
Lemma same_refl s k : same s s k.
Proof. by unfold same. Qed.
Lemma inv_frame0 s s' : inv s -> nodes s' = nodes s -> dead s' = dead s -> (forall k, same s s' k) ->
  (forall t k p, jobs s' !! t = Some (k, p) -> jinv s' k p) ->
  (forall j, j ∈ snd_h s' -> j ∈ snd_h s) -> (forall j b, (j, b) ∈ rcv_h s' -> exists b', (j, b') ∈ rcv_h s) ->
  (forall j, PRecv j ∈ pends s' \/ PSend j ∈ pends s' -> PRecv j ∈ pends s \/ PSend j ∈ pends s) -> inv s'.
Proof.
  intros I E D Q J S R P.
  assert (upsp s s') as U by (intros d nd Hd; exists nd; by rewrite E).
  constructor.
  - intros k nk Hk. rewrite E in Hk. eapply ninv_keep; eauto. by apply I.
  - done.
  - intros j Hj. rewrite E. apply S, (i_snd s I) in Hj. done.
  - intros j b Hj. rewrite E. apply R in Hj as [b' Hj]. by eapply (i_rcv s I).
  - intros j Hj. rewrite E. apply P in Hj. by apply (i_pend s I).
Qed.
Lemma jinv_same s s' k p : jinv s k p -> nodes s' = nodes s -> dead s' = dead s -> jinv s' k p.
Proof.
  intros J E D. apply (jinv_keep s); try done.
  - intros j n Hj. exists n. rewrite E. split; [done|]. intros _. apply nrel_refl.
  - intros e _. unfold port. by rewrite E.
Qed.
Ltac fq := unfold ownf, bcf, cjob, clrf in *; cbn [fst snd own_pc bc_pc dead] in *.
Ltac sames := unfold same; repeat match goal with |- _ /\ _ => split end; try lia; try done.

(** a job that only moves on *)
Lemma st_move s t i p p' : inv s -> jobs s !! t = Some (i, p) -> own_pc p' <= own_pc p -> bc_pc p' = bc_pc p ->
  (forall k, cjob (dead s) k (i, p') = cjob (dead s) k (i, p)) -> (forall k, clrf k (i, p') <= clrf k (i, p)) ->
  (jinv s i p -> jinv (set_job t i p' s) i p') -> inv (set_job t i p' s).
Proof.
  intros I Ht O B C L J. apply (inv_frame0 s); try done; try (intros; by eauto).
  - intros k. pose proof (q_job s k t _ (i, p') Ht) as Q. specialize (C k). specialize (L k). simpl in Q. repeat dq. unfold set_job. rewrite C in *.
    unfold ownf, bcf in *. simpl in *. sames; destruct (i =? k); lia.
  - apply (jobs_all s _ t i p' []); [by rewrite app_nil_r|by eapply lookup_lt_Some| | |].
    + intros t' k q H _. apply (jinv_same s); try done. by eapply (i_job s I).
    + apply J. by eapply (i_job s I).
    + intros k q H. by apply elem_of_nil in H.
Qed.
Lemma st_end s t i p : inv s -> jobs s !! t = Some (i, p) -> bc_pc p = 0 -> (forall k, cjob (dead s) k (i, p) = 0) -> inv (end_job t s).
Proof.
  intros I Ht B C. apply (inv_frame0 s); try done; try (intros; by eauto).
  - intros k. pose proof (q_end s k t _ Ht) as Q. specialize (C k). simpl in Q. repeat dq. rewrite C in *.
    unfold ownf, bcf in *. simpl in *. sames; destruct (i =? k); lia.
  - apply (jobs_all_end s _ t []); [by rewrite app_nil_r|by eapply lookup_lt_Some| |].
    + intros t' k q H _. apply (jinv_same s); try done. by eapply (i_job s I).
    + intros k q H. by apply elem_of_nil in H.
Qed.
(** JPend *)
(** nothing but the node changes *)
Definition equal (s s' : st) (k : nat) : Prop :=
  own s' k = own s k /\ bc s' k = bc s k /\ credit s' k = credit s k /\ npend s' k = npend s k /\ sndc s' k = sndc s k /\
  nrcv s' k = nrcv s k /\ pends s' = pends s.
Lemma equal_same s s' k : equal s s' k -> same s s' k.
Proof. intros (? & ? & ? & ? & ? & ? & E). unfold same. rewrite E. repeat split; try lia. done. Qed.
Lemma take_plen st q ms q' p : taken st q ms q' -> plen q' p <= plen q p.
Proof.
  intros Tk. unfold plen. destruct st.
  1,3,4: destruct Tk as (p0 & m & c & H1 & _ & -> & _); destruct (decide (p0 = p)) as [->|N];
        [rewrite list_lookup_insert by (by eapply lookup_lt_Some); rewrite H1; simpl; lia|by rewrite list_lookup_insert_ne].
  destruct Tk as (_ & L & Tk). destruct (qs q' !! p) as [c'|] eqn:Hc; [|lia]. apply lookup_lt_Some in Hc as Lp.
  destruct (Tk p) as (m & c & H1 & _ & H2); [lia|]. rewrite H1. rewrite Hc in H2. injection H2 as ->. simpl. lia.
Qed.
Lemma ninv_take s s' i n ms q' : ninv s i n -> upsp s s' -> dead s' = dead s -> equal s s' i -> taken (strat n) (que n) ms q' ->
  final n = false -> running n = true -> ninv s' i (with_que q' n).
Proof.
  intros [] U D (Q1 & Q2 & Q3 & Q4 & Q5 & Q6 & Q7) T Fi Ru. assert (deadb i s' = deadb i s) as D' by (unfold deadb; by rewrite D).
  constructor; simpl; try done; rewrite ?D, ?D', ?Q1, ?Q2, ?Q3, ?Q4, ?Q5, ?Q6, ?Q7; try done.
  - by rewrite (taken_length _ _ _ _ T).
  - intros d' p' H'. destruct (n_down d' p' H') as (nd & H1' & H2'). destruct (U d' nd H1') as (nd' & H3 & H4). exists nd'. by rewrite H4.
  - intros p u c Hu Hc. pose proof (take_plen _ _ _ _ p T) as Pl. unfold plen in Pl. rewrite Hc in Pl.
    destruct (qs (que n) !! p) as [c0|] eqn:H0; [|lia]. specialize (n_port p u c0 Hu H0). lia.
  - congruence.
  - congruence.
Qed.
Lemma pop_others s s' t i n n' p : inv s -> nodes s !! i = Some n -> jobs s !! t = Some (i, JPend) -> final n = false ->
  nodes s' = <[i := n']> (nodes s) -> dead s' = dead s -> (forall p, plen (que n') p <= plen (que n) p) ->
  forall t' k, jobs s !! t' = Some (k, p) -> t' <> t -> jinv s' k p.
Proof.
  intros I Hn Ht Fi E D Pl t' k H N. pose proof (i_job s I _ _ _ H) as J. eapply (jinv_other s _ i n n'); try done.
  - intros <-. exfalso. destruct J as (n0 & Hn0 & J). replace n0 with n in * by congruence.
    assert (own_pc p = 1 \/ bc_pc p = 1) as O.
    { destruct p; simpl; auto; exfalso; [|destruct J as [J _]]; congruence. }
    by eapply (own_two s i n t JPend t' p).
  - intros e _ _ Z. specialize (Pl (snd e)). lia.
Qed.
Lemma st_take s t i n ms q' : inv s -> nodes s !! i = Some n -> jobs s !! t = Some (i, JPend) ->
  q_take (strat n) (que n) = Some (ms, q') ->
  inv (set_job t i (JCts (do_cts n q') false (Some ms)) (set_node i (with_que q' n) s)).
Proof.
  intros I Hn Ht T. destruct (own_zero _ _ _ _ _ I Hn Ht eq_refl) as (O & Su & Ru & Cr & Bc).
  pose proof (i_node s I i n Hn) as Ni. set (n' := with_que q' n) in *.
  assert (forall k, cnt k (do_cts n q') + cnode k n' = cnode k n) as Ct. { intros k. apply (cnode_take k n ms q'); try apply Ni. done. }
  assert (final n = false) as Fi.
  { destruct (final n) eqn:F; [|done]. destruct (n_final _ _ _ Ni F) as [E _]. unfold q_take in T. unfold empty_q in E. by rewrite E in T. }
  pose proof (take_spec _ _ _ _ T) as Tk.
  assert (forall p, plen (que n') p <= plen (que n) p) as Pl by (intros p; by apply (take_plen (strat n) _ ms)).
  set (s' := set_job t i (JCts (do_cts n q') false (Some ms)) (set_node i n' s)).
  assert (forall k, equal s s' k) as Q.
  { intros k. pose proof (q_node s k i n n' Hn) as Q1. pose proof (q_job (set_node i n' s) k t _ (i, JCts (do_cts n q') false (Some ms)) Ht) as Q2.
    simpl in Q2. specialize (Ct k). repeat dq. fq. unfold s', set_job. simpl. unfold downf in *. simpl in *. unfold equal. simpl. destruct (i =? k); repeat split; lia. }
  apply (inv_frame s _ i n n'); try done; try (intros; by eauto).
  - intros k _. by apply equal_same.
  - intros U. by eapply ninv_take.
  - apply (jobs_all s _ t i (JCts (do_cts n q') false (Some ms)) []); [by rewrite app_nil_r|by eapply lookup_lt_Some| | |].
    + intros t' k q H N. by eapply (pop_others s s' t i n n').
    + exists n'. simpl. rewrite list_lookup_insert by (by eapply lookup_lt_Some). split; [done|]. split; [|done].
      apply Forall_forall. intros u Hu.
      assert (u < i) as Lu.
      { unfold do_cts in Hu. apply elem_of_list_omap in Hu as ([v z] & Hv & Eq). destruct (z <=? _)%Z; [|done]. subst v.
        apply elem_of_zip_l in Hv. apply elem_of_list_lookup in Hv as [p Hp]. by eapply (n_ups s i n Ni). }
      rewrite list_lookup_insert_ne by lia. apply lookup_lt_is_Some. apply lookup_lt_Some in Hn. lia.
    + intros k q H. by apply elem_of_nil in H.
Qed.
Lemma st_done s t i n : inv s -> nodes s !! i = Some n -> jobs s !! t = Some (i, JPend) -> empty_q n = true ->
  inv (set_job t i (JCts [] false None) (set_node i (with_close false (closeq n) n) s)).
Proof.
  intros I Hn Ht Em. destruct (own_zero _ _ _ _ _ I Hn Ht eq_refl) as (O & Su & Ru & Cr & Bc).
  pose proof (i_node s I i n Hn) as Ni. set (n' := with_close false (closeq n) n) in *.
  assert (final n = false) as Fi.
  { destruct (i_job s I _ _ _ Ht) as (n0 & Hn0 & J). congruence. }
  set (s' := set_job t i (JCts [] false None) (set_node i n' s)).
  assert (forall k, equal s s' k) as Q.
  { intros k. pose proof (q_node s k i n n' Hn) as Q1. pose proof (q_job (set_node i n' s) k t _ (i, JCts [] false None) Ht) as Q2.
    simpl in Q2. change (cnode k n') with (cnode k n) in *. repeat dq. fq. unfold s', set_job. simpl. unfold downf, cnt in *. simpl in *. unfold equal. simpl. destruct (i =? k); repeat split; lia. }
  apply (inv_frame s _ i n n'); try done; try (intros; by eauto).
  - intros k _. by apply equal_same.
  - intros U. destruct Ni. destruct (Q i) as (Q1 & Q2 & Q3 & Q4 & Q5 & Q6 & Q7).
    constructor; simpl; try done; rewrite ?Q1, ?Q2, ?Q3, ?Q4, ?Q5, ?Q6, ?Q7; try done.
    + intros d' p' H'. destruct (n_down d' p' H') as (nd & H1' & H2'). destruct (U d' nd H1') as (nd' & H3 & H4). exists nd'. by rewrite H4.
    + rewrite Fi in *. simpl in *. destruct (closeq n); simpl in *; lia.
    + congruence.
    + intros A. specialize (n_proc A). congruence.
  - apply (jobs_all s _ t i (JCts [] false None) []); [by rewrite app_nil_r|by eapply lookup_lt_Some| | |].
    + intros t' k q H N. by eapply (pop_others s s' t i n n').
    + exists n'. simpl. rewrite list_lookup_insert by (by eapply lookup_lt_Some). split; [done|]. done.
    + intros k q H. by apply elem_of_nil in H.
Qed.
(** clear_to_send *)
Lemma nrel_cleared n : nrel n (cleared n).
Proof. done. Qed.
Lemma lookup_set (l : list node) i n n' : l !! i = Some n -> <[i := n']> l !! i = Some n'.
Proof. intros H. apply list_lookup_insert. by eapply lookup_lt_Some. Qed.
Lemma jinv_run s i n : nodes s !! i = Some n -> final n = false -> jinv s i JPend.
Proof. intros H E. exists n. auto. Qed.
Lemma nonfinal s i n : ninv s i n -> empty_q n = false \/ closeq n = true -> final n = false.
Proof.
  intros Ni [E|E]; destruct (final n) eqn:F; try done.
  - destruct (n_final _ _ _ Ni F). congruence.
  - pose proof (n_close _ _ _ Ni) as C. rewrite E, F in C. destruct (scount n =? 0); simpl in C; lia.
Qed.
Lemma cl_run_true n : cl_run n = true -> empty_q n = false \/ closeq n = true.
Proof. unfold cl_run. intros H. apply andb_true_iff in H as [_ H]. apply orb_true_iff in H as [H|H]; [left; by apply negb_true_iff|by right]. Qed.
Lemma st_cts s t i u todo m nu : inv s -> nodes s !! u = Some nu -> jobs s !! t = Some (i, JCts (u :: todo) true m) ->
  inv (set_job t i (JCts todo false m) (run_if (cl_run nu) u (set_node u (cleared nu) s))).
Proof.
  intros I Hu Ht. set (s0 := set_node u (cleared nu) s). set (s1 := run_if (cl_run nu) u s0). set (j' := JCts todo false m). set (s' := set_job t i j' s1).
  assert (jobs s1 !! t = Some (i, JCts (u :: todo) true m)) as Ht1 by (unfold s1; rewrite run_jobs; by apply lookup_app_l_Some).
  assert (dead s' = dead s) as D by (unfold s', s1; simpl; by rewrite run_dead).
  assert (nodes s' = <[u := cleared nu]> (nodes s)) as E by (unfold s', s1; simpl; by rewrite run_nodes).
  assert (pends s' = pends s) as P by (unfold s', s1; simpl; by rewrite run_pends).
  assert (snd_h s' = snd_h s) as PS by (unfold s', s1; simpl; by rewrite run_snd).
  assert (rcv_h s' = rcv_h s) as PR by (unfold s', s1; simpl; by rewrite run_rcv).
  assert (jobs s' = <[t := (i, j')]> (jobs s ++ (if cl_run nu then [(u, JPend)] else []))) as PJ by (unfold s', s1; simpl; by rewrite run_jobs).
  assert (forall k, own s' k = own s k + b2n (cl_run nu && (u =? k)) /\ bc s' k = bc s k /\ credit s' k + b2n (u =? k) = credit s k /\
    npend s' k = npend s k /\ sndc s' k = sndc s k /\ nrcv s' k = nrcv s k) as Q.
  { intros k. pose proof (q_node s k u nu (cleared nu) Hu) as Q1. pose proof (q_run s0 k (cl_run nu) u) as Q2.
    pose proof (q_job s1 k t _ (i, j') Ht1) as Q3. simpl in Q2, Q3. change (cnode k (cleared nu)) with (cnode k nu) in *.
    change (downf k (cleared nu)) with (downf k nu) in *. fold s0 in Q1. fold s1 in Q2. change (set_jobs (<[t := (i, j')]> (jobs s1)) s1) with s' in Q3.
    repeat dq. fq. unfold cnt in *. simpl in *. destruct (i =? k), (u =? k); simpl in *; lia. }
  clearbody s'. apply (inv_frame s _ u nu (cleared nu)); try done.
  - intros k N. destruct (Q k) as (Q1 & Q2 & Q3 & Q4 & Q5 & Q6). rewrite (proj2 (Nat.eqb_neq u k)) in * by done. rewrite andb_false_r in *. simpl in *.
    unfold same. rewrite P. repeat split; try lia. done.
  - intros U. destruct (Q u) as (Q1 & Q2 & Q3 & Q4 & Q5 & Q6). rewrite Nat.eqb_refl, ?andb_true_r in *. simpl in *.
    apply (ninv_clear s); rewrite ?P; try done; try lia. by apply I.
  - apply (jobs_all s _ t i j' (if cl_run nu then [(u, JPend)] else [])).
    + done.
    + by eapply lookup_lt_Some.
    + intros t' k p H _. eapply (jinv_other s _ u nu (cleared nu)); try done. by eapply (i_job s I).
    + apply (i_job s I) in Ht as (n & Hn & F & J). unfold jinv. rewrite E. assert (forall j, is_Some (nodes s !! j) -> is_Some (<[u := cleared nu]> (nodes s) !! j)) as X.
      { intros j Hj. apply lookup_lt_is_Some. rewrite insert_length. by apply lookup_lt_is_Some. }
      apply Forall_cons in F as [_ F]. destruct (decide (u = i)) as [->|N].
      * exists (cleared nu). rewrite (lookup_set _ _ _ _ Hu). replace n with nu in * by congruence. split; [done|]. split.
        { eapply Forall_impl; [done|]. by apply X. } by destruct m.
      * exists n. rewrite list_lookup_insert_ne by done. split; [done|]. split. { eapply Forall_impl; [done|]. by apply X. }
        by destruct m.
    + intros k p H. destruct (cl_run nu) eqn:R; [|by apply elem_of_nil in H]. apply elem_of_list_singleton in H. injection H as -> ->.
      eapply (jinv_run _ _ (cleared nu)); [rewrite E; by eapply lookup_set|]. exact (nonfinal _ _ _ (i_node s I _ _ Hu) (cl_run_true nu R)).
  - by rewrite PS.
  - rewrite PR. eauto.
  - intros j. rewrite P. auto.
Qed.
Lemma st_self s t i n : inv s -> nodes s !! i = Some n -> jobs s !! t = Some (i, JSelf true) ->
  inv (end_job t (run_if (cl_run n) i (set_node i (cleared n) s))).
Proof.
  intros I Hu Ht. set (s0 := set_node i (cleared n) s). set (s1 := run_if (cl_run n) i s0). set (s' := end_job t s1).
  assert (jobs s1 !! t = Some (i, JSelf true)) as Ht1 by (unfold s1; rewrite run_jobs; by apply lookup_app_l_Some).
  assert (dead s' = dead s) as D by (unfold s', s1; simpl; by rewrite run_dead).
  assert (nodes s' = <[i := cleared n]> (nodes s)) as E by (unfold s', s1; simpl; by rewrite run_nodes).
  assert (pends s' = pends s) as P by (unfold s', s1; simpl; by rewrite run_pends).
  assert (snd_h s' = snd_h s) as PS by (unfold s', s1; simpl; by rewrite run_snd).
  assert (rcv_h s' = rcv_h s) as PR by (unfold s', s1; simpl; by rewrite run_rcv).
  assert (jobs s' = delete t (jobs s ++ (if cl_run n then [(i, JPend)] else []))) as PJ by (unfold s', s1; simpl; by rewrite run_jobs).
  assert (forall k, own s' k = own s k + b2n (cl_run n && (i =? k)) /\ bc s' k + b2n (i =? k) = bc s k /\ credit s' k = credit s k /\
    npend s' k = npend s k /\ sndc s' k = sndc s k /\ nrcv s' k = nrcv s k) as Q.
  { intros k. pose proof (q_node s k i n (cleared n) Hu) as Q1. pose proof (q_run s0 k (cl_run n) i) as Q2.
    pose proof (q_end s1 k t _ Ht1) as Q3. simpl in Q2, Q3. change (cnode k (cleared n)) with (cnode k n) in *.
    change (downf k (cleared n)) with (downf k n) in *. fold s0 in Q1. fold s1 in Q2. fold s' in Q3.
    repeat dq. fq. simpl in *. destruct (i =? k); simpl in *; lia. }
  clearbody s'. apply (inv_frame s _ i n (cleared n)); try done.
  - intros k N. destruct (Q k) as (Q1 & Q2 & Q3 & Q4 & Q5 & Q6). rewrite (proj2 (Nat.eqb_neq i k)) in * by done. rewrite andb_false_r in *. simpl in *.
    unfold same. rewrite P. repeat split; try lia. done.
  - intros U. destruct (Q i) as (Q1 & Q2 & Q3 & Q4 & Q5 & Q6). rewrite Nat.eqb_refl, ?andb_true_r in *. simpl in *.
    apply (ninv_clear s); rewrite ?P; try done; try lia. by apply I.
  - apply (jobs_all_end s _ t (if cl_run n then [(i, JPend)] else [])).
    + done.
    + by eapply lookup_lt_Some.
    + intros t' k p H _. eapply (jinv_other s _ i n (cleared n)); try done. by eapply (i_job s I).
    + intros k p H. destruct (cl_run n) eqn:R; [|by apply elem_of_nil in H]. apply elem_of_list_singleton in H. injection H as -> ->.
      eapply (jinv_run _ _ (cleared n)); [rewrite E; by eapply lookup_set|]. exact (nonfinal _ _ _ (i_node s I _ _ Hu) (cl_run_true n R)).
  - by rewrite PS.
  - rewrite PR. eauto.
  - intros j. rewrite P. auto.
Qed.
(** JDone *)
Lemma st_jdone s t i n : inv s -> nodes s !! i = Some n -> jobs s !! t = Some (i, JDone) -> final n = true ->
  inv (set_job t i JFinal (set_node i (with_running false n) s)).
Proof.
  intros I Hn Ht Fi. destruct (own_zero _ _ _ _ _ I Hn Ht eq_refl) as (O & Su & Ru & Cr & Bc). pose proof (i_node s I i n Hn) as Ni.
  set (n' := with_running false n). set (s' := set_job t i JFinal (set_node i n' s)).
  assert (forall k, own s' k + b2n (i =? k) = own s k /\ bc s' k = bc s k /\ credit s' k = credit s k /\ npend s' k = npend s k /\ sndc s' k = sndc s k /\ nrcv s' k = nrcv s k) as Q.
  { intros k. pose proof (q_node s k i n n' Hn) as Q1. pose proof (q_job (set_node i n' s) k t _ (i, JFinal) Ht) as Q2.
    simpl in Q2. change (cnode k n') with (cnode k n) in *. change (downf k n') with (downf k n) in *. repeat dq. fq. unfold s', set_job. simpl in *. destruct (i =? k); simpl; repeat split; lia. }
  apply (inv_frame s _ i n n'); try done; try (intros; by eauto).
  - intros k N. destruct (Q k) as (Q1 & Q2 & Q3 & Q4 & Q5 & Q6). rewrite (proj2 (Nat.eqb_neq i k)) in * by done. simpl in *. unfold same. repeat split; try lia. done.
  - intros U. destruct Ni. destruct (Q i) as (Q1 & Q2 & Q3 & Q4 & Q5 & Q6). rewrite Nat.eqb_refl in Q1. simpl in Q1.
    constructor; simpl; try done; rewrite ?Q2, ?Q3, ?Q4, ?Q5, ?Q6; try done.
    + intros d' p' H'. destruct (n_down d' p' H') as (nd & H1' & H2'). destruct (U d' nd H1') as (nd' & H3 & H4). exists nd'. by rewrite H4.
    + rewrite Su. simpl. lia.
    + intros A _ [B|B]. { destruct (n_final Fi) as [C _]. unfold empty_q in *. simpl in *. congruence. }
      rewrite B, Fi in n_close. destruct (scount n =? 0); simpl in n_close; lia.
  - apply (jobs_all s _ t i JFinal []); [by rewrite app_nil_r|by eapply lookup_lt_Some| | |].
    + intros t' k q H N. eapply (jinv_other s _ i n n'); try done. by eapply (i_job s I).
    + exists n'. simpl. split; [by eapply lookup_set|]. done.
    + intros k q H. by apply elem_of_nil in H.
Qed.
Definition dn_run (n : node) : bool := negb (empty_q n) || closeq n.
Lemma st_jdone2 s t i n : inv s -> nodes s !! i = Some n -> jobs s !! t = Some (i, JDone) -> final n = false ->
  inv (run_if (dn_run n) i (end_job t (set_node i (with_running (dn_run n) n) s))).
Proof.
  intros I Hn Ht Fi. destruct (own_zero _ _ _ _ _ I Hn Ht eq_refl) as (O & Su & Ru & Cr & Bc). pose proof (i_node s I i n Hn) as Ni.
  set (n' := with_running (dn_run n) n). set (s0 := set_node i n' s). set (s1 := end_job t s0). set (s' := run_if (dn_run n) i s1).
  assert (dead s' = dead s) as D by (unfold s'; by rewrite run_dead).
  assert (nodes s' = <[i := n']> (nodes s)) as E by (unfold s'; by rewrite run_nodes).
  assert (pends s' = pends s) as P by (unfold s'; by rewrite run_pends).
  assert (snd_h s' = snd_h s) as PS by (unfold s'; by rewrite run_snd).
  assert (rcv_h s' = rcv_h s) as PR by (unfold s'; by rewrite run_rcv).
  assert (jobs s' = delete t (jobs s) ++ (if dn_run n then [(i, JPend)] else [])) as PJ by (unfold s'; by rewrite run_jobs).
  assert (forall k, own s' k + b2n (i =? k) = own s k + b2n (dn_run n && (i =? k)) /\ bc s' k = bc s k /\ credit s' k = credit s k /\
    npend s' k = npend s k /\ sndc s' k = sndc s k /\ nrcv s' k = nrcv s k) as Q.
  { intros k. pose proof (q_node s k i n n' Hn) as Q1. pose proof (q_end s0 k t _ Ht) as Q2. pose proof (q_run s1 k (dn_run n) i) as Q3.
    simpl in Q2, Q3. fold s0 in Q1. fold s1 in Q2. fold s' in Q3. change (cnode k n') with (cnode k n) in *. change (downf k n') with (downf k n) in *.
    repeat dq. fq. simpl in *. destruct (i =? k); simpl in *; repeat split; lia. }
  clearbody s'. apply (inv_frame s _ i n n'); try done.
  - intros k N. destruct (Q k) as (Q1 & Q2 & Q3 & Q4 & Q5 & Q6). rewrite (proj2 (Nat.eqb_neq i k)) in * by done. rewrite andb_false_r in *. simpl in *.
    unfold same. rewrite P. repeat split; try lia. done.
  - intros U. destruct Ni. destruct (Q i) as (Q1 & Q2 & Q3 & Q4 & Q5 & Q6). rewrite Nat.eqb_refl, andb_true_r in Q1. simpl in Q1.
    assert (deadb i s' = deadb i s) as D' by (unfold deadb; by rewrite D).
    constructor; simpl; try done; rewrite ?D, ?D', ?Q2, ?Q3, ?Q4, ?Q5, ?Q6, ?P; try done.
    + intros d' p' H'. destruct (n_down d' p' H') as (nd & H1' & H2'). destruct (U d' nd H1') as (nd' & H3 & H4). exists nd'. by rewrite H4.
    + rewrite Su. simpl. lia.
    + intros A B C. unfold dn_run in B. change (empty_q n = false ∨ closeq n = true) in C. destruct C as [C|C]; rewrite C in B; [done|by rewrite orb_true_r in B].
  - intros t' k p H. rewrite PJ in H. apply lookup_app_Some in H as [H|[_ H]].
    + assert (exists t'', jobs s !! t'' = Some (k, p)) as (t'' & H').
      { destruct (decide (t' < t)); [rewrite lookup_delete_lt in H by done|rewrite lookup_delete_ge in H by lia]; eauto. }
      eapply (jinv_other s _ i n n'); try done. by eapply (i_job s I).
    + apply elem_of_list_lookup_2 in H. destruct (dn_run n) eqn:R; [|by apply elem_of_nil in H]. apply elem_of_list_singleton in H. injection H as -> ->.
      eapply (jinv_run _ _ n'); [rewrite E; by eapply lookup_set|]. done.
  - by rewrite PS.
  - rewrite PR. eauto.
  - intros j. rewrite P. auto.
Qed.
(** JSusp *)
Lemma alive_le D l : sumf (alive D) l <= length l.
Proof. apply sumf_le_length. intros e. unfold alive. by destruct (existsb _ _); simpl; lia. Qed.
Lemma alive_nil l : sumf (alive []) l = length l.
Proof. induction l; simpl; [done|]. by rewrite IHl. Qed.
Lemma port_credit s k e n : nodes s !! e.1 = Some n -> isup k n e.2 = true -> port s e <= credit s k.
Proof.
  intros Hn Up. unfold port, credit. rewrite Hn. pose proof (sumf_lookup (cnode k) _ _ _ Hn) as X. unfold cnode in X at 1.
  assert (e.2 < length (ups n)) as L. { unfold isup in Up. destruct (ups n !! e.2) eqn:E; [|done]. by eapply lookup_lt_Some. }
  pose proof (sumf_in (fun p => if isup k n p then plen (que n) p else 0) (seq 0 (length (ups n))) e.2) as Y.
  simpl in Y. rewrite Up in Y. lapply Y; [lia|]. apply elem_of_list_In, in_seq. lia.
Qed.
Lemma st_susp s t i n o rest b : inv s -> nodes s !! i = Some n -> jobs s !! t = Some (i, JSusp o rest b) ->
  inv (set_job t i (JSend o rest) (set_node i (with_susp (if b then S (length rest) else 1) n) s)).
Proof.
  intros I Hn Ht. destruct (own_zero _ _ _ _ _ I Hn Ht eq_refl) as (O & Su & Ru & Cr & Bc). pose proof (i_node s I i n Hn) as Ni.
  destruct (i_job s I _ _ _ Ht) as (n0 & Hn0 & Fi & Nd & Sub & Db). replace n0 with n in * by congruence. clear n0 Hn0.
  set (n' := with_susp (if b then S (length rest) else 1) n). set (s' := set_job t i (JSend o rest) (set_node i n' s)).
  assert (forall k, own s' k + b2n (i =? k) = own s k /\ bc s' k = bc s k + b2n (i =? k) /\ credit s' k = credit s k + (if i =? k then sumf (alive (dead s)) rest else 0) /\
    npend s' k = npend s k /\ sndc s' k = sndc s k /\ nrcv s' k = nrcv s k) as Q.
  { intros k. pose proof (q_node s k i n n' Hn) as Q1. pose proof (q_job (set_node i n' s) k t _ (i, JSend o rest) Ht) as Q2.
    simpl in Q2. change (cnode k n') with (cnode k n) in *. change (downf k n') with (downf k n) in *. repeat dq. fq. unfold s', set_job. simpl in *. destruct (i =? k); simpl; repeat split; lia. }
  apply (inv_frame s _ i n n'); try done; try (intros; by eauto).
  - intros k N. destruct (Q k) as (Q1 & Q2 & Q3 & Q4 & Q5 & Q6). rewrite (proj2 (Nat.eqb_neq i k)) in * by done. simpl in *. unfold same. repeat split; try lia. done.
  - intros U. destruct Ni. destruct (Q i) as (Q1 & Q2 & Q3 & Q4 & Q5 & Q6). rewrite Nat.eqb_refl in *. simpl in Q1, Q2.
    pose proof (alive_le (dead s) rest) as Ale. rewrite Cr, Bc in *. constructor; simpl; try done; rewrite ?Q2, ?Q3, ?Q4, ?Q5, ?Q6; try done.
    + intros d' p' H'. destruct (n_down d' p' H') as (nd & H1' & H2'). destruct (U d' nd H1') as (nd' & H3 & H4). exists nd'. by rewrite H4.
    + rewrite Ru. destruct b; simpl; lia.
    + destruct b; [lia|]. destruct (Db eq_refl). lia.
    + intros ->. destruct b; [rewrite alive_nil; lia|]. destruct (Db eq_refl). rewrite alive_nil in *. lia.
    + intros F. congruence.
  - apply (jobs_all s _ t i (JSend o rest) []); [by rewrite app_nil_r|by eapply lookup_lt_Some| | |].
    + intros t' k q H N. eapply (jinv_other s _ i n n'); try done. by eapply (i_job s I).
    + exists n'. simpl. split; [by eapply lookup_set|]. split; [done|]. split; [done|]. split; [done|]. intros e He.
      assert (port s' e = port s e) as ->. { unfold port. simpl. destruct (decide (i = e.1)) as [<-|N]; [by rewrite (lookup_set _ _ _ _ Hn), Hn|by rewrite list_lookup_insert_ne]. }
      destruct e as [d p]. destruct (n_down _ _ _ Ni d p) as (nd & Hd & Hu); [by apply Sub|]. pose proof (port_credit s i (d, p) nd Hd) as X. unfold isup in X. simpl in X. rewrite Hu, Nat.eqb_refl in X.
      specialize (X eq_refl). lia.
    + intros k q H. by apply elem_of_nil in H.
Qed.
