(** Networks at rest: no job and no critical section is pending. *)
From Coq Require Import List Bool ZArith Lia Arith.
From stdpp Require Import list.
From Verif.Channel Require Import Queue QueueProof Model Sum Inv InvStep InvStep2 InvStep3 InvRun Moves Spec Trace TraceStep TraceRun TraceMore Exact Reach Flow.

Lemma alter_ge {A} (f : A -> A) i (l : list A) : length l <= i -> alter f i l = l.
Proof.
  intros H. apply list_eq. intros j. destruct (decide (i = j)) as [->|N]; [|by rewrite list_lookup_alter_ne]. rewrite list_lookup_alter. by rewrite (lookup_ge_None_2 l j).
Qed.
(** ** how many messages are left in a queue *)
Lemma sum_sumf {A} (f : A -> nat) l : list_sum (map f l) = sumf f l.
Proof. induction l as [|a l IH]; simpl; [done|]. by rewrite IH. Qed.
Lemma sum_tails (l l' : list (list msg)) : length l' = length l -> (forall p, p < length l -> exists m c, l !! p = Some (m :: c) /\ l' !! p = Some c) ->
  sumf length l = sumf length l' + length l.
Proof.
  revert l'. induction l as [|a l IH]; intros [|b l'] L H; try done. simpl in *. destruct (H 0 ltac:(lia)) as (m & c & [= ->] & [= ->]).
  rewrite (IH l') by (try lia; intros p Hp; apply (H (S p)); lia). simpl. lia.
Qed.
Lemma queue_total k n ops q outs : qrun k (q_new n) ops = Some (q, outs) ->
  list_sum (map (fun p => length (apps p ops)) (seq 0 n)) = length (concat outs) + sumf length (qs q).
Proof.
  rewrite sum_sumf. revert q outs. induction ops as [|o ops IH] using rev_ind; intros q outs R.
  - injection R as <- <-. simpl. assert (sumf (fun p => 0) (seq 0 n) = 0) as -> by (by apply sumf_0). symmetry. apply sumf_0.
    intros x Hx. by apply elem_of_replicate in Hx as [-> _].
  - apply qrun_snoc in R as (q1 & o1 & R & H). pose proof (IH _ _ R) as E. pose proof (qrun_length _ _ _ _ _ R) as L. simpl in L. rewrite replicate_length in L. destruct o as [p m|].
    + destruct H as [-> ->]. destruct (decide (p < n)) as [Hp|Hp].
      * rewrite <- L in Hp. apply lookup_lt_is_Some in Hp as [c Hc]. simpl. rewrite (alter_insert _ _ _ _ Hc). pose proof (sumf_insert length _ _ _ (c ++ [m]) Hc) as X.
        rewrite app_length in X. simpl in X. pose proof (lookup_lt_Some _ _ _ Hc). rewrite (sumf_seq_one (fun p => length (apps p ops)) _ p 1).
        -- simpl in E. lia.
        -- lia.
        -- intros p' _ Np. rewrite apps_app. unfold apps at 2. simpl. destruct (Nat.eqb_spec p p'); [done|]. by rewrite app_nil_r.
        -- rewrite apps_app, app_length. unfold apps at 2. simpl. rewrite Nat.eqb_refl. done.
      * rewrite (sumf_ext _ (fun p => length (apps p ops))).
        -- rewrite E. simpl. f_equal. f_equal. rewrite alter_ge; [done|lia].
        -- intros p' Hp'. apply elem_of_list_In, in_seq in Hp'. rewrite apps_app. unfold apps at 2. simpl. destruct (Nat.eqb_spec p p'); [lia|]. by rewrite app_nil_r.
    + destruct H as (ms & T & ->). rewrite concat_app, app_length. simpl. rewrite app_nil_r. rewrite (sumf_ext _ (fun p => length (apps p ops))).
      2: { intros p' _. rewrite apps_app. unfold apps at 2. simpl. by rewrite app_nil_r. }
      rewrite E. apply take_spec in T. destruct k; simpl in T.
      2: { destruct T as (Lm & L2 & P). rewrite (sum_tails (qs q1) (qs q)); [lia|done|]. intros p Hp. destruct (P p Hp) as (m & c & A & _ & B). eauto. }
      all: destruct T as (p & m & c & Hc & -> & -> & _); pose proof (sumf_insert length _ _ _ c Hc) as X; simpl in X; simpl; lia.
Qed.

Lemma sum_zero (l : list (list msg)) : sumf length l = 0 <-> forall p c, l !! p = Some c -> c = [].
Proof.
  rewrite sumf_0. split.
  - intros H p c Hc. apply elem_of_list_lookup_2 in Hc. by apply nil_length_inv, H.
  - intros H c Hc. apply elem_of_list_lookup in Hc as [p Hc]. by rewrite (H p c Hc).
Qed.

Section rest.
  Context (s : st) (tr : list event) (R : reach s tr) (E : einv s) (J : jobs s = []) (P : pends s = []) (D : dead s = []).
  Context (Rd : all_ready s) (NR : forall i, ~ refused i tr).
  Let I := r_inv s tr R.
  Let T := r_tinv s tr R.
  Lemma rest_rcount i n : nodes s !! i = Some n -> rcount n = 0.
  Proof.
    intros Hn. destruct (rvoid n) eqn:V; [by apply (n_void _ _ _ (i_node s I i n Hn))|]. destruct (E i n Hn) as [_ ->]; [|done].
    apply sumf_0. intros [k b] H. unfold rcvf. simpl. destruct (Nat.eqb_spec k i) as [->|]; [|done]. by rewrite (Rd i n b Hn V H).
  Qed.
  Lemma rest_running i n : nodes s !! i = Some n -> running n = true -> 0 < susp n.
  Proof.
    intros Hn Ru. destruct (r_rinv s tr R i n Hn Ru) as [X|[X|X]].
    - unfold deadb in X. by rewrite D in X.
    - by destruct (NR i).
    - unfold own in X. rewrite J in X. simpl in X. lia.
  Qed.
  Lemma rest_busy i n : nodes s !! i = Some n -> empty_q n = false \/ closeq n = true -> 0 < susp n.
  Proof.
    intros Hn H. apply (rest_running i n Hn). destruct (running n) eqn:Ru; [done|]. exfalso.
    pose proof (n_wake _ _ _ (i_node s I i n Hn) (rest_rcount i n Hn) Ru H) as X. rewrite P in X. by apply elem_of_nil in X.
  Qed.
  Lemma rest_susp i n : nodes s !! i = Some n -> 0 < susp n ->
    exists d nd p, i < d /\ nodes s !! d = Some nd /\ ups nd !! p = Some (Some i) /\ 0 < plen (que nd) p.
  Proof.
    intros Hn H. pose proof (n_exact _ _ _ (i_node s I i n Hn) D) as X. unfold credit, bc in X. rewrite J in X. simpl in X.
    assert (0 < sumf (cnode i) (nodes s)) as Y by lia. apply sumf_pos in Y as (d & nd & Hd & Y). apply sumf_pos in Y as (k & p & Hp & Y).
    destruct (isup i nd p) eqn:U; [|lia]. unfold isup in U. destruct (ups nd !! p) as [[u|]|] eqn:Up; try done. apply Nat.eqb_eq in U as ->.
    exists d, nd, p. split; [|done]. by apply (n_ups _ _ _ (i_node s I d nd Hd) p).
  Qed.
  Lemma rest_total i n : nodes s !! i = Some n ->
    list_sum (map (fun p => length (sent i p tr)) (seq 0 (length (ups n)))) = length (concat (handled i tr)) + sumf length (qs (que n)).
  Proof.
    intros Hn. pose proof (queue_total _ _ _ _ _ (t_ops s tr T i n Hn)) as X. rewrite (t_hand s tr T i) in X. unfold infl in X. rewrite J in X. simpl in X. rewrite app_nil_r in X.
    rewrite <- X. apply list_sum_ext. intros p _. by rewrite apps_ops.
  Qed.
  Lemma rest_left i n : nodes s !! i = Some n -> empty_q n = true -> 0 < sumf length (qs (que n)) -> strat n = Zip \/ strat n = RoundRobin.
  Proof.
    intros Hn Em L. pose proof (i_node s I i n Hn) as Ni. unfold empty_q in Em. destruct (strat n) eqn:K; auto; exfalso.
    - pose proof (n_def _ _ _ Ni K) as U. rewrite <- (n_ports _ _ _ Ni) in U. destruct (qs (que n)) as [|c [|? ?]] eqn:Q; try done. simpl in Em. rewrite Q in Em. simpl in Em. apply nilb_true in Em as ->. simpl in L. lia.
    - apply empty_unordered in Em. rewrite Forall_lookup in Em. assert (sumf length (qs (que n)) = 0); [|lia]. apply sum_zero. apply Em.
  Qed.
  Lemma rest_drained i n : nodes s !! i = Some n -> empty_q n = true -> drained (strat n) (length (ups n)) (fun p => sent i p tr) (handled i tr).
  Proof. intros Hn Em. apply (node_drained s tr R); try done. unfold infl. by rewrite J. Qed.
  (** whoever waits, waits for a merge that waits for a message *)
  Lemma rest_stuck m : forall i n, length (nodes s) - i <= m -> nodes s !! i = Some n -> 0 < susp n -> exists d nd, leads s i d /\ nodes s !! d = Some nd /\ left_over d nd tr.
  Proof.
    induction m as [|m IH]; intros i n Lm Hn Su; [apply lookup_lt_Some in Hn; lia|].
    destruct (rest_susp i n Hn Su) as (d & nd & p & Lt & Hd & Up & Pl). destruct (empty_q nd) eqn:Em.
    - exists d, nd. split; [by apply (leads_next s i d nd p); [..|constructor]|]. split; [done|].
      assert (0 < sumf length (qs (que nd))) as Ps by (unfold plen in Pl; destruct (qs (que nd) !! p) as [c|] eqn:Q; [|lia]; pose proof (sumf_lookup length _ _ _ Q); lia).
      split; [by apply (rest_left d nd)|]. split; [by apply rest_drained|]. rewrite (rest_total d nd Hd). lia.
    - destruct (IH d nd) as (e & ne & Le & He & X); [lia|done|apply (rest_busy d nd); auto|]. exists e, ne. split; [|done]. by apply (leads_next s i d nd p).
  Qed.
  Lemma rest_or i n : nodes s !! i = Some n -> drained (strat n) (length (ups n)) (fun p => sent i p tr) (handled i tr) \/
    exists d nd, leads s i d /\ nodes s !! d = Some nd /\ left_over d nd tr.
  Proof.
    intros Hn. destruct (empty_q n) eqn:Em; [left; by apply rest_drained|]. right. apply (rest_stuck (length (nodes s)) i n); [lia|done|]. apply (rest_busy i n Hn). by left.
  Qed.
  (** ** nothing left over *)
  Context (NL : forall d nd, nodes s !! d = Some nd -> ~ left_over d nd tr).
  Lemma rest_free i n : nodes s !! i = Some n -> susp n = 0.
  Proof.
    intros Hn. destruct (decide (0 < susp n)) as [Su|]; [|lia]. destruct (rest_stuck (length (nodes s)) i n) as (d & nd & _ & Hd & X); [lia|done|done|]. by destruct (NL d nd).
  Qed.
  Lemma rest_all i n : nodes s !! i = Some n -> empty_q n = true /\ closeq n = false.
  Proof.
    intros Hn. pose proof (rest_free i n Hn). destruct (empty_q n) eqn:Em, (closeq n) eqn:Cl; try done; pose proof (rest_busy i n Hn); intuition lia.
  Qed.
  (** everybody closes when there is no client any more *)
  Context (NC : snd_h s = []) (NA : no_late tr).
  Lemma rest_closed : forall i, i < length (nodes s) -> closed i tr = [tt].
  Proof.
    induction i as [i IH] using lt_wf_ind. intros Li. apply lookup_lt_is_Some in Li as Hn. destruct Hn as [n Hn]. pose proof (i_node s I i n Hn) as Ni.
    assert (sndc s i = 0) as Z.
    { unfold sndc. rewrite NC, J. simpl. rewrite Nat.add_0_r. apply sumf_0. intros nu Hu. apply elem_of_list_lookup in Hu as [u Hu].
      destruct (decide (downf i nu = 0)) as [?|X]; [done|]. exfalso. unfold downf in X. assert (0 < cnt i (map fst (down nu))) as Y by lia.
      apply cnt_pos in Y. apply elem_of_list_fmap in Y as ([d p] & -> & Y). simpl in *.
      destruct (n_down _ _ _ (i_node s I u nu Hu) d p Y) as (nd & Hd & Up). pose proof (n_ups _ _ _ (i_node s I d nd Hd) p u Up) as Lu.
      destruct (r_dinv s tr R u nu d p Hu) as (t1 & t2 & Et & At); [|done|by apply (NA u d p t1 t2)].
      apply closed_in. rewrite (IH u) by (try done; by eapply lookup_lt_Some). done. }
    assert (deadb i s = false) as De by (unfold deadb; by rewrite D). destruct (E i n Hn) as [E1 _]. specialize (E1 De).
    pose proof (n_close _ _ _ Ni) as C. unfold npend in C. rewrite P, E1, Z in C. simpl in C. destruct (rest_all i n Hn) as [_ Cl]. rewrite Cl in C. simpl in C.
    destruct (final n) eqn:F; [|done]. pose proof (t_close s tr T i n Hn) as X. rewrite F in X. unfold nfin in X. rewrite J in X. simpl in X.
    destruct (closed i tr) as [|[] [|? ?]]; simpl in X; try lia. done.
  Qed.
End rest.
