(** Everything about states and traces that can be reached. *)
From Coq Require Import List Bool ZArith Lia Arith.
From stdpp Require Import list.
From Verif.Channel Require Import Queue QueueProof Model Sum Inv InvStep InvStep2 InvStep3 InvRun Moves Spec Trace TraceStep TraceRun TraceMore Exact.

(** the senders of a closed process have been attached after it closed *)
Definition dinv (s : st) (tr : list event) : Prop := forall i n d p, nodes s !! i = Some n -> Closed i ∈ tr -> (d, p) ∈ down n ->
  exists t1 t2, tr = t1 ++ Closed i :: t2 /\ Attached i d p ∈ t2.
Lemma dinv_app (tr ev : list event) i d p : (exists t1 t2, tr = t1 ++ Closed i :: t2 /\ Attached i d p ∈ t2) -> exists t1 t2, tr ++ ev = t1 ++ Closed i :: t2 /\ Attached i d p ∈ t2.
Proof. intros (t1 & t2 & -> & H). exists t1, (t2 ++ ev). split; [by rewrite <- app_assoc|]. apply elem_of_app. by left. Qed.
Lemma dinv_move s s' tr ev : inv s -> dinv s tr -> move s s' ev -> dinv s' (tr ++ ev).
Proof.
  intros I Dv M.
  assert (forall (d : nat) n n', nodes s !! d = Some n -> nodes s' = <[d := n']> (nodes s) -> down n' = down n -> (forall k, Closed k ∉ ev) -> dinv s' (tr ++ ev)) as Q.
  { intros d n n' Hn Hs Dn Ne k nk d' p Hk Hc Hd. apply elem_of_app in Hc as [Hc|Hc]; [|by apply Ne in Hc]. apply dinv_app.
    rewrite Hs in Hk. apply list_lookup_insert_Some in Hk as [(-> & <- & _)|(Nk & Hk)]; [|by eapply Dv]. rewrite Dn in Hd. by eapply Dv. }
  assert (nodes s' = nodes s -> (forall k, Closed k ∉ ev) -> dinv s' (tr ++ ev)) as Q0.
  { intros Hs Ne k nk d' p Hk Hc Hd. apply elem_of_app in Hc as [Hc|Hc]; [|by apply Ne in Hc]. apply dinv_app. rewrite Hs in Hk. by eapply Dv. }
  assert (forall k, Closed k ∉ ([] : list event)) as N0 by (intros k X; by apply elem_of_nil in X).
  assert (forall e, (forall k, e <> Closed k) -> forall k, Closed k ∉ [e]) as N1 by (intros e He k X; apply elem_of_list_singleton in X; by apply (He k)).
  destruct M as [st us v sn s' ev H H0 H1 H2 H3|ev H|s' i n n' H H0 H1 H2 H3|s' H H0 H1|s' ev M].
  - apply map_senders_ev in H3 as Me. destruct Me as [Le Me]. apply map_senders_ok in H3 as (_ & _ & _ & _ & _ & _ & N & _). simpl in *.
    intros k nk d p Hk Hc Hd. assert (Closed k ∉ ev) as Nc.
    { intros X. apply elem_of_list_lookup in X as [j X]. apply lookup_lt_Some in X as Lj. rewrite Le in Lj. apply lookup_lt_is_Some in Lj as [u Hj]. by rewrite (Me j u Hj) in X. }
    apply elem_of_app in Hc as [Hc|Hc]; [|done]. rewrite N in Hk.
    assert (exists n, nk = with_down (down n ++ extra (length (nodes s)) 0 (omap id us) k) n /\ (down n = [] \/ nodes s !! k = Some n)) as (n & -> & Hn).
    { destruct (decide (k < length (nodes s))) as [L|L].
      - rewrite lookup_app_l in Hk by done. destruct (nodes s !! k) as [n|] eqn:Hn; [|done]. injection Hk as <-. exists n. auto.
      - rewrite lookup_app_r in Hk by lia. destruct (k - length (nodes s)); [|done]. injection Hk as <-. exists (new_node st us v 1). split; [done|]. by left. }
    simpl in Hd. apply elem_of_app in Hd as [Hd|Hd].
    + destruct Hn as [Hn|Hn]; [rewrite Hn in Hd; by apply elem_of_nil in Hd|]. apply dinv_app. by eapply Dv.
    + apply extra_in in Hd as (j & [= -> ->] & Hj). apply elem_of_list_split in Hc as (t1 & t2 & ->). exists t1, (t2 ++ ev). split; [by rewrite <- app_assoc|].
      apply elem_of_app. right. apply (elem_of_list_lookup_2 _ j). by apply Me.
  - apply Q0; [done|]. destruct H as [->| ->]; [done|]. by apply N1.
  - destruct H0 as (a & b & ->). by eapply Q.
  - by apply Q0.
  - destruct M; try (by apply Q0; [try done; simpl; by rewrite ?rms_nodes, ?run_nodes|first [done|by apply N1]]).
    + eapply (Q i n (enq 0 m n)); [done|by rewrite run_nodes|done|by apply N1].
    + eapply (Q i n (with_running (running n || b) n)); [done|by rewrite run_nodes|done|done].
    + eapply (Q i n (with_running (running n || b) (with_close true (final n) n))); [done|by rewrite run_nodes|done|done].
    + eapply (Q i n (with_que q' n)); try done. by apply N1.
    + by eapply (Q i n (with_close false (closeq n) n)).
    + eapply (Q u nu (cleared nu)); [done|simpl; by rewrite run_nodes|done|done].
    + by eapply (Q i n (with_susp (if b then S (length rest) else 1) n)).
    + eapply (Q d nd (enq p o nd)); [done|simpl; by rewrite run_nodes|done|by apply N1].
    + eapply (Q i n (cleared n)); [done|simpl; by rewrite run_nodes|done|done].
    + by eapply (Q i n (with_running false n)).
    + eapply (Q i n (with_running (dn_run n) n)); [done|simpl; by rewrite run_nodes|done|done].
    + intros k nk d p Hk Hc Hd. simpl in Hk. apply list_lookup_insert_Some in Hk as [(-> & <- & _)|(Nk & Hk)]; [simpl in Hd; by apply elem_of_nil in Hd|].
      apply elem_of_app in Hc as [Hc|Hc]; [|apply elem_of_list_singleton in Hc; congruence]. apply dinv_app. by eapply Dv.
    + eapply (Q d n (with_scount k n)); [done|simpl; by rewrite rms_nodes|done|done].
    + by eapply (Q i n (with_proc false n)).
Qed.

Record reach (s : st) (tr : list event) : Prop := {
  r_inv : inv s;
  r_tinv : tinv s tr;
  r_rinv : rinv s tr;
  r_dinv : dinv s tr;
  r_after : forall i, after i tr;
  r_ub : Ub ∉ tr
}.
Theorem run_reach ls : forall s tr s' tr', reach s tr -> Forall buf1 ls -> run s ls = Some (s', tr') -> reach s' (tr ++ tr').
Proof.
  induction ls as [|l ls IH]; intros s tr s' tr' Re B R; simpl in R.
  - injection R as <- <-. by rewrite app_nil_r.
  - apply Forall_cons in B as [Bl B]. destruct (step s l) as [[s1 e1]|] eqn:S; [|done]. destruct (run s1 ls) as [[s2 e2]|] eqn:R2; [|done]. injection R as <- <-.
    rewrite app_assoc. apply (IH s1 (tr ++ e1)); try done. destruct Re as [I T Ri Di A U]. pose proof (step_moves s l s1 e1 I Bl S) as M. destruct (inv_step s l s1 e1 I Bl S) as [I1 U1]. constructor.
    + done.
    + by apply (tinv_move s).
    + by apply (rinv_move s).
    + by apply (dinv_move s).
    + intros i. by apply (after_move s s1).
    + intros [X|X]%elem_of_app; done.
Qed.
Lemma init_reach : reach init [].
Proof.
  constructor.
  - apply inv_init.
  - apply tinv_init.
  - by intros k n H.
  - by intros k n d p H.
  - intros i t1 t2 H. by destruct t1.
  - by intros H%elem_of_nil.
Qed.
Lemma reached ls s tr : Forall buf1 ls -> run init ls = Some (s, tr) -> reach s tr.
Proof. intros B R. apply (run_reach ls init [] s tr init_reach B R). Qed.
Lemma reached_exact ls : forall s s' tr', inv s -> einv s -> Forall buf1 ls -> tidy_run s ls = true -> run s ls = Some (s', tr') -> einv s'.
Proof.
  induction ls as [|l ls IH]; intros s s' tr' I E B T R; simpl in R, T.
  - by injection R as <- <-.
  - apply Forall_cons in B as [Bl B]. apply andb_true_iff in T as [Tl T]. destruct (step s l) as [[s1 e1]|] eqn:S; [|done]. destruct (run s1 ls) as [[s2 e2]|] eqn:R2; [|done]. injection R as <- <-.
    eapply (IH s1); try done; [by eapply inv_step|by eapply einv_step].
Qed.
