(** What flows through a network. *)
From Coq Require Import List Bool ZArith Lia Arith.
From stdpp Require Import list.
From Verif.Channel Require Import Queue QueueProof Model Sum Inv InvStep InvStep2 InvStep3 InvRun Moves Spec Trace TraceStep TraceRun TraceMore Exact Reach.

(** ** queues serve *)
Lemma served_prefix k n f a b : served k n f (a ++ b) -> served k n f a.
Proof.
  destruct k; simpl.
  - intros (rest & E & F). exists (concat b ++ rest). rewrite E, concat_app, <- app_assoc. split; [done|]. by apply Forall_app in F as [F _].
  - intros H j ms Hj. apply H. by apply lookup_app_l_Some.
  - intros H j ms Hj. apply H. by apply lookup_app_l_Some.
  - intros (src & L & F & F1 & P). rewrite app_length in L. exists (take (length a) src). rewrite take_length. split; [lia|].
    split; [by apply Forall_take|]. apply Forall_app in F1 as [F1 _]. split; [done|]. intros p Hp. destruct (P p Hp) as (rest & E).
    rewrite <- (take_drop (length a) src) in E. rewrite zip_with_app, omap_app, concat_app, <- app_assoc in E by (rewrite take_length; lia). by eexists.
Qed.
Lemma served_ok k n ops q outs : 0 < n -> (k = Default -> n = 1) -> qrun k (q_new n) ops = Some (q, outs) -> served k n (fun p => apps p ops) outs.
Proof.
  intros Hn H1 R. destruct k; simpl.
  - rewrite (H1 eq_refl) in R. apply default_out in R as (c & _ & E & F). by exists c.
  - apply zip_out in R as (F & L & P). intros j ms Hj. rewrite Forall_lookup in F. split; [by eapply F|]. intros p Hp. destruct (P p Hp) as (c & _ & _ & _ & O).
    destruct (O j ms Hj) as [-> Lj]. split; [|done]. by apply lookup_lt_is_Some.
  - apply rr_out in R as (_ & _ & _ & O); [|done]. apply O.
  - apply un_out in R as (_ & src & L & F & F1 & P). exists src. split; [done|]. split; [done|]. split; [done|]. intros p Hp. destruct (P p Hp) as (c & _ & E). by exists c.
Qed.
Lemma list_sum_ext f g n : (forall p, p < n -> f p = g p) -> list_sum (map f (seq 0 n)) = list_sum (map g (seq 0 n)).
Proof. intros H. f_equal. apply map_ext_in. intros p Hp. apply in_seq in Hp. apply H. lia. Qed.
Lemma list_sum_add f g n : list_sum (map (fun p => f p + g p) (seq 0 n)) = list_sum (map f (seq 0 n)) + list_sum (map g (seq 0 n)).
Proof. induction (seq 0 n) as [|a l IH]; simpl; lia. Qed.
Lemma list_sum_one p n : p < n -> list_sum (map (fun q => if p =? q then 1 else 0) (seq 0 n)) = 1.
Proof.
  intros Hp. assert (forall m a, list_sum (map (fun q => if p =? q then 1 else 0) (seq a m)) = if (a <=? p) && (p <? a + m) then 1 else 0) as X.
  { induction m as [|m IH]; intros a; simpl.
    - destruct (Nat.leb_spec a p), (Nat.ltb_spec p (a + 0)); simpl; lia.
    - rewrite IH. destruct (Nat.eqb_spec p a), (Nat.leb_spec (S a) p), (Nat.leb_spec a p), (Nat.ltb_spec p (S a + m)), (Nat.ltb_spec p (a + S m)); simpl; lia. }
  rewrite X. destruct (Nat.leb_spec 0 p), (Nat.ltb_spec p (0 + n)); simpl; lia.
Qed.
Lemma from_sum n src outs : length src = length outs -> Forall (fun i => i < n) src -> Forall (fun ms => length ms = 1) outs ->
  list_sum (map (fun p => length (from p src outs)) (seq 0 n)) = length outs.
Proof.
  revert outs. induction src as [|p src IH]; intros [|ms outs] L F F1; try done.
  - unfold from. simpl. induction (seq 0 n); simpl; lia.
  - apply Forall_cons in F as [Hp F]. apply Forall_cons in F1 as [Hm F1]. simpl in L. injection L as L. simpl. rewrite <- (IH outs) by done.
    rewrite (list_sum_ext _ (fun q => (if p =? q then 1 else 0) + length (from q src outs))).
    + rewrite list_sum_add, list_sum_one by done. done.
    + intros q _. unfold from. simpl. destruct (p =? q); simpl; [|done]. rewrite app_length, Hm. done.
Qed.
Lemma drained_ok k n ops q outs : 0 < n -> (k = Default -> n = 1) -> qrun k (q_new n) ops = Some (q, outs) -> q_empty k q = true -> drained k n (fun p => apps p ops) outs.
Proof.
  intros Hn H1 R E. destruct k; simpl.
  - rewrite (H1 eq_refl) in R. apply default_out in R as (c & Hc & A & F). rewrite (empty_default _ _ Hc) in E. apply nilb_true in E as ->. by rewrite A, app_nil_r.
  - apply zip_out in R as (F & L & P).
    assert (exists p, qs q !! p = Some []) as (p & Hp).
    { simpl in E. apply negb_true_iff, Nat.eqb_neq in E. pose proof (find_i_le nilb (qs q)). destruct (proj1 (find_i_lt nilb (qs q))) as (p & c & Hp & Hc); [lia|]. apply nilb_true in Hc as ->. by exists p. }
    pose proof (lookup_lt_Some _ _ _ Hp) as Lp. rewrite L in Lp. exists p. split; [done|]. destruct (P p Lp) as (c & Hc & Le & _). rewrite Hc in Hp. injection Hp as ->. simpl in Le. lia.
  - apply rr_out in R as (L & Q & P & _); [|done]. simpl in E. assert (qi q < n) as Hq by (rewrite Q; apply Nat.mod_upper_bound; lia).
    destruct (P (qi q) Hq) as (c & Hc & D & Le). rewrite Hc in E. apply nilb_true in E as ->. rewrite <- Q. rewrite <- (turns_self n (length outs)), <- Q by done.
    apply (f_equal length) in D. rewrite drop_length in D. simpl in D. lia.
  - apply un_out in R as (L & src & Ls & F & F1 & P). apply empty_unordered in E. rewrite Forall_lookup in E. rewrite <- (from_sum n src outs) by done.
    apply list_sum_ext. intros p Hp. destruct (P p Hp) as (c & Hc & A). rewrite (E _ _ Hc), app_nil_r in A. by rewrite A.
Qed.
Lemma served_ext k n f g out : (forall p, f p = g p) -> served k n f out -> served k n g out.
Proof.
  intros E. destruct k; simpl.
  - rewrite E. done.
  - intros H j ms Hj. destruct (H j ms Hj) as [L P]. split; [done|]. intros p Hp. rewrite <- E. by apply P.
  - intros H j ms Hj. rewrite <- E. by apply H.
  - intros (src & A & B & C & D). exists src. split; [done|]. split; [done|]. split; [done|]. intros p Hp. rewrite <- E. by apply D.
Qed.
Lemma drained_ext k n f g out : (forall p, f p = g p) -> drained k n f out -> drained k n g out.
Proof.
  intros E. destruct k; simpl.
  - by rewrite E.
  - intros (p & Hp & H). exists p. by rewrite <- E.
  - by rewrite E.
  - intros ->. apply list_sum_ext. intros p _. by rewrite E.
Qed.

(** ** a process deals with what is sent to it *)
Section reached.
  Context (s : st) (tr : list event) (R : reach s tr).
  Let I := r_inv s tr R.
  Let T := r_tinv s tr R.
  Lemma pos i n : nodes s !! i = Some n -> 0 < length (ups n).
  Proof. intros Hn. pose proof (n_pos _ _ _ (i_node s I i n Hn)). destruct (ups n); [done|]. simpl. lia. Qed.
  Lemma node_served i n : nodes s !! i = Some n -> served (strat n) (length (ups n)) (fun p => sent i p tr) (handled i tr).
  Proof.
    intros Hn. pose proof (t_ops s tr T i n Hn) as Q. pose proof (i_node s I i n Hn) as Ni. apply served_ok in Q; [|by eapply pos|apply (n_def _ _ _ Ni)].
    rewrite (t_hand s tr T i) in Q. apply served_prefix in Q. eapply served_ext; [|exact Q]. intros p. apply apps_ops.
  Qed.
  Lemma node_drained i n : nodes s !! i = Some n -> empty_q n = true -> infl i s = [] -> drained (strat n) (length (ups n)) (fun p => sent i p tr) (handled i tr).
  Proof.
    intros Hn E F. pose proof (t_ops s tr T i n Hn) as Q. pose proof (i_node s I i n Hn) as Ni. apply drained_ok in Q; [|by eapply pos|apply (n_def _ _ _ Ni)|done].
    rewrite (t_hand s tr T i), F, app_nil_r in Q. eapply drained_ext; [|exact Q]. intros p. apply apps_ops.
  Qed.
  Lemma flow d nd p u : nodes s !! d = Some nd -> ups nd !! p = Some (Some u) -> exists tr2, since u d p tr tr2 /\ sent d p tr `prefix_of` results u tr2.
  Proof.
    intros Hd Hp. destruct (t_edge s tr T d nd p u Hd Hp) as (tr2 & S & Re & _). exists tr2. split; [done|]. destruct (deadb d s); [done|]. rewrite Re. by apply prefix_app_r.
  Qed.
  (** at most one job at a time *)
  Lemma own_one i : own s i <= 1.
  Proof.
    destruct (nodes s !! i) as [n|] eqn:Hn.
    - pose proof (n_own _ _ _ (i_node s I i n Hn)). destruct (running n); simpl in *; lia.
    - assert (own s i = 0) as ->; [|lia]. apply sumf_0. intros [k p] X. apply elem_of_list_lookup in X as [t X]. destruct (i_job s I _ _ _ X) as (n & Hk & _).
      unfold ownf. simpl. destruct (Nat.eqb_spec k i) as [->|]; [congruence|done].
  Qed.
  Lemma exec_own i : length (exec i s) <= own s i.
  Proof.
    unfold exec, own. induction (jobs s) as [|[k p] l IH]; [done|]. rewrite omap_c, app_length. cbn [sumf]. assert (length (ol (f_inv i (k, p))) <= ownf i (k, p)); [|lia].
    unfold f_inv, ownf. simpl. destruct (k =? i); [destruct p; simpl; lia|done].
  Qed.
  Lemma exclusive i : length (results i tr) <= length (invoked i tr) <= S (length (results i tr)).
  Proof. pose proof (t_res s tr T i). pose proof (own_one i). pose proof (exec_own i). lia. Qed.
  (** closed processes *)
  Lemma final_quiet i n : nodes s !! i = Some n -> final n = true -> infl i s = [] /\ exec i s = [] /\ forall e, iedge i e s = [].
  Proof.
    intros Hn F. assert (forall t p, jobs s !! t = Some (i, p) -> match p with JInvoke _ | JSusp _ _ _ | JSend _ _ | JCts _ _ (Some _) => False | _ => True end) as X.
    { intros t p Ht. destruct (i_job s I _ _ _ Ht) as (n0 & Hn0 & J). assert (n0 = n) as -> by congruence. destruct p as [|? ? []| | | | | | |]; try done; try congruence; destruct J as [J ?]; congruence. }
    repeat split; intros; apply omap_none; intros t [k p] Hk; unfold f_infl, f_inv, f_edge; simpl; destruct (Nat.eqb_spec k i) as [->|]; try done; specialize (X t p Hk); destruct p as [|? ? []| | | | | | |]; done.
  Qed.
  Lemma closing i : Closed i ∈ tr -> exists n, nodes s !! i = Some n /\ closed i tr = [tt] /\
    drained (strat n) (length (ups n)) (fun p => sent i p tr) (handled i tr) /\ length (results i tr) = length (invoked i tr).
  Proof.
    intros H. destruct (closed_final s tr i I T H) as (n & Hn & F & Nf & L). exists n. split; [done|]. split.
    - destruct (closed i tr) as [|[] [|? ?]]; done.
    - destruct (final_quiet i n Hn F) as (F1 & F2 & _). split.
      + apply node_drained; try done. by destruct (n_final _ _ _ (i_node s I i n Hn) F).
      + rewrite (t_res s tr T i), F2. simpl. lia.
  Qed.
  Lemma closing_down u d nd p : Closed u ∈ tr -> nodes s !! d = Some nd -> deadb d s = false -> ups nd !! p = Some (Some u) -> exists tr2, since u d p tr tr2 /\ sent d p tr = results u tr2.
  Proof.
    intros H Hd De Hp. destruct (t_edge s tr T d nd p u Hd Hp) as (tr2 & S & Re & _). rewrite De in Re. exists tr2. split; [done|].
    destruct (closed_final s tr u I T H) as (n & Hn & F & _). destruct (final_quiet u n Hn F) as (_ & _ & Z). by rewrite Re, Z, app_nil_r.
  Qed.
  Lemma closing_up d nd p u : Closed d ∈ tr -> nodes s !! d = Some nd -> deadb d s = false -> ups nd !! p = Some (Some u) -> Closed u ∈ tr.
  Proof.
    intros H Hd De Hp. destruct (closed_final s tr d I T H) as (n & Hn & F & _). assert (n = nd) as -> by congruence.
    pose proof (senders_final s d nd I Hd F De) as Z. apply closed_in. intros C. destruct (t_edge s tr T d nd p u Hd Hp) as (tr2 & _ & _ & Dn).
    pose proof (n_ups _ _ _ (i_node s I d nd Hd) p u Hp) as Lt. apply lookup_lt_Some in Hd as Ld. destruct (nodes s !! u) as [nu|] eqn:Hu; [|apply lookup_ge_None in Hu; lia].
    pose proof (sndc_down s u nu d p Hu (Dn nu eq_refl C)). lia.
  Qed.
  Lemma closing_clients i : Closed i ∈ tr -> deadb i s = false -> i ∉ snd_h s.
  Proof.
    intros H De X. destruct (closed_final s tr i I T H) as (n & Hn & F & _). pose proof (senders_final s i n I Hn F De) as Z. unfold sndc in Z. apply cnt_pos in X. lia.
  Qed.
End reached.
