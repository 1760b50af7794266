(** The lemmas behind the properties of channels. *)
From Coq Require Import List Bool ZArith Lia Arith.
From stdpp Require Import list.
From Verif.Channel Require Import Queue QueueProof Model Sum Inv InvStep InvStep2 InvStep3 InvRun Moves Spec Trace TraceStep TraceRun TraceMore Exact Reach Flow Rest Hung.

Section facts.
  Context (ls : list label) (s : st) (tr : list event) (B : Forall buf1 ls) (Ru : run init ls = Some (s, tr)).
  Let R : reach s tr := reached ls s tr B Ru.
  Lemma f_fifo i n : nodes s !! i = Some n -> strat n = Default -> exists ms rest, handled i tr = map (fun m => [m]) ms /\ sent i 0 tr = ms ++ rest.
  Proof.
    intros Hn K. pose proof (node_served s tr R i n Hn) as X. rewrite K in X. destruct X as (rest & E & F). exists (concat (handled i tr)), rest. split; [|done].
    clear -F. induction F as [|a l Ha F IH]; [done|]. destruct a as [|m [|? ?]]; try done. simpl. by rewrite <- IH.
  Qed.
  Lemma f_flow d nd p u : nodes s !! d = Some nd -> ups nd !! p = Some (Some u) -> exists tr2, since u d p tr tr2 /\ sent d p tr `prefix_of` results u tr2.
  Proof. apply (flow s tr R). Qed.
  Lemma f_send h i m : snd_h s !! h = Some i -> deadb i s = false -> exists s', step s (LSend h m) = Some (s', [Appended i 0 m]).
  Proof.
    intros H D. destruct (i_snd s (r_inv s tr R) i) as (n & Hn & _); [by eapply elem_of_list_lookup_2|]. simpl. rewrite H. unfold enqueue. rewrite D, Hn. eauto.
  Qed.
  Lemma f_one t1 t2 i m1 m2 : jobs s !! t1 = Some (i, JInvoke m1) -> jobs s !! t2 = Some (i, JInvoke m2) -> t1 = t2.
  Proof.
    intros H1 H2. destruct (decide (t1 = t2)) as [?|N]; [done|]. pose proof (own_one s tr R i) as O. unfold own in O.
    pose proof (sumf_two (ownf i) _ _ _ _ _ H1 H2 N) as Y. unfold ownf in Y at 1 2. simpl in Y. rewrite Nat.eqb_refl in Y. lia.
  Qed.
  Lemma f_exclusive i : length (results i tr) <= length (invoked i tr) <= S (length (results i tr)).
  Proof. apply (exclusive s tr R). Qed.
  Lemma f_no_ub : Ub ∉ tr.
  Proof. apply (r_ub s tr R). Qed.
  Lemma f_zip d nd k ms : nodes s !! d = Some nd -> strat nd = Zip -> handled d tr !! k = Some ms -> length ms = length (ups nd) /\
    forall p m, ms !! p = Some m -> sent d p tr !! k = Some m /\
      forall u, ups nd !! p = Some (Some u) -> exists tr2, since u d p tr tr2 /\ results u tr2 !! k = Some m.
  Proof.
    intros Hd K H. pose proof (node_served s tr R d nd Hd) as X. rewrite K in X. destruct (X k ms H) as [L P]. split; [done|]. intros p m Hm.
    destruct (P p) as [_ E]; [rewrite <- L; by eapply lookup_lt_Some|]. rewrite E in Hm. split; [done|]. intros u Hu. destruct (f_flow d nd p u Hd Hu) as (tr2 & S & Pr).
    exists tr2. split; [done|]. by eapply prefix_lookup.
  Qed.
  Lemma f_rr d nd k ms : nodes s !! d = Some nd -> strat nd = RoundRobin -> handled d tr !! k = Some ms ->
    exists m, ms = [m] /\ let p := k mod length (ups nd) in let j := k / length (ups nd) in sent d p tr !! j = Some m /\
      forall u, ups nd !! p = Some (Some u) -> exists tr2, since u d p tr tr2 /\ results u tr2 !! j = Some m.
  Proof.
    intros Hd K H. pose proof (node_served s tr R d nd Hd) as X. rewrite K in X. destruct (X k ms H) as (m & -> & E). exists m. split; [done|]. split; [done|].
    intros u Hu. destruct (f_flow d nd _ u Hd Hu) as (tr2 & S & Pr). exists tr2. split; [done|]. by eapply prefix_lookup.
  Qed.
  Lemma f_unordered d nd : nodes s !! d = Some nd -> strat nd = Unordered -> exists src : list nat, length src = length (handled d tr) /\
    Forall (fun p => p < length (ups nd)) src /\ Forall (fun ms => length ms = 1) (handled d tr) /\
    forall p, p < length (ups nd) -> let mine := concat (omap (fun '(q, ms) => pick (q =? p) ms) (zip src (handled d tr))) in
      mine `prefix_of` sent d p tr /\ forall u, ups nd !! p = Some (Some u) -> exists tr2, since u d p tr tr2 /\ mine `prefix_of` results u tr2.
  Proof.
    intros Hd K. pose proof (node_served s tr R d nd Hd) as X. rewrite K in X. destruct X as (src & L & F & F1 & P). exists src. split; [done|]. split; [done|]. split; [done|].
    intros p Hp mine. destruct (P p Hp) as (rest & E). assert (mine `prefix_of` sent d p tr) as Pm by (rewrite E; by apply prefix_app_r). split; [done|].
    intros u Hu. destruct (f_flow d nd p u Hd Hu) as (tr2 & S & Pr). exists tr2. split; [done|]. by etrans.
  Qed.
  Lemma f_closed_once i : length (closed i tr) <= 1.
  Proof.
    destruct (closed_dec i tr) as [H|H].
    - by destruct (closed_final s tr i (r_inv s tr R) (r_tinv s tr R) H) as (? & _ & _ & _ & ->).
    - rewrite closed_in in H. destruct (closed i tr) as [|]; simpl; [lia|]. by destruct H.
  Qed.
  Lemma f_closing i : Closed i ∈ tr -> exists n, nodes s !! i = Some n /\
    drained (strat n) (length (ups n)) (fun p => sent i p tr) (handled i tr) /\ length (results i tr) = length (invoked i tr).
  Proof. intros H. destruct (closing s tr R i H) as (n & Hn & _ & X). by exists n. Qed.
  Lemma f_after i t1 t2 : tr = t1 ++ Closed i :: t2 -> (forall p, sent i p t2 = []) /\ handled i t2 = [] /\ results i t2 = [].
  Proof.
    intros H. pose proof (r_after s tr R i t1 t2 H) as F. clear -F. induction F as [|e l He F IH]; [done|]. destruct IH as (A & C & D).
    destruct e; simpl in *; unfold pick; repeat split; try done; try (intros q; apply A); try (by rewrite He); intros q; try rewrite He; simpl; try apply A.
  Qed.
  Lemma f_closing_down u d nd p : Closed u ∈ tr -> nodes s !! d = Some nd -> deadb d s = false -> ups nd !! p = Some (Some u) -> exists tr2, since u d p tr tr2 /\ sent d p tr = results u tr2.
  Proof. apply (closing_down s tr R). Qed.
  Lemma f_closing_up d nd p u : Closed d ∈ tr -> nodes s !! d = Some nd -> deadb d s = false -> ups nd !! p = Some (Some u) -> Closed u ∈ tr.
  Proof. apply (closing_up s tr R). Qed.
  Lemma f_closing_clients i : Closed i ∈ tr -> deadb i s = false -> i ∉ snd_h s.
  Proof. apply (closing_clients s tr R). Qed.
  Section rest.
    Context (Ti : tidy_run init ls = true) (Re : at_rest s) (D : dead s = []) (Rd : all_ready s) (NR : forall i, ~ refused i tr).
    Let E : einv s := reached_exact ls init s tr (inv_init) einv_init B Ti Ru.
    Lemma f_rest i n : nodes s !! i = Some n -> drained (strat n) (length (ups n)) (fun p => sent i p tr) (handled i tr) \/
      exists d nd, leads s i d /\ nodes s !! d = Some nd /\ left_over d nd tr.
    Proof. destruct Re. by apply (rest_or s tr R E). Qed.
    Context (NL : forall d nd, nodes s !! d = Some nd -> ~ left_over d nd tr).
    Lemma f_rest_all i n : nodes s !! i = Some n -> drained (strat n) (length (ups n)) (fun p => sent i p tr) (handled i tr).
    Proof. intros Hn. destruct (f_rest i n Hn) as [X|(d & nd & _ & Hd & X)]; [done|]. by destruct (NL d nd). Qed.
    Lemma f_rest_closed : snd_h s = [] -> no_late tr -> forall i, i < length (nodes s) -> closed i tr = [tt].
    Proof. destruct Re. by apply (rest_closed s tr R E). Qed.
  End rest.
  Lemma f_simple : (forall i n, nodes s !! i = Some n -> strat n = Default \/ strat n = Unordered) -> forall d nd, nodes s !! d = Some nd -> ~ left_over d nd tr.
  Proof. intros H d nd Hd ([K|K] & _); destruct (H d nd Hd); congruence. Qed.
  Lemma f_silent i ms ls2 s2 tr2 : Refused i ms ∈ tr -> Forall buf1 ls2 -> run s ls2 = Some (s2, tr2) -> handled i tr2 = [] /\ results i tr2 = [] /\ closed i tr2 = [].
  Proof.
    intros H B2 R2. apply idle_nothing. pose proof (hung_refused ls init s tr i ms inv_init B Ru H) as Hu. by destruct (hung_run ls2 s s2 tr2 i (r_inv s tr R) Hu B2 R2).
  Qed.
  Lemma f_free i n p u : nodes s !! i = Some n -> ups n !! p = Some (Some u) -> (0 <= free_of n p <= 1)%Z.
  Proof.
    intros Hn Hu. pose proof (i_node s (r_inv s tr R) i n Hn) as Ni. unfold free_of. rewrite (n_bsize _ _ _ Ni). cbn [Nat.eqb]. destruct (qs (que n) !! p) as [c|] eqn:Q.
    - pose proof (n_port _ _ _ Ni p u c Hu Q). destruct (length c) as [|[|]]; [done|done|lia].
    - done.
  Qed.
End facts.

Lemma f_free_exact n p c : qs (que n) !! p = Some c -> 0 < bsize n -> (Z.of_nat (bsize n) < 2 ^ 64)%Z -> length c <= bsize n ->
  (0 <= free_of n p <= Z.of_nat (bsize n))%Z /\ free_of n p = Z.of_nat (bsize n - length c).
Proof.
  intros Q P L Le. unfold free_of. rewrite Q. destruct (Nat.eqb_spec (bsize n) 0); [lia|]. rewrite Z.mod_small by lia. lia.
Qed.
Lemma f_free_wrap n p c : qs (que n) !! p = Some c -> 0 < bsize n -> bsize n < length c -> (Z.of_nat (length c) < 2 ^ 64)%Z ->
  free_of n p = (2 ^ 64 - Z.of_nat (length c - bsize n))%Z.
Proof.
  intros Q P L Le. unfold free_of. rewrite Q. destruct (Nat.eqb_spec (bsize n) 0); [lia|].
  rewrite <- (Z.mod_small (2 ^ 64 - Z.of_nat (length c - bsize n)) (2 ^ 64)) by lia. rewrite <- (Z_mod_plus_full _ 1). f_equal. lia.
Qed.
