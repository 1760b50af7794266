(** What follows for a process whose results cannot be copied. *)
From Coq Require Import List Bool Arith Lia.
From stdpp Require Import list.
From Verif.Lone Require Import Model Spec Inv Trace.

Lemma incall_le l : total incall l <= total early l.
Proof. induction l as [|[] l IH]; cbn; lia. Qed.
Lemma in_order ls s tr : run init ls = Some (s, tr) -> began tr `prefix_of` sent tr.
Proof. intros R. destruct (reach ls s tr R) as [_ T]. exists (queue s). by apply t_queue. Qed.
Lemma one_at_a_time ls s tr : run init ls = Some (s, tr) -> length (results tr) <= length (began tr) <= S (length (results tr)).
Proof.
  intros R. destruct (reach ls s tr R) as [I T]. pose proof (t_res s tr T). pose proof (single s I). pose proof (incall_le (jobs s)). lia.
Qed.
Lemma to_last ls s tr : run init ls = Some (s, tr) ->
  map snd (delivered tr) `prefix_of` results tr /\ Forall (fun p => last (attached tr) = Some (fst p)) (delivered tr).
Proof.
  intros R. destruct (reach ls s tr R) as [I T]. pose proof (t_del s tr T) as D. destruct (last (attached tr)) as [d|].
  - destruct D as [D1 D2]. split; [by exists (flight (jobs s))|]. eapply Forall_impl; [exact D1|]. by intros p <-.
  - rewrite D. split; [by exists (results tr)|done].
Qed.
Lemma last_nil {A} (l : list A) : last l = None -> l = [].
Proof. apply last_None. Qed.
Lemma removelast_short {A} (l : list A) : l <> [] -> l <> removelast l.
Proof.
  intros N E. destruct (last l) as [a|] eqn:L; [|by apply last_nil in L]. pose proof (last_removelast l a L) as X. rewrite <- E in X.
  apply (f_equal length) in X. rewrite app_length in X. cbn in X. lia.
Qed.
Lemma closed_after ls s tr : run init ls = Some (s, tr) -> attached tr <> [] -> last (attached tr) = last (closed tr) ->
  closed tr = attached tr /\ began tr = sent tr /\ map snd (delivered tr) = results tr /\ length (results tr) = length (sent tr) /\ dropped tr = [tt].
Proof.
  intros R N C. destruct (reach ls s tr R) as [I T]. pose proof (t_closed s tr T) as Cl.
  assert (gone s = true) as G.
  { destruct (gone s) eqn:G; [done|]. exfalso. rewrite Cl in C. pose proof (t_ids s tr T) as Ids.
    destruct (next s) as [|n] eqn:E; [by rewrite Ids in N|]. rewrite Ids, seq_S in C. rewrite removelast_snoc, last_snoc in C. cbn in C.
    symmetry in C. apply last_Some_elem_of in C. apply elem_of_list_In, in_seq in C. lia. }
  rewrite G in Cl. split; [done|]. unfold gone in G. apply andb_prop in G as [G G3]. apply andb_prop in G as [G1 G2].
  apply Nat.eqb_eq in G2, G3. pose proof (i_final s I G1) as [Q Cq].
  assert (idle s) as Id. { destruct (i_phase s I) as [|(Ru & Z & F & B)]; [done|]. exfalso. rewrite G1 in B. cbn in B. cases B. }
  destruct Id as (_ & A1 & A2 & A3 & _). pose proof (t_queue s tr T) as Tq. rewrite Q, app_nil_r in Tq.
  pose proof (t_res s tr T) as Tr. pose proof (incall_le (jobs s)).
  split; [done|]. split; [|split].
  - pose proof (t_del s tr T) as D. destruct (last (attached tr)) as [d|] eqn:L; [|by apply last_nil in L].
    destruct D as [_ D]. rewrite (flight_none _ A1 A3), app_nil_r in D. done.
  - rewrite Tq. lia.
  - pose proof (t_dropped s tr T) as Dr. pose proof (i_close s I) as Ic. rewrite G1 in Ic. cbn in Ic. destruct (scount s =? 0); cbn in *; [|lia].
    destruct (dropped tr) as [|[] [|? ?]]; cbn in Dr; try lia. done.
Qed.
Lemma all_done ls s tr : run init ls = Some (s, tr) -> rest s -> is_ready s -> attached tr <> [] ->
  began tr = sent tr /\ map snd (delivered tr) = results tr /\ length (results tr) = length (sent tr) /\ (dropped tr <> [] -> closed tr = attached tr).
Proof.
  intros R (J & P & O) Z N. destruct (reach ls s tr R) as [I T].
  assert (idle s) as Id.
  { destruct (i_phase s I) as [|(Ru & _ & F & B)]; [done|]. exfalso. rewrite J in B. unfold credit in B. rewrite J, O in B. cbn in B.
    destruct B as [B|[B|[B|[B|B]]]]; try lia. destruct B as (_ & _ & _ & _ & _ & D & Fi). unfold due in D.
    destruct (down s) eqn:E; [done|]. rewrite (t_down s tr T) in E. rewrite (gone_final s) in E by by apply one_zero. by apply last_nil in E. }
  destruct Id as (_ & A1 & A2 & A3 & _ & _ & _ & _ & _ & A9). pose proof (t_queue s tr T) as Tq.
  assert (queue s = [] /\ closeq s = false) as [Q C].
  { destruct (final s) eqn:F; [by apply i_final|]. destruct (A9 eq_refl Z) as [|X]; [done|]. by rewrite P in X. }
  rewrite Q, app_nil_r in Tq. pose proof (t_res s tr T) as Tr. pose proof (incall_le (jobs s)).
  split; [done|]. split; [|split].
  - pose proof (t_del s tr T) as D. destruct (last (attached tr)) as [d|] eqn:L; [|by apply last_nil in L].
    destruct D as [_ D]. rewrite (flight_none _ A1 A3), app_nil_r in D. done.
  - rewrite Tq. lia.
  - intros Dr. pose proof (t_dropped s tr T) as L. pose proof (i_close s I) as Ic. rewrite P, C in Ic. cbn in Ic.
    assert (final s = true) as F. { destruct (dropped tr); [done|]. destruct (scount s =? 0); cbn in L; [|lia]. destruct (final s); [done|]. cbn in Ic. lia. }
    rewrite (t_closed s tr T). unfold gone. rewrite F, J. done.
Qed.
(** *** nothing attached *)
Lemma run_app s ls1 ls2 s1 s2 tr1 tr2 : run s ls1 = Some (s1, tr1) -> run s1 ls2 = Some (s2, tr2) -> run s (ls1 ++ ls2) = Some (s2, tr1 ++ tr2).
Proof.
  revert s s1 tr1. induction ls1 as [|l ls IH]; intros s s1 tr1 H1 H2; cbn [run app] in *; [by injection H1 as -> <-|].
  destruct (step s l) as [[s3 ev]|] eqn:E; [|done]. destruct (run s3 ls) as [[s4 tr4]|] eqn:E2; [|done]. injection H1 as <- <-.
  rewrite (IH _ _ _ E2 H2). by rewrite app_assoc.
Qed.
Lemma began_app a b : began (a ++ b) = began a ++ began b.
Proof. apply flat_map_app. Qed.
Lemma attached_app a b : attached (a ++ b) = attached a ++ attached b.
Proof. apply flat_map_app. Qed.
Lemma none_more s ls s' tr : inv s -> rcount s = 0 -> run s ls = Some (s', tr) -> rcount s' = 0 /\ attached tr = [].
Proof.
  revert s s' tr. induction ls as [|l ls IH]; intros s s' tr I Z R; cbn [run] in R; [by injection R as <- <-|].
  destruct (step s l) as [[s1 ev]|] eqn:E; [|done]. destruct (run s1 ls) as [[s2 tr2]|] eqn:E2; [|done]. injection R as <- <-.
  assert (rcount s1 = 0 /\ attached ev = []) as [Z1 A1].
  { destruct l as [v| | | | | |k|k|k|k o]; cbn [step] in E; rewrite ?Z in E.
    - destruct (scount s =? 0); [done|]. injection E as <- <-. by destruct (running s).
    - destruct (scount s =? 0); [done|]. by injection E as <- <-.
    - destruct (scount s) as [|[|n]]; [done| |]; by injection E as <- <-.
    - done.
    - done.
    - done.
    - destruct (owed s !! k); [|done]. by injection E as <- <-.
    - destruct (pends s !! k) as [p|]; [|done]. injection E as <- <-. match goal with |- context [run_if ?b _] => destruct b end; destruct p; done.
    - destruct (jobs s !! k) as [p|]; [|done]. destruct p; cbn [job_step] in E; norm; try done.
      + destruct (queue s); by injection E as <- <-.
      + by injection E as <- <-.
      + by injection E as <- <-.
      + destruct (down s); by injection E as <- <-.
      + injection E as <- <-. by destruct (final s).
      + injection E as <- <-. unfold clear2. norm. repeat case_match; done.
      + injection E as <- <-. unfold run_if; cbn; repeat case_match; done.
      + destruct (down s); by injection E as <- <-.
      + injection E as <- <-. by destruct (final s).
      + injection E as <- <-. unfold clear2. norm. repeat case_match; done.
    - destruct (jobs s !! k) as [[]|]; try done. by injection E as <- <-. }
  destruct (IH s1 s2 tr2) as [Z2 A2]; [by eapply step_inv|done|done|]. rewrite attached_app, A1, A2. done.
Qed.
Lemma alone ls s tr ls' s' tr' : run init ls = Some (s, tr) -> is_ready s -> attached tr = [] -> run s ls' = Some (s', tr') ->
  length (began (tr ++ tr')) <= 1 /\ delivered (tr ++ tr') = [].
Proof.
  intros R Z A R'. destruct (reach ls s tr R) as [I T]. destruct (none_more s ls' s' tr' I Z R') as [Z' A'].
  pose proof (run_app _ _ _ _ _ _ _ R R') as RR. destruct (reach _ _ _ RR) as [I' T'].
  assert (attached (tr ++ tr') = []) as AA by by rewrite attached_app, A, A'. split.
  - destruct (t_alone _ _ T' AA) as [E|E]; [rewrite E; cbn; lia|lia].
  - pose proof (t_del _ _ T') as D. by rewrite AA in D.
Qed.
(** *** it comes to rest *)
Definition jw (p : pc) : nat :=
  match p with JCall _ => 15 | JBcast _ => 14 | JSusp _ => 13 | JSend _ => 12 | JSelf => 5 | JSelf2 => 4 | JCts => 5 | JCts2 => 4 | JRun => 3 | JDone => 2 | JFinal => 1 end.
Definition pw (p : pend) : nat := match p with PSend => 12 | PRecv => 4 end.
Definition again (s : st) : nat := if negb (is_nil (queue s)) || closeq s then 3 else 0.
Definition work (s : st) : nat := total jw (jobs s) + 6 * length (owed s) + 13 * length (queue s) + total pw (pends s) + again s * total ending (jobs s).
Lemma ending_le s : inv s -> total ending (jobs s) <= 1.
Proof. intros I. destruct (i_phase s I) as [(R & A1 & A2 & _)|(R & Z & F & B)]; [lia|]. cases B; lia. Qed.
Lemma work_less s l s' ev : inv s -> inner l = true -> step s l = Some (s', ev) -> work s' < work s.
Proof.
  intros I L E. pose proof (ending_le s I) as En. destruct l as [v| | | | | |k|k|k|k o]; try done; clear L; cbn [step] in E.
  - destruct (owed s !! k) as [d|] eqn:O; [|done]. injection E as <- <-. unfold work, again. norm. rewrite !total_add. norm. cbn [jw].
    pose proof (lookup_lt_Some _ _ _ O). rewrite (length_delete (owed s) k) by (by exists d). assert (0 < length (owed s)) by lia. lia.
  - destruct (pends s !! k) as [p|] eqn:P; [|done]. injection E as <- <-. pose proof (total_delete pw k p (pends s) P) as D.
    unfold work, again. match goal with |- context [run_if ?b _] => destruct b end; destruct p; norm; rewrite ?total_add; norm; cbn [jw pw] in *;
      rewrite ?orb_true_r; destruct (negb (is_nil (queue s))), (closeq s); cbn [orb]; lia.
  - destruct (jobs s !! k) as [p|] eqn:J; [|done]. pose proof (total_delete jw k p (jobs s) J) as D. pose proof (total_delete ending k p (jobs s) J) as De.
    unfold work, again. destruct p; cbn [job_step] in E; norm; cbn [jw] in D; try done.
    + destruct (queue s) as [|v q] eqn:Q; injection E as <- <-; norm; rewrite ?Q, !total_add; norm; cbn [jw is_nil negb orb length]; [lia|].
      destruct (negb (is_nil q)), (closeq s); cbn [orb]; lia.
    + injection E as <- <-. norm. rewrite !total_add. norm. cbn [jw]. lia.
    + injection E as <- <-. norm. rewrite !total_add. norm. cbn [jw]. lia.
    + destruct (down s); injection E as <- <-; norm; rewrite ?app_length, !total_add; norm; cbn [jw length]; lia.
    + injection E as <- <-. destruct (final s); norm; rewrite ?total_add; norm; cbn [jw]; lia.
    + injection E as <- <-. unfold clear2. norm. destruct (pred (susp s)); [destruct (negb (is_nil (queue s)) || closeq s) eqn:X|]; norm; rewrite ?X, ?total_add; norm; cbn [jw]; lia.
    + injection E as <- <-. pose proof (i_final s I) as Fi. destruct (final s) eqn:F.
      * destruct (Fi eq_refl) as [Q C]. rewrite Q, C. cbn [is_nil negb orb run_if]. norm. rewrite ?Q, ?C, ?F, ?total_add. norm. rewrite ?total_add. norm. rewrite ?Q, ?C. cbn [jw is_nil negb orb length]. lia.
      * destruct (negb (is_nil (queue s)) || closeq s) eqn:X; norm; rewrite F; norm; rewrite ?X, ?total_add; norm; cbn [jw]; lia.
    + injection E as <- <-. norm. lia.
    + injection E as <- <-. destruct (final s); norm; rewrite ?total_add; norm; cbn [jw]; lia.
    + injection E as <- <-. unfold clear2. norm. destruct (pred (susp s)); [destruct (negb (is_nil (queue s)) || closeq s) eqn:X|]; norm; rewrite ?X, ?total_add; norm; cbn [jw]; lia.
  - destruct (jobs s !! k) as [[| v| | | | | | | | | ]|] eqn:J; try done. injection E as <- <-.
    pose proof (total_delete jw k _ (jobs s) J) as D. pose proof (total_delete ending k _ (jobs s) J) as De. unfold work, again. norm. rewrite !total_add. norm. cbn [jw] in *. lia.
Qed.
Lemma ends_from s : inv s -> Acc (fun s' s => exists l ev, inner l = true /\ step s l = Some (s', ev)) s.
Proof.
  remember (work s) as n eqn:E. revert s E. induction n as [n IH] using lt_wf_ind. intros s -> I. constructor. intros s' (l & ev & L & S).
  eapply IH; [|done|by eapply step_inv]. by eapply work_less.
Qed.
Lemma ends ls s tr : run init ls = Some (s, tr) -> Acc (fun s' s => exists l ev, inner l = true /\ step s l = Some (s', ev)) s.
Proof. intros R. apply ends_from. by apply (reach ls s tr R). Qed.
Lemma rest_iff s : rest s <-> forall l, inner l = true -> step s l = None.
Proof.
  split.
  - intros (J & P & O) [] L; try done; cbn [step]; by rewrite ?J, ?P, ?O.
  - intros H. split_and!.
    + pose proof (H (LJob 0) eq_refl) as X. pose proof (H (LRet 0 (Value 0)) eq_refl) as Y. cbn [step] in X, Y. destruct (jobs s) as [|p js]; [done|]. cbn in X, Y. exfalso.
      destruct p; cbn [job_step] in X; norm; try done; [by destruct (queue s)|by destruct (down s)].
    + pose proof (H (LPend 0) eq_refl) as X. cbn [step] in X. by destruct (pends s).
    + pose proof (H (LCts 0) eq_refl) as X. cbn [step] in X. by destruct (owed s).
Qed.
