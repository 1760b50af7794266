(** Invariants of the process: who is running it, and who will. *)
From Coq Require Import List Bool Arith Lia.
From stdpp Require Import list.
From Verif.Lone Require Import Model Spec.

Definition one (b : bool) : nat := if b then 1 else 0.
Fixpoint total {A} (f : A -> nat) (l : list A) : nat := match l with [] => 0 | a :: l => f a + total f l end.
Lemma total_app {A} (f : A -> nat) l l' : total f (l ++ l') = total f l + total f l'.
Proof. induction l; cbn; lia. Qed.
Lemma total_delete {A} (f : A -> nat) i a l : l !! i = Some a -> total f l = f a + total f (delete i l).
Proof.
  revert i. induction l as [|x l IH]; intros [|i] H; cbn in H; try done; [by injection H as ->|].
  change (delete (S i) (x :: l)) with (x :: delete i l). cbn. rewrite (IH i H). lia.
Qed.
Lemma total_add {A} (f : A -> nat) l a : total f (l ++ [a]) = f a + total f l.
Proof. rewrite total_app. cbn. lia. Qed.
Lemma total_in {A} (f : A -> nat) i a l : l !! i = Some a -> f a <= total f l.
Proof. intros H. rewrite (total_delete f i a l H). lia. Qed.

(** jobs by what they do: up to the broadcast; sending; after it; closing; the answers of downstream *)
Definition early (p : pc) : nat := match p with JRun | JCall _ | JBcast _ | JSusp _ => 1 | _ => 0 end.
Definition ending (p : pc) : nat := match p with JDone => 1 | _ => 0 end.
Definition sending (p : pc) : nat := match p with JSend _ => 1 | _ => 0 end.
Definition self (p : pc) : nat := match p with JSelf | JSelf2 => 1 | _ => 0 end.
Definition closing (p : pc) : nat := match p with JFinal => 1 | _ => 0 end.
Definition answer (p : pc) : nat := match p with JCts | JCts2 => 1 | _ => 0 end.
Definition psend (p : pend) : nat := match p with PSend => 1 | PRecv => 0 end.
Definition precv (p : pend) : nat := match p with PSend => 0 | PRecv => 1 end.

Definition idle (s : st) : Prop :=
  running s = false /\ total early (jobs s) = 0 /\ total ending (jobs s) = 0 /\ total sending (jobs s) = 0 /\ total self (jobs s) = 0 /\
  total answer (jobs s) = 0 /\ owed s = [] /\ susp s = 0 /\ total closing (jobs s) <= one (final s) /\
  (final s = false -> rcount s = 0 -> queue s = [] /\ closeq s = false \/ total precv (pends s) = 1).
Definition credit (s : st) : nat := total answer (jobs s) + length (owed s).
(** how many answers are due: none if nothing is attached *)
Definition due (s : st) : nat := match down s with Some _ => 1 | None => 0 end.
Definition busy (s : st) : Prop :=
  running s = true /\ rcount s = 0 /\ total closing (jobs s) = 0 /\
  ( (total early (jobs s) = 1 /\ total ending (jobs s) = 0 /\ total sending (jobs s) = 0 /\ total self (jobs s) = 0 /\ credit s = 0 /\ susp s = 0 /\ one (final s) = 0)
  \/ (total early (jobs s) = 0 /\ total ending (jobs s) = 1 /\ total sending (jobs s) = 0 /\ total self (jobs s) = 0 /\ credit s = 0 /\ susp s = 0)
  \/ (total early (jobs s) = 0 /\ total ending (jobs s) = 0 /\ total sending (jobs s) = 1 /\ total self (jobs s) = 0 /\ credit s = 0 /\ susp s = 2 /\ one (final s) = 0)
  \/ (total early (jobs s) = 0 /\ total ending (jobs s) = 0 /\ total sending (jobs s) = 0 /\ total self (jobs s) = 1 /\ susp s + due s = 2 + credit s /\ credit s <= due s /\ one (final s) = 0)
  \/ (total early (jobs s) = 0 /\ total ending (jobs s) = 0 /\ total sending (jobs s) = 0 /\ total self (jobs s) = 0 /\ susp s = 1 /\ credit s = due s /\ one (final s) = 0)).
Record inv (s : st) : Prop := {
  i_phase : idle s \/ busy s;
  i_final : final s = true -> queue s = [] /\ closeq s = false;
  i_close : total psend (pends s) + one (closeq s) + one (final s) = one (scount s =? 0);
  i_recv : total precv (pends s) + one (negb (rcount s =? 0)) <= 1;
  i_early : rcount s <> 0 -> final s = false
}.
Ltac norm := cbn [queue running susp closeq final scount rcount down next owed jobs pends add_job run_if set_queue set_running set_susp set_close set_counts set_down
  set_owed set_jobs set_pends early ending sending self closing answer psend precv one size_of] in *.
Lemma init_inv : inv init.
Proof. split; cbn; try done; try lia. left. repeat split; cbn; try done; lia. Qed.
Lemma is_nil_true {A} (l : list A) : is_nil l = true <-> l = [].
Proof. by destruct l. Qed.
Ltac counts k H :=
  pose proof (total_delete early k _ _ H); pose proof (total_delete ending k _ _ H); pose proof (total_delete sending k _ _ H);
  pose proof (total_delete self k _ _ H); pose proof (total_delete closing k _ _ H); pose proof (total_delete answer k _ _ H).
Ltac arith := rewrite ?total_add, ?app_length in *; norm; cbn [length] in *; lia.
Ltac as_idle := left; unfold idle; norm; rewrite ?total_add; norm; split_and!; try done; try lia; auto.
Ltac pick := first [left; split_and!; lia|right; left; split_and!; lia|right; right; left; split_and!; lia|right; right; right; left; split_and!; lia
  |right; right; right; right; split_and!; lia].
Ltac as_busy := right; unfold busy, credit, due, size_of in *; norm; rewrite ?total_add, ?app_length; norm; cbn [length] in *; try match goal with E : final _ = false |- _ => rewrite ?E end; norm; split; [done|]; split; [first [done|lia]|]; split; [lia|];
  pick.
Ltac cases B := destruct B as [(B1 & B2 & B3 & B4 & B5 & B6 & B7)|[(B1 & B2 & B3 & B4 & B5 & B6)|[(B1 & B2 & B3 & B4 & B5 & B6 & B7)|[(B1 & B2 & B3 & B4 & B5 & B6 & B7)|(B1 & B2 & B3 & B4 & B5 & B6 & B7)]]]];
  unfold credit in *; try (exfalso; lia).
Lemma job_inv s k p s' ev : inv s -> jobs s !! k = Some p -> job_step p (set_jobs (delete k (jobs s)) s) = Some (s', ev) -> inv s'.
Proof.
  intros [I1 I2 I3 I4 I5] H J. counts k H.
  assert (p <> JFinal -> busy s) as B.
  { intros N. destruct I1 as [(R & A1 & A2 & A3 & A4 & A5 & A6 & A7 & A8 & A9)|]; [|done]. destruct p; norm; try lia; done. }
  destruct p; cbn [job_step] in J; norm; try done.
  - specialize (B ltac:(done)). clear I1. destruct B as (R & Z & F & B). cases B. destruct (queue s) as [|v q] eqn:Q; injection J as <- <-.
    + split; norm; try done; [as_busy|]. destruct (final s) eqn:Fi; norm; lia.
    + split; norm; try done; [as_busy|]. intros X. destruct (I2 X). done.
  - specialize (B ltac:(done)). clear I1. destruct B as (R & Z & F & B). cases B. injection J as <- <-. split; norm; try done. as_busy.
  - specialize (B ltac:(done)). clear I1. destruct B as (R & Z & F & B). cases B. injection J as <- <-. split; norm; try done. as_busy.
  - specialize (B ltac:(done)). clear I1. destruct B as (R & Z & F & B). cases B. destruct (down s) as [d|] eqn:D; injection J as <- <-.
    + split; norm; try done. right. unfold busy, credit, due in *. norm. rewrite D, !total_add, !app_length. norm. cbn [length].
      split; [done|]. split; [done|]. split; [lia|]. pick.
    + split; norm; try done. right. unfold busy, credit, due in *. norm. rewrite D, !total_add. norm.
      split; [done|]. split; [done|]. split; [lia|]. pick.
  - specialize (B ltac:(done)). clear I1. destruct B as (R & Z & F & B). cases B. injection J as <- <-.
    destruct (final s) eqn:Fi; [cbn in *; lia|]. assert (due s <= 1) by (unfold due; destruct (down s); lia). split; norm; rewrite ?Fi; norm; try done; try lia. as_busy.
  - specialize (B ltac:(done)). clear I1. destruct B as (R & Z & F & B). cases B. injection J as <- <-. unfold clear2. norm. assert (due s <= 1) by (unfold due; destruct (down s); lia).
    destruct (pred (susp s)) as [|n] eqn:S.
    + destruct (is_nil (queue s)) eqn:Q; [destruct (closeq s) eqn:Cl|]; cbn [negb orb]; split; norm; rewrite ?Cl; norm; try done.
      * as_busy.
      * apply is_nil_true in Q. assert (owed s = []) as O by (destruct (owed s); cbn [length] in *; [done|lia]). as_idle.
      * as_busy.
    + split; norm; try done. as_busy.
  - specialize (B ltac:(done)). clear I1. destruct B as (R & Z & F & B). cases B. injection J as <- <-.
    destruct (final s) eqn:Fi.
    + destruct (I2 eq_refl) as [Q Cl]. rewrite Q, Cl. cbn [is_nil negb orb run_if]. norm. rewrite Fi. split; norm; rewrite ?Fi; try done.
      left. unfold idle, credit in *. norm. rewrite Fi, ?total_add. norm. destruct (owed s); cbn [length] in *; [|lia]. repeat (split; [first [done|lia]|]). done.
    + destruct (is_nil (queue s)) eqn:Q; [destruct (closeq s) eqn:Cl|]; cbn [negb orb run_if]; norm; rewrite Fi; split; norm; rewrite ?Fi, ?Cl; norm; try done; try lia.
      * as_busy.
      * apply is_nil_true in Q. left. unfold idle, credit in *. norm. rewrite Fi. destruct (owed s); cbn [length] in *; [|lia]. repeat (split; [first [done|lia]|]). by left.
      * as_busy.
  - destruct I1 as [(R & A1 & A2 & A3 & A4 & A5 & A6 & A7 & A8 & A9)|(R & Z & F & B')]; [|lia]. injection J as <- <-.
    split; norm; try done. as_idle; lia.
  - specialize (B ltac:(done)). clear I1. destruct B as (R & Z & F & B). injection J as <- <-. assert (due s <= 1) by (unfold due; destruct (down s); lia).
    cases B; (destruct (final s) eqn:Fi; [cbn in *; lia|]); split; norm; rewrite ?Fi; norm; try done; try lia; as_busy.
  - specialize (B ltac:(done)). clear I1. destruct B as (R & Z & F & B). injection J as <- <-. unfold clear2. norm. assert (due s <= 1) by (unfold due; destruct (down s); lia).
    destruct (pred (susp s)) as [|n] eqn:S.
    + destruct (is_nil (queue s)) eqn:Q; [destruct (closeq s) eqn:Cl|]; cbn [negb orb]; split; norm; rewrite ?Cl; norm; try done.
      * cases B; as_busy.
      * apply is_nil_true in Q. cases B; (assert (owed s = []) as O by (destruct (owed s); cbn [length] in *; [done|lia])); as_idle.
      * cases B; as_busy.
    + split; norm; try done. cases B; as_busy.
Qed.
Ltac keep I := destruct I as [(R & A1 & A2 & A3 & A4 & A5 & A6 & A7 & A8 & A9)|(R & Z & F & B)].
Ltac still := right; unfold busy, credit, due in *; norm; split; [done|]; split; [first [done|lia]|]; split; [done|]; assumption.
Lemma step_inv s l s' ev : inv s -> step s l = Some (s', ev) -> inv s'.
Proof.
  intros I H. pose proof I as [I1 I2 I3 I4 I5].
  destruct l as [v| | | | | |k|k|k|k o]; cbn [step] in H.
  - destruct (scount s =? 0) eqn:S; [done|]. injection H as <- <-. cbn [one] in I3.
    assert (final s = false) as Fi by (destruct (final s); cbn in I3; [lia|done]).
    keep I1; rewrite R; cbn [negb andb orb].
    + destruct (rcount s =? 0) eqn:Rc; cbn [andb run_if].
      * apply Nat.eqb_eq in Rc. split; norm; rewrite ?S, ?Fi, ?Rc in *; norm; try done. assert (length (owed s) = 0) by (by rewrite A6). as_busy.
      * apply Nat.eqb_neq in Rc. split; norm; rewrite ?S, ?Fi in *; norm; try done. left. unfold idle. norm. rewrite Fi. split_and!; try done; try lia.
        all: apply Nat.eqb_neq in Rc; by rewrite Rc.
    + rewrite andb_false_r. cbn [run_if]. split; norm; rewrite ?S, ?Fi in *; norm; try done. right. unfold busy, credit, due in *. norm. rewrite Fi. norm. by split_and!.
  - destruct (scount s =? 0) eqn:S; [done|]. injection H as <- <-. split; norm; try done. all: keep I1; [as_idle|still].
  - destruct (scount s) as [|[|n]] eqn:S; [done| |]; injection H as <- <-; cbn in I3.
    + split; norm; rewrite ?total_add; norm; try done; try lia; [|cbn; lia]. keep I1; [|still]. left. unfold idle. norm. rewrite total_add. by split_and!.
    + split; norm; rewrite ?total_add; norm; try done. all: keep I1; [as_idle|still].
  - destruct (rcount s) as [|[|n]] eqn:S; [done| |]; injection H as <- <-; cbn in I4.
    + split; norm; rewrite ?total_add; norm; try done; try (cbn; lia).
      keep I1; [|lia]. left. unfold idle. norm. rewrite total_add. norm. split_and!; try done. intros _ _. right. lia.
    + split; norm; rewrite ?total_add; norm; try done; [|intros _; by apply I5]. keep I1; [|lia]. left. unfold idle. norm. split_and!; try done. 
  - destruct (rcount s =? 0) eqn:S; [done|]. injection H as <- <-. cbn in I4. apply Nat.eqb_neq in S. split; norm; try done; [|auto].
    keep I1; [|lia]. left. unfold idle. norm. by split_and!.
  - destruct (rcount s =? 0) eqn:S; [done|]. injection H as <- <-. split; norm; rewrite ?S; norm; try done. apply Nat.eqb_neq in S.
    keep I1; [as_idle|lia].
  - destruct (owed s !! k) as [d|] eqn:O; [|done]. injection H as <- <-. keep I1; [by rewrite A6 in O|].
    assert (length (owed s) = S (length (delete k (owed s)))) as L by (rewrite length_delete; [|by eauto]; apply lookup_lt_Some in O; lia).
    split; norm; try done. right. unfold busy, credit, due in *. norm. rewrite !total_add. norm. split; [done|]. split; [done|]. split; [done|].
    replace (total answer (jobs s) + length (owed s)) with (1 + total answer (jobs s) + length (delete k (owed s))) in B by lia. exact B.
  - destruct (pends s !! k) as [p|] eqn:P; [|done]. pose proof (total_delete psend k _ _ P) as P1. pose proof (total_delete precv k _ _ P) as P2.
    destruct p; norm.
    + assert (closeq s = false /\ final s = false /\ (scount s =? 0) = true) as (Cl & Fi & S).
      { destruct (closeq s), (final s), (scount s =? 0); cbn in I3; try lia; done. }
      rewrite Cl, Fi, S in *. injection H as <- <-. keep I1; rewrite R; cbn [negb andb orb].
      * rewrite Fi in A8. cbn [one] in A8. destruct (rcount s =? 0) eqn:Rc; cbn [andb run_if].
        -- apply Nat.eqb_eq in Rc. split; norm; rewrite ?S, ?Rc in *; norm; try done; try lia; try (cbn in *; lia). assert (length (owed s) = 0) by (by rewrite A6). as_busy.
        -- pose proof (proj1 (Nat.eqb_neq _ _) Rc) as Rn. split; norm; rewrite ?S, ?Rc in *; norm; try done; try lia; try (cbn in *; lia). left. unfold idle. norm. by split_and!.
      * rewrite andb_false_r. cbn [run_if]. split; norm; rewrite ?S, ?Z in *; norm; try done; try lia; try (cbn in *; lia). right. unfold busy, credit, due in *. norm. rewrite Fi in *. norm. by split_and!.
    + assert ((rcount s =? 0) = true) as Rc by (destruct (rcount s =? 0); cbn in I4; [done|lia]).
      injection H as <- <-. pose proof (proj1 (Nat.eqb_eq _ _) Rc) as Rz. keep I1; rewrite R; cbn [negb andb orb].
      * rewrite andb_true_r. destruct (is_nil (queue s)) eqn:Q; [destruct (closeq s) eqn:Cl|]; cbn [negb orb andb run_if].
        -- assert (final s = false) as Fi by (destruct (final s); [|done]; cbn in I3; destruct (scount s =? 0); cbn in I3; lia).
           rewrite Fi in A8; cbn [one] in A8. split; norm; rewrite ?Fi, ?Rc, ?Cl in *; norm; try done; try lia; try (cbn in *; lia). assert (length (owed s) = 0) by (by rewrite A6). as_busy.
        -- apply is_nil_true in Q. split; norm; rewrite ?Rc, ?Cl in *; norm; try done; try lia; try (cbn in *; lia). left. unfold idle. norm. split_and!; try done. by left.
        -- assert (final s = false) as Fi by (destruct (final s); [|done]; destruct (I2 eq_refl) as [X _]; by rewrite X in Q).
           rewrite Fi in A8; cbn [one] in A8. split; norm; rewrite ?Fi, ?Rc in *; norm; try done; try lia; try (cbn in *; lia). assert (length (owed s) = 0) by (by rewrite A6). as_busy.
      * rewrite andb_false_r. cbn [run_if]. split; norm; rewrite ?Z in *; norm; try done; try lia; try (cbn in *; lia). still.
  - destruct (jobs s !! k) as [p|] eqn:J; [|done]. by eapply job_inv.
  - destruct (jobs s !! k) as [[| v| | | | | | | | | ]|] eqn:J; try done. injection H as <- <-. counts k J. norm.
    keep I1; [lia|]. cases B. split; norm; try done. as_busy.
Qed.
Lemma run_inv s ls s' tr : inv s -> run s ls = Some (s', tr) -> inv s'.
Proof.
  revert s s' tr. induction ls as [|l ls IH]; intros s s' tr I R; cbn [run] in R; [by injection R as <- <-|].
  destruct (step s l) as [[s1 ev]|] eqn:E; [|done]. destruct (run s1 ls) as [[s2 tr2]|] eqn:E2; [|done].
  injection R as <- <-. eapply IH; [|done]. by eapply step_inv.
Qed.
