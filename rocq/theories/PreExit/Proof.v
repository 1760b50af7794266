From stdpp Require Import list list_numbers.
From Coq Require Import Lia.
From Verif.PreExit Require Import Model Spec.

Fixpoint psize (p : plan) : nat := match p with P _ regs => S (S (sum_list (map (fun q => S (psize q)) regs))) end.
Definition size (ps : list plan) : nat := sum_list (map (fun q => S (psize q)) ps).

Lemma size_app a b : size (a ++ b) = size a + size b.
Proof. unfold size. rewrite map_app. induction (map _ a); simpl; lia. Qed.
Lemma size_rev a : size (rev a) = size a.
Proof. induction a; auto. simpl. rewrite size_app, IHa. unfold size. simpl. lia. Qed.
Lemma size_cons i regs ps : size (P i regs :: ps) = S (S (S (size regs))) + size ps.
Proof. reflexivity. Qed.
Lemma size_length ps : length ps <= size ps.
Proof. induction ps as [|[i r] ps IH]; auto. rewrite size_cons. simpl. lia. Qed.

Lemma run_regs fuel : forall regs st, length regs < fuel ->
  run_acts fuel (map (fun q => Register (to_handler q)) regs) (Stack st false)
    = Ok ([], Stack (map to_handler (rev regs) ++ st) false).
Proof.
  induction fuel as [|fuel IH]; intros regs st Hf; [lia|]. destruct regs as [|p regs]; [auto|].
  cbn [run_acts map]. unfold push at 1. cbn [st_closed st_stack].
  rewrite IH by (simpl in Hf; lia). simpl. rewrite map_app, <- app_assoc. auto.
Qed.

Lemma drain fuel : forall ps, size ps < fuel ->
  pre_exit fuel (Stack (map to_handler ps) false) = Ok (concat (map porder ps), Stack [] true).
Proof.
  induction fuel as [|fuel IH]; intros ps Hf; [lia|]. destruct ps as [|[i regs] ps]; [auto|].
  rewrite size_cons in Hf.
  change (pre_exit (S fuel) (Stack (map to_handler (P i regs :: ps)) false)) with
    (let! (t1, s) := run_acts fuel (map (fun q => Register (to_handler q)) regs) (Stack (map to_handler ps) false) in
     let! (t2, s) := pre_exit fuel s in Ok (i :: t1 ++ t2, s)).
  rewrite run_regs by (pose proof (size_length regs); lia).
  rewrite <- map_app, IH by (rewrite size_app, size_rev; lia).
  simpl. rewrite map_app, concat_app, map_rev. auto.
Qed.

Lemma register_spec hs : forall st, register_all hs (Stack st false) = Ok (Stack (rev hs ++ st) false).
Proof. induction hs as [|h hs IH]; intros st; simpl; auto. rewrite IH, <- app_assoc. auto. Qed.

Lemma pre_exit_order ps fuel : size ps < fuel ->
  exists s, register_all (map to_handler ps) stack0 = Ok s /\
    pre_exit fuel s = Ok (order ps, Stack [] true) /\ destroy (Stack [] true) = Ok tt.
Proof.
  intros Hf. eexists. split; [apply register_spec|]. rewrite app_nil_r, <- map_rev, drain by (rewrite size_rev; auto).
  unfold order. rewrite map_rev. auto.
Qed.

Lemma plan_perm n : forall ps, size ps <= n -> order ps ≡ₚ ids ps.
Proof.
  induction n as [|n IH]; intros ps Hn.
  - destruct ps as [|[i r] ps]; [|rewrite size_cons in Hn; lia]. auto.
  - destruct ps as [|[i r] ps]; [auto|]. rewrite size_cons in Hn.
    unfold order, ids in *. simpl. rewrite concat_app. simpl. rewrite app_nil_r.
    rewrite (IH ps) by lia. rewrite (IH r) by lia. rewrite Permutation_app_comm. auto.
Qed.

Lemma exactly_once ps : order ps ≡ₚ ids ps.
Proof. eapply plan_perm. auto. Qed.

(** ** the forbidden uses *)
Lemma pre_exit_closes fuel : forall s t s', pre_exit fuel s = Ok (t, s') -> s' = Stack [] true.
Proof.
  induction fuel as [|fuel IH]; intros s t s' E; [discriminate|]. simpl in E.
  destruct (pop s) as [[[[i acts]|] s1]| |] eqn:Ep; try discriminate.
  - destruct (run_acts fuel acts s1) as [[t1 s2]| |]; try discriminate.
    destruct (pre_exit fuel s2) as [[t2 s3]| |] eqn:E2; try discriminate. injection E as <- <-. eauto.
  - injection E as <- <-. unfold pop in Ep. destruct (st_stack s), (st_closed s); try discriminate; injection Ep as <-; auto.
Qed.

Lemma pre_exit_closed fuel : forall r, pre_exit fuel (Stack [] true) <> Ok r.
Proof. destruct fuel; discriminate. Qed.

Lemma twice_rejected fuel fuel' s t s' r : pre_exit fuel s = Ok (t, s') -> pre_exit fuel' s' <> Ok r.
Proof. intros E. apply pre_exit_closes in E as ->. apply pre_exit_closed. Qed.

Lemma late_rejected fuel s t s' h : pre_exit fuel s = Ok (t, s') -> push s' h = Abort.
Proof. intros E. apply pre_exit_closes in E as ->. auto. Qed.

Lemma run_acts_drain fuel : forall a b s t s', run_acts fuel (a ++ Drain :: b) s = Ok (t, s') -> s' = Stack [] true.
Proof.
  assert (Hc : forall n b t s', run_acts n b (Stack [] true) = Ok (t, s') -> s' = Stack [] true).
  { intros [|n] b t s' E; [discriminate|]. destruct b as [|[h|] b]; simpl in E; try discriminate; [congruence|].
    destruct (pre_exit n (Stack [] true)) eqn:E1; try discriminate. destruct (pre_exit_closed n _ E1). }
  induction fuel as [|fuel IH]; intros a b s t s' E; [discriminate|].
  destruct a as [|x a]; simpl in E.
  - destruct (pre_exit fuel s) as [[t1 s1]| |] eqn:E1; try discriminate.
    apply pre_exit_closes in E1 as ->.
    destruct (run_acts fuel b (Stack [] true)) as [[t2 s2]| |] eqn:E2; try discriminate.
    injection E as <- <-. eauto.
  - destruct x as [h|].
    + destruct (push s h); try discriminate. eauto.
    + destruct (pre_exit fuel s) as [[t1 s1]| |]; try discriminate.
      destruct (run_acts fuel (a ++ Drain :: b) s1) as [[t2 s2]| |] eqn:E2; try discriminate.
      injection E as <- <-. eauto.
Qed.

Lemma nested_rejected fuel i a b st c r : pre_exit fuel (Stack (H i (a ++ Drain :: b) :: st) c) <> Ok r.
Proof.
  intros E. destruct fuel as [|fuel]; [discriminate|].
  change (pre_exit (S fuel) (Stack (H i (a ++ Drain :: b) :: st) c)) with
    (let! (t1, s) := run_acts fuel (a ++ Drain :: b) (Stack st c) in
     let! (t2, s) := pre_exit fuel s in Ok (i :: t1 ++ t2, s)) in E.
  destruct (run_acts fuel (a ++ Drain :: b) (Stack st c)) as [[t1 s1]| |] eqn:E1; try discriminate.
  apply run_acts_drain in E1 as ->.
  destruct (pre_exit fuel (Stack [] true)) eqn:E2; try discriminate. apply (pre_exit_closed _ _ E2).
Qed.

(** ** any number of threads *)

Definition cinv (c : cstate) : Prop :=
  (c_closed c = true -> c_stack c = []) /\ c_pushed c ≡ₚ c_run c ++ c_stack c.

Lemma cstep_inv c l c' : cinv c -> cstep c l = Ok c' -> cinv c'.
Proof.
  intros [Hc Hp] E. destruct l as [h|]; simpl in E.
  - destruct (c_closed c) eqn:Ec; [discriminate|]. injection E as <-. split; simpl; [discriminate|].
    rewrite Hp, <- app_assoc. apply Permutation_app_head. rewrite Permutation_app_comm. auto.
  - destruct (c_stack c) as [|h st] eqn:Es.
    + destruct (c_closed c); [discriminate|]. injection E as <-. split; auto.
    + injection E as <-. split; simpl; [intros H; rewrite H in Hc; discriminate Hc; auto|].
      rewrite Hp, <- app_assoc. auto.
Qed.

Lemma crun_inv ls : forall c c', cinv c -> crun c ls = Ok c' -> cinv c'.
Proof.
  induction ls as [|l ls IH]; intros c c' Hc E; simpl in E; [injection E as <-; auto|].
  destruct (cstep c l) as [c1| |] eqn:E1; try discriminate. eapply IH; [|exact E]. eapply cstep_inv; eauto.
Qed.

Lemma crun_takes ls : forall c c', crun c ls = Ok c' -> c_run c' = c_run c ++ takes (c_stack c) ls.
Proof.
  induction ls as [|l ls IH]; intros c c' E; simpl in E; [injection E as <-; rewrite app_nil_r; auto|].
  destruct (cstep c l) as [c1| |] eqn:E1; try discriminate. rewrite (IH _ _ E). destruct l as [h|]; simpl in *.
  - destruct (c_closed c); [discriminate|]. injection E1 as <-. auto.
  - destruct (c_stack c) as [|h st].
    + destruct (c_closed c); [discriminate|]. injection E1 as <-. auto.
    + injection E1 as <-. simpl. rewrite <- app_assoc. auto.
Qed.

Lemma concurrent ls c : crun c0 ls = Ok c ->
  c_run c = takes [] ls /\ c_pushed c ≡ₚ c_run c ++ c_stack c /\
  (c_closed c = true -> c_pushed c ≡ₚ c_run c /\ forall l, cstep c l = Abort).
Proof.
  intros E. pose proof (crun_takes _ _ _ E) as Ht. simpl in Ht.
  destruct (crun_inv ls c0 c) as [Hc Hp]; auto. { split; auto. }
  split; auto. split; auto. intros Hcl. rewrite (Hc Hcl), app_nil_r in Hp. split; auto.
  intros [h|]; simpl; rewrite ?Hcl, ?(Hc Hcl); auto.
Qed.
