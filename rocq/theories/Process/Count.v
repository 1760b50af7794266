From Coq Require Import List Bool Arith Lia.
From stdpp Require Import list.
From Verif.Process Require Import Model.

Fixpoint cnt (f : pc -> nat) (js : list pc) : nat := match js with [] => 0 | p :: js => f p + cnt f js end.
Lemma cnt_app f a b : cnt f (a ++ b) = cnt f a + cnt f b.
Proof. induction a; simpl; lia. Qed.
Lemma cnt_le f js k p : js !! k = Some p -> f p <= cnt f js.
Proof. revert k; induction js as [|q js IH]; intros [|k] H; simplify_eq/=; try lia. specialize (IH _ H). lia. Qed.
Lemma cnt_set f js k p q : js !! k = Some p -> cnt f (<[k:=q]> js) = cnt f js - f p + f q.
Proof.
  revert k; induction js as [|r js IH]; intros [|k] H; simplify_eq/=; try lia.
  rewrite (IH _ H). pose proof (cnt_le f _ _ _ H). lia.
Qed.
Lemma cnt_del f js k p : js !! k = Some p -> cnt f (delete k js) = cnt f js - f p.
Proof.
  revert k; induction js as [|r js IH]; intros [|k] H; simplify_eq/=; try lia.
  rewrite (IH _ H). pose proof (cnt_le f _ _ _ H). lia.
Qed.
Lemma cnt_zero f js k p : cnt f js = 0 -> js !! k = Some p -> f p = 0.
Proof. intros H Hk. pose proof (cnt_le f _ _ _ Hk). lia. Qed.
Lemma cnt_pos f js : cnt f js > 0 -> exists k p, js !! k = Some p /\ f p > 0.
Proof.
  induction js as [|q js IH]; simpl; [lia|]. intros H.
  destruct (f q) eqn:E; [|exists 0, q; split; [done|lia]].
  destruct IH as (k & p & Hk & Hp); [lia|]. by exists (S k), p.
Qed.
Lemma cnt_two f js k j p q : js !! k = Some p -> js !! j = Some q -> k <> j -> f p + f q <= cnt f js.
Proof.
  revert k j; induction js as [|r js IH]; intros [|k] [|j] Hk Hj N; simplify_eq/=.
  - pose proof (cnt_le f _ _ _ Hj). lia.
  - pose proof (cnt_le f _ _ _ Hk). lia.
  - assert (k <> j) by lia. specialize (IH _ _ Hk Hj H). lia.
Qed.
Lemma cnt_mono f g js : (forall p, f p <= g p) -> cnt f js <= cnt g js.
Proof. intros H. induction js as [|q js IH]; simpl; [lia|]. specialize (H q). lia. Qed.

(** flat_map over jobs of which at most one matters *)
Lemma fm_none {A} (f : pc -> list A) (w : pc -> nat) js : (forall p, w p = 0 -> f p = []) -> cnt w js = 0 -> flat_map f js = [].
Proof.
  intros Hf. induction js as [|q js IH]; simpl; [done|]. intros H.
  rewrite Hf, IH by lia. done.
Qed.
Lemma fm_one {A} (f : pc -> list A) (w : pc -> nat) js k p : (forall p, w p = 0 -> f p = []) -> cnt w js <= 1 -> js !! k = Some p -> w p = 1 ->
  flat_map f js = f p.
Proof.
  intros Hf. revert k. induction js as [|q js IH]; intros [|k] Hc Hk Hp; simplify_eq/=.
  - rewrite (fm_none f w js) by (done || lia). by rewrite app_nil_r.
  - pose proof (cnt_le w _ _ _ Hk). rewrite (Hf q) by lia. simpl. apply (IH k); [lia|done|done].
Qed.
Lemma fm_set {A} (f : pc -> list A) js k p q : js !! k = Some p -> f p = [] -> f q = [] -> flat_map f (<[k:=q]> js) = flat_map f js.
Proof.
  revert k; induction js as [|r js IH]; intros [|k] H Hp Hq; simplify_eq/=; [by rewrite Hp, Hq|]. by rewrite (IH _ H).
Qed.
Lemma fm_del {A} (f : pc -> list A) js k p : js !! k = Some p -> f p = [] -> flat_map f (delete k js) = flat_map f js.
Proof.
  revert k; induction js as [|r js IH]; intros [|k] H Hp; simplify_eq/=; [by rewrite Hp|]. by rewrite (IH _ H).
Qed.

(** runs *)
Lemma run_app c s a b s1 e1 : run c s a = Some (s1, e1) -> run c s (a ++ b) = match run c s1 b with None => None | Some (s2, e2) => Some (s2, e1 ++ e2) end.
Proof.
  revert s s1 e1. induction a as [|l a IH]; simpl; intros s s1 e1 H.
  - injection H as <- <-. by destruct (run c s b) as [[]|].
  - destruct (step c s l) as [[sa ea]|]; [|done]. destruct (run c sa a) as [[sb eb]|] eqn:E; [|done].
    injection H as <- <-. rewrite (IH _ _ _ E). destruct (run c sb b) as [[]|]; [|done]. by rewrite app_assoc.
Qed.
(** what holds at the start and is kept by allowed steps holds always *)
Lemma run_ind c p (L : label -> Prop) (I : st -> list event -> Prop) :
  I (init p) [] ->
  (forall s tr l s' e, I s tr -> L l -> step c s l = Some (s', e) -> I s' (tr ++ e)) ->
  forall ls s tr, Forall L ls -> run c (init p) ls = Some (s, tr) -> I s tr.
Proof.
  intros H0 HS ls. induction ls as [|l ls IH] using rev_ind; intros s tr HL H; simpl in *.
  - by injection H as <- <-.
  - apply Forall_app in HL as [HL Hl]. apply Forall_inv in Hl.
    destruct (run c (init p) ls) as [[s1 e1]|] eqn:E.
    + rewrite (run_app _ _ _ _ _ _ E) in H. simpl in H. destruct (step c s1 l) as [[s2 e2]|] eqn:E2; [|done].
      injection H as <- <-. rewrite app_nil_r. by apply (HS s1 _ l); [apply IH| |].
    + exfalso. assert (N : run c (init p) (ls ++ [l]) <> None) by by rewrite H. clear -N E. revert N E. generalize (init p).
      induction ls as [|l0 ls IH]; simpl; intros s0 N E; [done|].
      destruct (step c s0 l0) as [[sa ea]|]; [|done]. destruct (run c sa ls) as [[]|] eqn:G; [done|].
      apply (IH sa); [|done]. by destruct (run c sa (ls ++ [l])) as [[]|].
Qed.
