From Coq Require Import List Bool Lia Arith.
From stdpp Require Import list.

Fixpoint sumf {A} (f : A -> nat) (l : list A) : nat := match l with [] => 0 | a :: l => f a + sumf f l end.
Definition b2n (b : bool) : nat := if b then 1 else 0.
Definition cnt (k : nat) (l : list nat) : nat := sumf (fun x => b2n (x =? k)) l.

Lemma sumf_app {A} (f : A -> nat) l1 l2 : sumf f (l1 ++ l2) = sumf f l1 + sumf f l2.
Proof. induction l1; simpl; lia. Qed.
Lemma sumf_insert {A} (f : A -> nat) l i a b : l !! i = Some a -> sumf f (<[i := b]> l) + f a = sumf f l + f b.
Proof.
  revert i. induction l as [|x l IH]; intros [|i] H; simpl in *; try done.
  - injection H as ->. lia.
  - specialize (IH i H). lia.
Qed.
Lemma sumf_delete {A} (f : A -> nat) l i a : l !! i = Some a -> sumf f (delete i l) + f a = sumf f l.
Proof.
  revert i. induction l as [|x l IH]; intros [|i] H; simpl in *; try done.
  - injection H as ->. lia.
  - specialize (IH i H). change (f x + sumf f (delete i l) + f a = f x + sumf f l). lia.
Qed.
Lemma sumf_ext {A} (f g : A -> nat) l : (forall x, x ∈ l -> f x = g x) -> sumf f l = sumf g l.
Proof.
  induction l as [|x l IH]; intros H; simpl; [done|]. rewrite (H x) by left. rewrite IH; [done|]. intros y Hy. apply H. by right.
Qed.
Lemma sumf_le {A} (f g : A -> nat) l : (forall x, x ∈ l -> f x <= g x) -> sumf f l <= sumf g l.
Proof.
  induction l as [|x l IH]; intros H; simpl; [done|]. pose proof (H x ltac:(left)). assert (sumf f l <= sumf g l); [|lia].
  apply IH. intros y Hy. apply H. by right.
Qed.
Lemma sumf_in {A} (f : A -> nat) l x : x ∈ l -> f x <= sumf f l.
Proof. induction 1; simpl; lia. Qed.
Lemma sumf_lookup {A} (f : A -> nat) l i x : l !! i = Some x -> f x <= sumf f l.
Proof. intros H. apply sumf_in. by eapply elem_of_list_lookup_2. Qed.
Lemma sumf_two {A} (f : A -> nat) l i j x y : l !! i = Some x -> l !! j = Some y -> i <> j -> f x + f y <= sumf f l.
Proof.
  revert i j. induction l as [|a l IH]; intros [|i] [|j] H1 H2 N; simpl in *; try done.
  - injection H1 as ->. pose proof (sumf_lookup f l j y H2). lia.
  - injection H2 as ->. pose proof (sumf_lookup f l i x H1). lia.
  - specialize (IH i j H1 H2). lia.
Qed.
Lemma sumf_0 {A} (f : A -> nat) l : sumf f l = 0 <-> forall x, x ∈ l -> f x = 0.
Proof.
  split.
  - intros H x Hx. pose proof (sumf_in f l x Hx). lia.
  - intros H. induction l as [|a l IH]; simpl; [done|]. rewrite (H a) by left. apply IH. intros x Hx. apply H. by right.
Qed.
Lemma sumf_pos {A} (f : A -> nat) l : 0 < sumf f l -> exists i x, l !! i = Some x /\ 0 < f x.
Proof.
  induction l as [|a l IH]; simpl; [lia|]. intros H. destruct (decide (0 < f a)); [by exists 0, a|].
  destruct IH as (i & x & Hi & Hx); [lia|]. by exists (S i), x.
Qed.
Lemma sumf_le_length {A} (f : A -> nat) l : (forall x, f x <= 1) -> sumf f l <= length l.
Proof. intros H. induction l as [|a l IH]; simpl; [done|]. specialize (H a). lia. Qed.
Lemma sumf_omap {A B} (g : A -> option B) (f : B -> nat) l : sumf f (omap g l) = sumf (fun x => match g x with Some y => f y | None => 0 end) l.
Proof. induction l as [|a l IH]; [done|]. simpl. rewrite <- IH. by destruct (g a). Qed.
Lemma sumf_map {A B} (g : A -> B) (f : B -> nat) l : sumf f (map g l) = sumf (fun x => f (g x)) l.
Proof. induction l; simpl; congruence. Qed.
Lemma sumf_zip {A B} (f : A * B -> nat) (l : list A) (k : list B) : length l = length k ->
  sumf f (zip l k) = sumf (fun i => match l !! i, k !! i with Some a, Some b => f (a, b) | _, _ => 0 end) (seq 0 (length l)).
Proof.
  revert k. induction l as [|a l IH]; intros [|b k] H; simpl in *; try done. rewrite <- seq_shift, sumf_map. f_equal.
  by rewrite IH by lia.
Qed.
(** one summand changes *)
Lemma sumf_seq_one f g p d n : p < n -> (forall i, i < n -> i <> p -> g i = f i) -> g p = f p + d ->
  sumf g (seq 0 n) = sumf f (seq 0 n) + d.
Proof.
  intros Hp H E. revert Hp. induction n as [|n IH]; intros Hp; [lia|]. rewrite seq_S, !sumf_app. simpl.
  destruct (decide (p = n)) as [->|N].
  - rewrite E. rewrite (sumf_ext g f); [lia|]. intros x Hx. apply elem_of_list_In, in_seq in Hx. apply H; lia.
  - rewrite IH; [|intros i Hi; apply H; lia|lia]. rewrite (H n) by lia. lia.
Qed.
Lemma sumf_add {A} (f g h : A -> nat) l : (forall x, x ∈ l -> f x + g x = h x) -> sumf f l + sumf g l = sumf h l.
Proof.
  induction l as [|a l IH]; intros H; simpl; [done|]. pose proof (H a ltac:(left)). assert (sumf f l + sumf g l = sumf h l); [|lia].
  apply IH. intros x Hx. apply H. by right.
Qed.
Lemma cnt_app k l1 l2 : cnt k (l1 ++ l2) = cnt k l1 + cnt k l2.
Proof. apply sumf_app. Qed.
Lemma cnt_pos k l : 0 < cnt k l <-> k ∈ l.
Proof.
  split.
  - intros H. apply sumf_pos in H as (i & x & Hi & Hx). destruct (Nat.eqb_spec x k) as [->|]; [|simpl in Hx; lia]. by eapply elem_of_list_lookup_2.
  - intros H. apply (sumf_in (fun x => b2n (x =? k))) in H. unfold cnt. rewrite Nat.eqb_refl in H. simpl in H. lia.
Qed.
