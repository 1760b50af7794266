From stdpp Require Import list.
From Coq Require Import Lia.
From Verif.Algorithm Require Import Model.

Section rev.
Context {A : Type}.
Implicit Types (p q x y s : list A).

Lemma swap_ends p u mid v q :
  iter_swap (p ++ u :: mid ++ v :: q) (length p) (length p + S (length mid)) = Ok (p ++ v :: mid ++ u :: q).
Proof.
  unfold iter_swap. rewrite list_lookup_middle by auto.
  replace ((p ++ u :: mid ++ v :: q) !! (length p + S (length mid))) with (Some v).
  - f_equal. rewrite <- (Nat.add_0_r (length p)) at 2. rewrite insert_app_r. simpl.
    rewrite (insert_app_r p). simpl. f_equal. f_equal.
    rewrite <- (Nat.add_0_r (length mid)). rewrite insert_app_r. auto.
  - rewrite lookup_app_r by lia. replace (length p + S (length mid) - length p) with (S (length mid)) by lia.
    simpl. rewrite list_lookup_middle by auto. auto.
Qed.

Lemma reverse_until_spec n : forall p x y q, length x = n \/ length y = n -> n <= length x -> n <= length y ->
  exists X mid Z, x ++ y = X ++ mid ++ Z /\ length X = n /\ length Z = n /\
    reverse_until n (p ++ x ++ y ++ q) (length p) (length p + length x) (length p + length x + length y)
      = Ok (p ++ rev Z ++ mid ++ rev X ++ q, length p + n, length p + length x + length y - n).
Proof.
  induction n as [|n IH]; intros p x y q Hn Hx Hy.
  - exists [], (x ++ y), []. rewrite app_nil_r. split; auto. split; auto. split; auto. simpl.
    replace (negb _ && negb _) with false.
    + simpl. rewrite <- (app_assoc x y q), Nat.add_0_r, Nat.sub_0_r. auto.
    + symmetry. apply andb_false_iff. destruct Hn as [Hn|Hn]; [left|right]; apply negb_false_iff, Nat.eqb_eq; lia.
  - destruct x as [|u x]; [simpl in Hx; lia|].
    destruct y as [|w y' _] using rev_ind; [simpl in Hy; lia|].
    rewrite app_length in *. simpl in Hx, Hy, Hn.
    destruct (IH (p ++ [w]) x y' (u :: q)) as (X & mid & Z & E & HX & HZ & IHr); [lia..|].
    exists (u :: X), mid, (Z ++ [w]). split.
    { change ((u :: x) ++ y' ++ [w]) with (u :: x ++ y' ++ [w]). rewrite (app_assoc x), E. simpl. rewrite <- !app_assoc. auto. }
    split; [simpl; lia|]. split; [rewrite app_length; simpl; lia|].
    set (l := length p + length (u :: x) + (length y' + length [w])).
    cbn [reverse_until]. replace (negb _ && negb _) with true.
    2:{ symmetry. apply andb_true_iff. split; apply negb_true_iff, Nat.eqb_neq; unfold l; simpl; lia. }
    assert (El : l = S (length p + S (length (x ++ y')))).
    { unfold l. rewrite app_length. simpl. lia. }
    rewrite El. clearbody l.
    assert (Es : p ++ (u :: x) ++ (y' ++ [w]) ++ q = p ++ u :: (x ++ y') ++ w :: q).
    { simpl. rewrite <- !app_assoc. auto. }
    rewrite Es, swap_ends.
    replace (p ++ w :: (x ++ y') ++ u :: q) with ((p ++ [w]) ++ x ++ y' ++ u :: q) by (rewrite <- !app_assoc; auto).
    replace (S (length p)) with (length (p ++ [w])) by (rewrite app_length; simpl; lia).
    replace (length p + length (u :: x)) with (length (p ++ [w]) + length x) by (rewrite app_length; simpl; lia).
    replace (length p + S (length (x ++ y'))) with (length (p ++ [w]) + length x + length y')
      by (rewrite !app_length; simpl; lia).
    rewrite IHr. rewrite rev_app_distr. simpl. rewrite <- !app_assoc. simpl. rewrite !app_length in *. simpl.
    match goal with |- Ok (_, ?a, ?b) = Ok (_, ?a', ?b') =>
      replace a with a' by lia; replace b with b' by lia; auto end.
Qed.

Lemma reverse_until_final p x y q fuel : Nat.min (length x) (length y) <= fuel ->
  let f := length p in let m := f + length x in let l := m + length y in
  exists X mid Z, x ++ y = X ++ mid ++ Z /\
    let a := f + length X in let b := l - length Z in
    length X = length Z /\ a <= b /\ (a = m \/ b = m) /\
    reverse_until fuel (p ++ x ++ y ++ q) f m l = Ok (p ++ rev Z ++ mid ++ rev X ++ q, a, b) /\
    length mid = b - a /\
    p ++ rev Z ++ rev mid ++ rev X ++ q = p ++ rev (x ++ y) ++ q.
Proof.
  intros Hf f m l. set (n := Nat.min (length x) (length y)) in *.
  destruct (reverse_until_spec n p x y q) as (X & mid & Z & E & HX & HZ & Er); [lia..|].
  exists X, mid, Z. split; auto. simpl. fold f m l in Er.
  assert (Hl : length x + length y = length X + (length mid + length Z)) by (rewrite <- !app_length; congruence).
  split; [lia|]. split; [lia|]. split; [lia|]. split; [|split; [lia|]].
  - replace (f + length X) with (f + n) by lia. replace (l - length Z) with (l - n) by lia.
    rewrite <- Er. clear - Hf.
    assert (Hmono : forall k s f m l r, reverse_until (A:=A) k s f m l = Ok r -> forall k', k <= k' -> reverse_until k' s f m l = Ok r).
    { clear. induction k as [|k IH]; intros s f m l r H k' Hk; destruct k' as [|k']; try lia; auto; simpl in *;
        destruct (negb (f =? m) && negb (m =? l)); try discriminate; auto.
      destruct l; auto. destruct (iter_swap s f l); auto. apply IH; auto. lia. }
    destruct (reverse_until_spec n p x y q) as (X & mid & Z & _ & _ & _ & Er); [lia..|].
    fold f m l in Er. rewrite Er. eapply Hmono; eauto.
  - rewrite E, !rev_app_distr, <- !app_assoc. auto.
Qed.

End rev.
