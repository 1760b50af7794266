From Coq Require Import ZArith Lia.
From stdpp Require Import list.
From Verif.Executor Require Import Queue QueueSpec.

Section proof.
Context {A : Type}.
Implicit Types (q : nq A) (l : list (nat * A)).
Local Open Scope Z_scope.

Lemma merge_spec p c : (p < 4)%nat -> 0 <= c < 2 ^ 62 -> merge p c = Z.of_nat p * 2 ^ 62 + c.
Proof.
  intros Hp Hc. unfold merge. rewrite Z.shiftl_mul_pow2 by lia. rewrite Z.mod_small by lia.
  symmetry. rewrite Z.add_nocarry_lxor.
  - apply Z.lxor_lor. apply Z.bits_inj'. intros n Hn. rewrite Z.land_spec, Z.bits_0.
    destruct (Z.lt_ge_cases n 62).
    + rewrite Z.mul_pow2_bits_low by lia. auto.
    + rewrite (Z.bits_above_log2 c n); [apply andb_false_r|lia|].
      destruct (Z.eq_dec c 0) as [->|]; [simpl; lia|]. apply Z.lt_le_trans with 62; [|lia]. apply Z.log2_lt_pow2; lia.
  - apply Z.bits_inj'. intros n Hn. rewrite Z.land_spec, Z.bits_0.
    destruct (Z.lt_ge_cases n 62).
    + rewrite Z.mul_pow2_bits_low by lia. auto.
    + rewrite (Z.bits_above_log2 c n); [apply andb_false_r|lia|].
      destruct (Z.eq_dec c 0) as [->|]; [simpl; lia|]. apply Z.lt_le_trans with 62; [|lia]. apply Z.log2_lt_pow2; lia.
Qed.

(** entry x of the queue is entry y of the specification, submitted as number c *)
Definition ent (x : Z * A) (y : nat * A) (c : Z) : Prop := x.2 = y.2 /\ (y.1 < 4)%nat /\ 0 <= c < 2 ^ 62 /\ x.1 = Z.of_nat y.1 * 2 ^ 62 + c.
Inductive rep : list (Z * A) -> list (nat * A) -> Z -> Prop :=
  | rep_nil n : rep [] [] n
  | rep_snoc xs ys n x y c m : rep xs ys n -> n <= c < m -> m <= 2 ^ 62 -> ent x y c -> rep (xs ++ [x]) (ys ++ [y]) m.

Lemma rep_mono xs ys n m : rep xs ys n -> n <= m -> m <= 2 ^ 62 -> rep xs ys m.
Proof. intros R. destruct R; intros; [constructor|]. econstructor; eauto. lia. Qed.

Lemma rep_bound xs ys n k x : rep xs ys n -> xs !! k = Some x -> exists y c, ys !! k = Some y /\ ent x y c /\ c < n.
Proof.
  intros R. revert k. induction R as [|xs ys n x' y' c m R IH H1 H2 H3]; intros k E; [discriminate|].
  assert (Hl : length xs = length ys). { clear -R. induction R; auto. rewrite !app_length. simpl. lia. }
  apply lookup_app_Some in E as [E|[H E]].
  - destruct (IH k E) as (y&c'&?&?&?). exists y, c'. split; [apply lookup_app_l_Some; auto|]. split; [auto|lia].
  - destruct (k - length xs)%nat as [|] eqn:Ek; [|discriminate]. simpl in E. injection E as <-.
    exists y', c. split; [|split; [auto|lia]]. rewrite lookup_app_r by lia. rewrite <- Hl, Ek. auto.
Qed.

Lemma rep_length xs ys n : rep xs ys n -> length xs = length ys.
Proof. induction 1; auto. rewrite !app_length. simpl. lia. Qed.

Lemma rep_delete xs ys n k : rep xs ys n -> rep (take k xs ++ drop (S k) xs) (take k ys ++ drop (S k) ys) n.
Proof.
  intros R. induction R as [|xs ys n x y c m R IH H1 H2 H3].
  - rewrite !take_nil, !drop_nil. constructor.
  - pose proof (rep_length _ _ _ R) as Hl. destruct (decide (k < length xs)%nat) as [L|L].
    + rewrite !take_app_le, !drop_app_le by lia. rewrite !app_assoc. econstructor; eauto.
    + destruct (decide (k = length xs)) as [->|N].
      * rewrite take_app, Hl, take_app. rewrite !drop_ge by (rewrite app_length; simpl; lia). rewrite !app_nil_r.
        apply rep_mono with n; auto; lia.
      * rewrite !take_ge, !drop_ge by (rewrite app_length; simpl; lia). rewrite !app_nil_r. econstructor; eauto.
Qed.

(** the counters grow along the queue *)
Lemma rep_order xs ys n i j x1 x2 : rep xs ys n -> xs !! i = Some x1 -> xs !! j = Some x2 -> (i < j)%nat ->
  exists y1 y2 c1 c2, ys !! i = Some y1 /\ ys !! j = Some y2 /\ ent x1 y1 c1 /\ ent x2 y2 c2 /\ c1 < c2.
Proof.
  intros R. revert i j. induction R as [|xs ys n x y c m R IH H1 H2 H3]; intros i j E1 E2 L; [discriminate|].
  pose proof (rep_length _ _ _ R) as Hl. apply lookup_app_Some in E2 as [E2|[H E2]].
  - apply lookup_app_Some in E1 as [E1|[H' E1]].
    + destruct (IH i j E1 E2 L) as (y1&y2&c1&c2&?&?&?&?&?). exists y1, y2, c1, c2. split; [apply lookup_app_l_Some; auto|]. split; [apply lookup_app_l_Some; auto|auto].
    + apply lookup_lt_Some in E2. lia.
  - destruct (j - length xs)%nat eqn:Ej; [|discriminate]. simpl in E2. injection E2 as <-.
    apply lookup_app_Some in E1 as [E1|[H' E1]]; [|lia].
    destruct (rep_bound _ _ _ _ _ R E1) as (y1&c1&?&?&?). exists y1, y, c1, c. split; [apply lookup_app_l_Some; auto|]. split; [|split; [auto|split; [auto|lia]]].
      rewrite lookup_app_r by lia. rewrite <- Hl, Ej. auto.
Qed.

Lemma pop_takes q l k a q' n : rep (items q) l n -> pop_at k q = Some (a, q') ->
  exists l', takes l a l' /\ rep (items q') l' n /\ count q' = count q.
Proof.
  intros R E. unfold pop_at in E. destruct (items q !! k) as [[key a']|] eqn:Ek; [|discriminate].
  destruct (forallb _ _) eqn:Ef; [|discriminate]. injection E as <- <-. rewrite forallb_forall in Ef.
  exists (take k l ++ drop (S k) l). simpl. split; [|split; [apply rep_delete; auto|auto]].
  destruct (rep_bound _ _ _ _ _ R Ek) as ([p b]&c&Ey&He&_).
  assert (b = a') as -> by (destruct He; simpl in *; auto).
  exists (take k l), p, (drop (S k) l). split; [symmetry; apply take_drop_middle; auto|]. split; [auto|].
  assert (Hkey : forall x, x ∈ items q -> key <= x.1).
  { intros x Hx. apply Z.leb_le. apply Ef. apply elem_of_list_In. auto. }
  pose proof (rep_length _ _ _ R) as Hl.
  assert (Hk : (k < length (items q))%nat) by (eapply lookup_lt_Some; eauto).
  split; intros y Hy; apply elem_of_list_lookup in Hy as [i Hi].
  - apply lookup_take_Some in Hi as [Hi L].
    assert (is_Some (items q !! i)) as [x Hx] by (apply lookup_lt_is_Some; lia).
    destruct (rep_order _ _ _ _ _ _ _ R Hx Ek L) as (y1&y2&c1&c2&Y1&Y2&T1&T2&Hc).
    rewrite Hi in Y1. injection Y1 as <-. rewrite Ey in Y2. injection Y2 as <-.
    destruct T1 as (_&_&B1&K1). destruct T2 as (_&_&B2&K2). simpl in *.
    assert (key <= x.1) by (apply Hkey; eapply elem_of_list_lookup_2; eauto). nia.
  - rewrite lookup_drop in Hi.
    assert (is_Some (items q !! (S k + i)%nat)) as [x Hx] by (apply lookup_lt_is_Some; rewrite Hl; apply lookup_lt_Some in Hi; auto).
    destruct (rep_bound _ _ _ _ _ R Hx) as (y1&c1&Y1&T1&_). rewrite Hi in Y1. injection Y1 as <-.
    destruct T1 as (_&_&B1&K1). destruct He as (_&_&B2&K2). simpl in *.
    assert (key <= x.1) by (apply Hkey; eapply elem_of_list_lookup_2; eauto). nia.
Qed.

Lemma qrun_serves os : forall q l q' out, valid os -> rep (items q) l (count q) -> 0 <= count q ->
  count q + Z.of_nat (length (pushed os)) <= 2 ^ 62 -> qrun q os = Some (q', out) ->
  exists l', serves l os out l' /\ rep (items q') l' (count q').
Proof.
  induction os as [|[p a|k] os IH]; intros q l q' out V R H0 Hb E; simpl in E; inversion V; subst.
  - injection E as <- <-. exists l. split; [constructor|auto].
  - simpl in Hb. assert (Hm : (count q + 1) mod 2 ^ 64 = count q + 1) by (apply Z.mod_small; lia).
    destruct (IH (push p a q) (l ++ [(p, a)]) q' out) as (l'&S&R'); auto.
    + simpl. rewrite Hm. econstructor; [exact R| | |]; [|lia|].
      * instantiate (1 := count q). lia.
      * split; [auto|]. simpl. split; [auto|]. split; [lia|]. apply merge_spec; [auto|lia].
    + simpl. rewrite Hm. lia.
    + simpl. rewrite Hm. lia.
    + exists l'. split; [constructor; auto|auto].
  - destruct (pop_at k q) as [[a q1]|] eqn:Ep; [|discriminate]. destruct (qrun q1 os) as [[q2 out2]|] eqn:E2; [|discriminate].
    injection E as <- <-. destruct (pop_takes _ _ _ _ _ _ R Ep) as (l1&T&R1&Hc).
    destruct (IH q1 l1 q2 out2) as (l'&S&R'); auto; rewrite ?Hc; auto.
    exists l'. split; [econstructor; eauto|auto].
Qed.

Lemma qrun_spec os q' out : valid os -> Z.of_nat (length (pushed os)) <= 2 ^ 62 -> qrun nq0 os = Some (q', out) ->
  exists l', serves [] os out l' /\ l'.*2 = (items q').*2.
Proof.
  intros V B E. destruct (qrun_serves os nq0 [] q' out V) as (l'&S&R); simpl; auto; [constructor|lia|].
  exists l'. split; [auto|]. clear -R. induction R as [|xs ys n x y c m R IH H1 H2 [H3 _]]; auto.
  rewrite !fmap_app, IH. simpl. rewrite H3. auto.
Qed.

Lemma serves_perm l os out l' : serves l os out l' -> l.*2 ++ pushed os ≡ₚ out ++ l'.*2.
Proof.
  induction 1 as [l|l p a os out l' S IH|l k a l1 os out l' T S IH]; simpl.
  - rewrite app_nil_r. auto.
  - rewrite <- IH, fmap_app. simpl. rewrite <- app_assoc. auto.
  - rewrite <- IH. destruct T as (x&p&y&->&->&_). rewrite !fmap_app. simpl. rewrite Permutation_middle. auto.
    rewrite <- !app_assoc. simpl. rewrite Permutation_middle. auto.
Qed.

Lemma conserve os q' out : valid os -> Z.of_nat (length (pushed os)) <= 2 ^ 62 -> qrun nq0 os = Some (q', out) ->
  pushed os ≡ₚ out ++ (items q').*2.
Proof. intros V B E. destruct (qrun_spec _ _ _ V B E) as (l'&S&<-). apply (serves_perm _ _ _ _ S). Qed.

(** a pop is always possible on a non-empty queue *)
Lemma pop_enabled q : is_empty q = false -> exists k r, pop_at k q = Some r.
Proof.
  unfold is_empty, pop_at. intros H. assert (Hne : items q <> []) by (destruct (items q); congruence). clear H.
  assert (exists k x, items q !! k = Some x /\ forall y, y ∈ items q -> x.1 <= y.1) as (k&[key a]&E&Hm).
  { induction (items q) as [|x l IH]; [congruence|]. destruct l as [|y l].
    - exists 0%nat, x. split; auto. intros y ->%elem_of_list_singleton. lia.
    - destruct IH as (k&z&E&Hz); [congruence|]. destruct (Z.le_gt_cases x.1 z.1).
      + exists 0%nat, x. split; auto. intros u [->|Hu]%elem_of_cons; [lia|]. specialize (Hz u Hu). lia.
      + exists (S k), z. split; auto. intros u [->|Hu]%elem_of_cons; [lia|]. auto. }
  exists k. rewrite E. assert (forallb (fun x => key <=? x.1) (items q) = true) as ->; [|eauto].
  apply forallb_forall. intros x Hx. apply Z.leb_le, Hm, elem_of_list_In, Hx.
Qed.
End proof.

(** the bound is tight *)
Local Open Scope Z_scope.
Fixpoint churn (n : nat) : list (qop nat) := match n with O => [] | S n => Push 0 7%nat :: Pop 1 :: churn n end.
Lemma churn_run n : forall c key, 0 <= c -> c + Z.of_nat n <= 2 ^ 62 -> 2 ^ 62 <= key -> forall b w,
  qrun (NQ [(key, 9%nat)] c b w) (churn n) = Some (NQ [(key, 9%nat)] (c + Z.of_nat n) b w, replicate n 7%nat).
Proof.
  induction n as [|n IH]; intros c key Hc Hn Hk b w; cbn [churn qrun].
  - rewrite Z.add_0_r. auto.
  - unfold push. simpl. unfold pop_at. simpl. rewrite merge_spec by lia. replace (Z.of_nat 0 * 2 ^ 62 + c) with c by lia. simpl.
    destruct (Z.leb_spec c key); [|lia]. destruct (Z.leb_spec c c); [|lia]. simpl.
    rewrite Z.mod_small by lia. rewrite IH by lia. replace (c + 1 + Z.of_nat n) with (c + Z.of_nat (S n)) by lia. auto.
Qed.

Lemma takes_two (x y : nat) a l1 : takes [(1%nat, x); (0%nat, y)] a l1 -> a = y /\ l1 = [(1%nat, x)].
Proof.
  intros (l&p&l2&E&->&H1&H2). destruct l as [|z [|z' l]].
  - injection E as <- <- <-. specialize (H2 (0%nat, y)). simpl in H2. assert (1 <= 0)%nat; [apply H2; left|lia].
  - injection E as <- <- <- <-. auto.
  - destruct l; discriminate.
Qed.
Lemma churn_serves n os out l' : serves [(1%nat, 9%nat)] (churn n ++ os) out l' ->
  exists out', out = replicate n 7%nat ++ out' /\ serves [(1%nat, 9%nat)] os out' l'.
Proof.
  revert out. induction n as [|n IH]; intros out S; simpl in S; [eauto|].
  inversion S as [|? ? ? ? ? ? S1|]; subst. inversion S1 as [| |? ? ? ? ? ? ? T S2]; subst. simpl in T.
  apply takes_two in T as [-> ->]. apply IH in S2 as (out'&->&S2). exists out'. auto.
Qed.
Lemma qrun_app (os1 os2 : list (qop nat)) : forall q q1 o1, qrun q os1 = Some (q1, o1) ->
  qrun q (os1 ++ os2) = match qrun q1 os2 with Some (q2, o2) => Some (q2, o1 ++ o2) | None => None end.
Proof.
  induction os1 as [|[p a|k] os1 IH]; intros q q1 o1 E; simpl in *.
  - injection E as <- <-. destruct (qrun q os2) as [[? ?]|]; auto.
  - apply IH, E.
  - destruct (pop_at k q) as [[a q2]|]; [|discriminate]. destruct (qrun q2 os1) as [[q3 o3]|] eqn:E3; [|discriminate].
    injection E as <- <-. rewrite (IH _ _ _ E3). destruct (qrun q3 os2) as [[? ?]|]; auto.
Qed.
Lemma churn_pushed n : length (pushed (churn n)) = n.
Proof. induction n; simpl; auto. Qed.

Lemma tight_aux N : Z.of_nat N = 2 ^ 62 - 1 -> exists (os : list (qop nat)) q' out, valid os /\ Z.of_nat (length (pushed os)) = 2 ^ 62 + 1 /\
  qrun nq0 os = Some (q', out) /\ ~ exists l', serves [] os out l'.
Proof.
  intros HN.
  exists (Push 1 9%nat :: churn N ++ [Push 0 8%nat; Pop 0]).
  eexists. eexists. split; [|split; [|split]].
  - constructor; [lia|]. apply Forall_app. split.
    + clear. induction N; simpl; constructor; [lia|]. constructor; auto.
    + repeat constructor; lia.
  - simpl. unfold pushed. rewrite omap_app, app_length. fold (pushed (churn N)). rewrite churn_pushed. simpl. lia.
  - cbn [qrun]. rewrite (qrun_app _ _ _ _ _ (churn_run N 1 (2 ^ 62) ltac:(lia) ltac:(lia) ltac:(lia) false false)).
    replace (1 + Z.of_nat N) with (2 ^ 62) by lia. vm_compute. reflexivity.
  - intros [l' S]. inversion S as [|? ? ? ? ? ? S1|]; subst. simpl in S1. apply churn_serves in S1 as (out'&E&S1).
    apply app_inv_head in E. subst out'. inversion S1 as [|? ? ? ? ? ? S2|]; subst. inversion S2 as [| |? ? ? ? ? ? ? T S3]; subst.
    simpl in T. apply takes_two in T as [T _]. discriminate.
Qed.
Lemma tight : exists (os : list (qop nat)) q' out, valid os /\ Z.of_nat (length (pushed os)) = 2 ^ 62 + 1 /\
  qrun nq0 os = Some (q', out) /\ ~ exists l', serves [] os out l'.
Proof. apply (tight_aux (Z.to_nat (2 ^ 62 - 1))). apply Z2Nat.id. lia. Qed.
