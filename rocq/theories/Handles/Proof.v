(** Proofs about Handles. *)
From Coq Require Import List Bool Arith Lia.
From stdpp Require Import list list_numbers.
From Verif.Handles Require Import Model Spec.

Definition w (p : nat) (o : option obj) : nat := if counts p o then 1 else 0.
Lemma holders_sum p s : holders p s = sum_list_with (w p) (objs s).
Proof.
  unfold holders. induction (objs s) as [|o l IH]; [done|]. rewrite filter_cons. simpl. unfold w at 1.
  destruct (counts p o); [rewrite decide_True by done|rewrite decide_False by done]; simpl; lia.
Qed.
Lemma sum_insert p i o o' l : l !! i = Some o -> sum_list_with (w p) (<[i := o']> l) + w p o = sum_list_with (w p) l + w p o'.
Proof.
  revert i. induction l as [|x l IH]; intros [|i] E; simpl in *; try done; [injection E as ->; lia|]. specialize (IH i E). lia.
Qed.
Lemma hold_put p i o o' s : objs s !! i = Some o -> holders p (put i o' s) + w p o = holders p s + w p o'.
Proof. intros E. rewrite !holders_sum. by apply sum_insert. Qed.
Lemma hold_push p o s : holders p (push o s) = holders p s + w p (Some o).
Proof. rewrite !holders_sum. unfold push. simpl. rewrite sum_list_with_app. simpl. lia. Qed.
Lemma hold_ge p i o s : objs s !! i = Some o -> w p o <= holders p s.
Proof. intros E. pose proof (hold_put p i o None s E). unfold w in *. simpl in *. lia. Qed.
Lemma at_some s i x : at_ s i = Some x -> objs s !! i = Some (Some x).
Proof. unfold at_. destruct (objs s !! i) as [[y|]|]; intros E; try done. by injection E as ->. Qed.
Lemma at_lookup s i x : objs s !! i = Some (Some x) -> at_ s i = Some x.
Proof. unfold at_. by intros ->. Qed.
Lemma w_moved p x : w p (Some (moved x)) = 0.
Proof. done. Qed.
Lemma at_put s i j o : i < length (objs s) -> at_ (put i o s) j = if decide (j = i) then o else at_ s j.
Proof.
  intros L. unfold at_, put. simpl. destruct (decide (j = i)) as [->|N].
  - rewrite list_lookup_insert by done. by destruct o.
  - by rewrite list_lookup_insert_ne.
Qed.
Lemma hold_massign p i j x y s : at_ s i = Some x -> at_ s j = Some y -> i <> j -> holders p (massign i j s) + w p (Some x) = holders p s.
Proof.
  intros Ei Ej N. unfold massign. rewrite Ei, Ej. rewrite (proj2 (Nat.eqb_neq i j)) by done.
  pose proof (hold_put p j (Some y) (Some (moved y)) s (at_some _ _ _ Ej)) as H1.
  assert (E2 : objs (put j (Some (moved y)) s) !! i = Some (Some x)) by (unfold put; simpl; rewrite list_lookup_insert_ne by done; by apply at_some).
  pose proof (hold_put p i (Some x) (Some y) _ E2) as H2. rewrite w_moved in H1. lia.
Qed.
Lemma massign_cnt i j s : cnt (massign i j s) = cnt s /\ gone (massign i j s) = gone s /\ length (objs (massign i j s)) = length (objs s).
Proof.
  unfold massign. destruct (at_ s i), (at_ s j); try done. destruct (i =? j); [done|]. simpl. by rewrite !insert_length.
Qed.
Lemma at_massign i j k x y s : at_ s i = Some x -> at_ s j = Some y -> i <> j ->
  at_ (massign i j s) k = if decide (k = i) then Some y else if decide (k = j) then Some (moved y) else at_ s k.
Proof.
  intros Ei Ej N. unfold massign. rewrite Ei, Ej. rewrite (proj2 (Nat.eqb_neq i j)) by done.
  pose proof (lookup_lt_Some _ _ _ (at_some _ _ _ Ei)). pose proof (lookup_lt_Some _ _ _ (at_some _ _ _ Ej)).
  rewrite at_put by (simpl; by rewrite insert_length). destruct (decide (k = i)); [done|]. by rewrite at_put.
Qed.
Lemma at_push s o k : at_ (push o s) k = if decide (k = length (objs s)) then Some o else at_ s k.
Proof.
  unfold at_, push. simpl. destruct (decide (k = length (objs s))) as [->|N].
  - by rewrite list_lookup_middle.
  - destruct (decide (k < length (objs s))); [by rewrite lookup_app_l|]. rewrite lookup_app_r by lia.
    rewrite (lookup_ge_None_2 (objs s)) by lia. destruct (k - length (objs s)) eqn:E; [lia|done].
Qed.
Lemma lookup_eq s i : at_ s i = None -> forall p o, objs s !! i = Some o -> w p o = 0.
Proof. unfold at_. intros H p o E. rewrite E in H. by destruct o. Qed.

(** ** pointers are to processes that have been made; senders have no flag *)
Definition okp (k : kind) (n : nat) (o : option obj) : Prop :=
  match o with Some x => (forall q, ptr x = Some q -> q < n) /\ (k = Snd -> rdy x = false) | None => True end.
Definition bounded (k : kind) (s : st) : Prop := Forall (okp k (length (cnt s))) (objs s) /\ Forall (λ q, q < length (cnt s)) (gone s).
Lemma b_put k i o s : bounded k s -> okp k (length (cnt s)) o -> bounded k (put i o s).
Proof. intros [B G] O. split; [|done]. simpl. by apply Forall_insert. Qed.
Lemma b_push k o s : bounded k s -> okp k (length (cnt s)) (Some o) -> bounded k (push o s).
Proof. intros [B G] O. split; [|done]. simpl. apply Forall_app. split; [done|]. by constructor. Qed.
Lemma b_at k i x s : bounded k s -> at_ s i = Some x -> okp k (length (cnt s)) (Some x).
Proof. intros [B G] E. apply at_some in E. by apply (proj1 (Forall_lookup _ _) B i). Qed.
Lemma b_moved k i x s : bounded k s -> at_ s i = Some x -> okp k (length (cnt s)) (Some (moved x)).
Proof. intros B E. destruct (b_at k i x s B E) as [_ H]. split; [done|]. exact H. Qed.
Lemma b_massign k i j s : bounded k s -> bounded k (massign i j s).
Proof.
  intros B. unfold massign. destruct (at_ s i) eqn:Ei, (at_ s j) eqn:Ej; try done. destruct (i =? j); [done|].
  apply b_put; [apply b_put|]; [done|by apply (b_moved k j)|]. simpl. by apply (b_at k j o0 s).
Qed.
Lemma add_len s q : length (cnt (add s q)) = length (cnt s) /\ objs (add s q) = objs s /\ gone (add s q) = gone s.
Proof. unfold add. destruct (lock s q); [|done]. simpl. by rewrite alter_length. Qed.
Lemma remove_len s q : length (cnt (fst (remove s q))) = length (cnt s) /\ objs (fst (remove s q)) = objs s /\ gone (fst (remove s q)) = gone s.
Proof. unfold remove. destruct (lock s q); [|done]. simpl. by rewrite alter_length. Qed.
Lemma b_same k s s' : bounded k s -> length (cnt s') = length (cnt s) -> objs s' = objs s -> gone s' = gone s -> bounded k s'.
Proof. intros [B G] H1 H2 H3. unfold bounded. by rewrite H1, H2, H3. Qed.
Lemma b_add k s q : bounded k s -> bounded k (add s q).
Proof. intros B. destruct (add_len s q) as (?&?&?). by eapply b_same. Qed.
Lemma b_remove k s q : bounded k s -> bounded k (fst (remove s q)).
Proof. intros B. destruct (remove_len s q) as (?&?&?). by eapply b_same. Qed.
Lemma okp_mono k n m o : n <= m -> okp k n o -> okp k m o.
Proof. destruct o as [x|]; [|done]. simpl. intros L [H H2]. split; [|done]. intros q E. specialize (H q E). lia. Qed.
Lemma b_step k s l s' e : bounded k s -> step k s l = Some (s', e) -> bounded k s'.
Proof.
  intros B E. destruct l as [n| |i|i|i j|i j|i j|i|i|i|p]; simpl in E.
  - destruct k; injection E as <- <-; destruct B as [B G]; split; simpl; rewrite ?app_length; simpl.
    + apply Forall_app. split; [eapply Forall_impl; [done|]; intros o; apply okp_mono; lia|]. apply Forall_forall. intros o [-> _]%elem_of_replicate. split; [|done]. intros q E. injection E. lia.
    + eapply Forall_impl; [done|]. simpl. intros. lia.
    + apply Forall_app. split; [eapply Forall_impl; [done|]; intros o; apply okp_mono; lia|]. constructor; [|done]. split; [|done]. intros q E. injection E. lia.
    + eapply Forall_impl; [done|]. simpl. intros. lia.
  - injection E as <- <-. by apply b_push.
  - destruct (at_ s i) as [x|] eqn:Ei; [|done]. injection E as <- <-. apply b_push; [by apply b_add|].
    rewrite (proj1 (add_len _ _)). by apply (b_at k i x s).
  - destruct (at_ s i) as [x|] eqn:Ei; [|done]. injection E as <- <-. apply b_push; [apply b_put; [done|by apply (b_moved k i)]|]. by apply (b_at k i x s).
  - destruct (at_ s i) as [x|] eqn:Ei; [|done]. destruct (at_ s j) as [y|] eqn:Ej; [|done]. destruct (i =? j); [done|].
    injection E as <- <-. apply b_put; [|done]. apply b_massign, b_push; [by apply b_add|].
    rewrite (proj1 (add_len _ _)). by apply (b_at k j y s).
  - destruct (at_ s i) as [x|] eqn:Ei; [|done]. destruct (at_ s j) as [y|] eqn:Ej; [|done]. injection E as <- <-. by apply b_massign.
  - destruct (at_ s i) as [x|] eqn:Ei; [|done]. destruct (at_ s j) as [y|] eqn:Ej; [|done]. injection E as <- <-.
    apply b_put; [|done]. apply b_massign, b_massign, b_push; [apply b_put; [done|by apply (b_moved k i)]|]. by apply (b_at k i x s).
  - destruct (at_ s i) as [x|] eqn:Ei; [|done]. destruct (rdy x); [injection E as <- <-; by apply b_put|].
    pose proof (b_remove _ s (ptr x) B) as R. destruct (remove s (ptr x)) as [s1 e1]. injection E as <- <-. by apply b_put.
  - destruct k; [|done]. destruct (at_ s i) as [x|] eqn:Ei; [|done].
    pose proof (b_remove _ s (ptr x) B) as R. destruct (remove s (ptr x)) as [s1 e1]. injection E as <- <-. by apply b_put.
  - destruct k; [done|]. destruct (at_ s i) as [x|] eqn:Ei; [|done]. destruct (rdy x).
    + injection E as <- <-. apply b_put; [done|]. split; [|done]. by apply (b_at Rcv i x s).
    + pose proof (b_remove _ s (ptr x) B) as R. pose proof (proj1 (remove_len s (ptr x))) as L. destruct (remove s (ptr x)) as [s1 e1]. injection E as <- <-.
      apply b_put; [done|]. simpl in L. rewrite L. split; [|done]. by apply (b_at Rcv i x s).
  - destruct k; [|done]. destruct (decide (p < length (cnt s))); [|done]. injection E as <- <-. destruct B as [B G]. split; [done|]. by constructor.
Qed.
Lemma b_holders k s p : bounded k s -> length (cnt s) <= p -> holders p s = 0.
Proof.
  intros [B _] L. rewrite holders_sum. induction B as [|o l O B IH]; [done|]. simpl. rewrite IH. unfold w.
  destruct o as [[[q|] []]|]; simpl in *; try done. destruct O as [O _]. specialize (O q eq_refl). rewrite bool_decide_false by lia. done.
Qed.

(** ** counting *)
Lemma lock_some s q p : lock s q = Some p -> q = Some p /\ p ∉ gone s.
Proof. unfold lock. destruct q as [q|]; [|done]. destruct (decide (q ∈ gone s)); [done|]. by intros [= ->]. Qed.
Lemma lock_alive s p : p ∉ gone s -> lock s (Some p) = Some p.
Proof. intros G. unfold lock. by rewrite decide_False. Qed.
Lemma add_cnt s q p c : p ∉ gone s -> cnt s !! p = Some c -> cnt (add s q) !! p = Some (c + (if decide (q = Some p) then 1 else 0)).
Proof.
  intros G E. unfold add. destruct (decide (q = Some p)) as [->|N].
  - rewrite lock_alive by done. simpl. rewrite list_lookup_alter, E. simpl. f_equal. lia.
  - rewrite Nat.add_0_r. destruct (lock s q) as [r|] eqn:L; [|done]. apply lock_some in L as [-> _]. simpl.
    rewrite list_lookup_alter_ne; [done|congruence].
Qed.
Lemma w_obj p x : w p (Some x) = if decide (ptr x = Some p) then if rdy x then 0 else 1 else 0.
Proof.
  destruct x as [[q|] b]; unfold w; cbn [ptr rdy counts]; [|by rewrite decide_False]. destruct b; [by destruct (decide (Some q = Some p))|].
  destruct (decide (Some q = Some p)); [rewrite bool_decide_true by congruence; done|rewrite bool_decide_false by congruence; done].
Qed.
Lemma remove_spec s x i p m s1 e : objs s !! i = Some (Some x) -> rdy x = false -> remove s (ptr x) = (s1, e) -> p ∉ gone s -> cnt s !! p = Some (holders p s + m) ->
  cnt s1 !! p = Some (holders p s + m - w p (Some x)) /\ Under p ∉ e /\ (Zero p ∈ e <-> w p (Some x) = 1 /\ holders p s + m = 1).
Proof.
  intros Ei Rx E G C. pose proof (hold_ge p i _ s Ei) as Ge. rewrite w_obj, Rx in *. unfold remove in E. destruct (decide (ptr x = Some p)) as [P|P].
  - rewrite P, lock_alive in E by done. injection E as <- <-. simpl. rewrite list_lookup_alter, C. simpl. split; [f_equal; lia|].
    destruct (holders p s + m) as [|[|n]] eqn:En; [lia| |].
    + split; [intros [[=]|[]%elem_of_nil]%elem_of_cons|]. split; [done|intros _; by left].
    + split; [apply not_elem_of_nil|]. split; [by intros ?%elem_of_nil|lia].
  - rewrite Nat.sub_0_r. destruct (lock s (ptr x)) as [r|] eqn:L.
    + apply lock_some in L as [L _]. injection E as <- <-. simpl. assert (r <> p) by congruence.
      rewrite list_lookup_alter_ne by done. split; [done|]. split.
      * destruct (cnt s !! r) as [[|[|n]]|]; intros H1; try (by apply elem_of_nil in H1); apply elem_of_cons in H1 as [[=]|H1]; try done; by apply elem_of_nil in H1.
      * split; [|lia]. destruct (cnt s !! r) as [[|[|n]]|]; intros H1; try (by apply elem_of_nil in H1); apply elem_of_cons in H1 as [[=]|H1]; try done; by apply elem_of_nil in H1.
    + injection E as <- <-. split; [done|]. split; [apply not_elem_of_nil|]. split; [by intros ?%elem_of_nil|lia].
Qed.
Lemma no_ev p h h' n : ~ (0 < h /\ h' = 0 /\ n = 0) -> Under p ∉ @nil ev /\ (Zero p ∈ @nil ev <-> 0 < h /\ h' = 0 /\ n = 0).
Proof. intros N. split; [apply not_elem_of_nil|]. split; [by intros ?%elem_of_nil|done]. Qed.
Lemma ready_w p x : (if decide (ptr x = Some p) then 1 else 0) = w p (Some x) + match x with Obj (Some q) true => if decide (q = p) then 1 else 0 | _ => 0 end.
Proof.
  destruct x as [[q|] []]; unfold w; cbn [ptr rdy counts]; try (by rewrite decide_False).
  - destruct (decide (q = p)) as [->|N]; [by rewrite decide_True|rewrite decide_False by congruence; done].
  - destruct (decide (Some q = Some p)); [rewrite bool_decide_true by congruence; done|rewrite bool_decide_false by congruence; done].
Qed.
Lemma remove_put s x i p m s1 e o : objs s !! i = Some (Some x) -> rdy x = false -> remove s (ptr x) = (s1, e) -> p ∉ gone s -> cnt s !! p = Some (holders p s + m) ->
  w p o = 0 -> holders p (put i o s1) <= 2 * holders p s /\ cnt (put i o s1) !! p = Some (holders p (put i o s1) + m) /\ Under p ∉ e /\ (Zero p ∈ e <-> 0 < holders p s /\ holders p (put i o s1) = 0 /\ m = 0).
Proof.
  intros Oi Rx Rm G C W. destruct (remove_spec s x i p m s1 e Oi Rx Rm G C) as (R1 & R2 & R3).
  pose proof (remove_len s (ptr x)) as (_ & Lo & _). rewrite Rm in Lo. simpl in Lo.
  assert (Oi1 : objs s1 !! i = Some (Some x)) by (by rewrite Lo). pose proof (hold_put p i _ o s1 Oi1) as H. rewrite W in H.
  assert (H1 : holders p s1 = holders p s) by (rewrite !holders_sum; by rewrite Lo). pose proof (hold_ge p i _ s Oi).
  change (cnt (put i o s1)) with (cnt s1). rewrite R1. split; [lia|]. split; [f_equal; lia|]. split; [done|]. rewrite R3.
  assert (w p (Some x) <= 1) by (rewrite w_obj, Rx; destruct (decide _); lia). lia.
Qed.
Lemma count_step k s l s' e p m : bounded k s -> p ∉ gone s -> cnt s !! p = Some (holders p s + m) -> step k s l = Some (s', e) ->
  holders p s' <= 2 * holders p s /\ cnt s' !! p = Some (holders p s' + (m + miscounts p s l)) /\ Under p ∉ e /\
  (Zero p ∈ e <-> 0 < holders p s /\ holders p s' = 0 /\ m + miscounts p s l = 0).
Proof.
  intros B G C E. pose proof (lookup_lt_Some _ _ _ C) as LT. destruct l as [n| |i|i|i j|i j|i j|i|i|i|q]; simpl in E.
  - assert (exists os c, s' = St (objs s ++ os) (cnt s ++ [c]) (gone s) /\ e = [] /\ forall o, o ∈ os -> o = Some (Obj (Some (length (cnt s))) false)) as (os & c & -> & -> & O).
    { destruct k; injection E as <- <-; eexists _, _; split; try done; split; try done; intros o.
      - by intros [-> _]%elem_of_replicate.
      - by intros ->%elem_of_list_singleton. }
    assert (Z : sum_list_with (w p) os = 0).
    { clear - O LT. induction os as [|o os IH]; [done|]. simpl. rewrite IH by (intros; apply O; by right). rewrite (O o) by (by left). unfold w. simpl. rewrite bool_decide_false by lia. done. }
    assert (H : holders p (St (objs s ++ os) (cnt s ++ [c]) (gone s)) = holders p s) by (rewrite !holders_sum; simpl; rewrite sum_list_with_app; lia).
    rewrite H. simpl. rewrite lookup_app_l by done. rewrite !Nat.add_0_r. split; [lia|]. split; [done|]. apply no_ev. lia.
  - injection E as <- <-. rewrite hold_push. unfold w. simpl. rewrite !Nat.add_0_r. split; [lia|]. split; [done|]. apply no_ev. lia.
  - destruct (at_ s i) as [x|] eqn:Ei; [|done]. injection E as <- <-. rewrite hold_push.
    assert (H : holders p (add s (ptr x)) = holders p s) by (rewrite !holders_sum; by rewrite (proj1 (proj2 (add_len _ _)))). rewrite H.
    change (cnt (push x (add s (ptr x)))) with (cnt (add s (ptr x))). rewrite (add_cnt _ _ _ _ G C). rewrite ready_w.
    unfold miscounts. rewrite (at_some _ _ _ Ei). pose proof (hold_ge p i _ s (at_some _ _ _ Ei)). split; [lia|]. split; [f_equal; destruct x as [[q|] []]; lia|]. apply no_ev. lia.
  - destruct (at_ s i) as [x|] eqn:Ei; [|done]. injection E as <- <-. rewrite hold_push.
    pose proof (hold_put p i _ (Some (moved x)) s (at_some _ _ _ Ei)) as H. rewrite w_moved in H. cbn [miscounts push put cnt]. rewrite (Nat.add_0_r m), C.
    split; [lia|]. split; [f_equal; lia|]. apply no_ev. lia.
  - destruct (at_ s i) as [x|] eqn:Ei; [|done]. destruct (at_ s j) as [y|] eqn:Ej; [|done]. destruct (Nat.eqb_spec i j) as [|N]; [done|].
    injection E as <- <-. set (t := length (objs s)). set (s1 := push y (add s (ptr y))).
    assert (Lo : objs (add s (ptr y)) = objs s) by apply add_len.
    assert (Ni : i <> t) by (pose proof (lookup_lt_Some _ _ _ (at_some _ _ _ Ei)); unfold t; lia).
    assert (A1 : at_ s1 i = Some x). { unfold s1. rewrite at_push, Lo. rewrite decide_False by done. unfold at_. rewrite Lo. exact Ei. }
    assert (A2 : at_ s1 t = Some y). { unfold s1. rewrite at_push, Lo. by rewrite decide_True. }
    pose proof (hold_massign p i t x y s1 A1 A2 Ni) as H1.
    assert (A3 : at_ (massign i t s1) t = Some (moved y)) by (rewrite (at_massign i t t x y) by done; by rewrite decide_False, decide_True by done).
    pose proof (hold_put p t _ None _ (at_some _ _ _ A3)) as H2. rewrite w_moved in H2. unfold w at 1 in H2. simpl in H2.
    assert (H3 : holders p s1 = holders p s + w p (Some y)) by (unfold s1; rewrite hold_push; f_equal; rewrite !holders_sum; by rewrite Lo).
    assert (Hc : cnt (put t None (massign i t s1)) = cnt (add s (ptr y))). { simpl. by rewrite (proj1 (massign_cnt i t s1)). }
    rewrite Hc, (add_cnt _ _ _ _ G C), ready_w. unfold miscounts. rewrite (at_some _ _ _ Ei), (at_some _ _ _ Ej).
    rewrite (proj2 (Nat.eqb_neq i j)) by done. rewrite andb_true_r. change (if counts p (Some x) then 1 else 0) with (w p (Some x)).
    pose proof (hold_ge p j _ s (at_some _ _ _ Ej)). split; [lia|]. split; [f_equal; destruct y as [[q|] []]; lia|]. apply no_ev. lia.
  - destruct (at_ s i) as [x|] eqn:Ei; [|done]. destruct (at_ s j) as [y|] eqn:Ej; [|done]. injection E as <- <-.
    rewrite (proj1 (massign_cnt i j s)), C. unfold miscounts. rewrite (at_some _ _ _ Ei). destruct (Nat.eqb_spec i j) as [->|N].
    + rewrite andb_false_r, Nat.add_0_r. unfold massign. rewrite Ei, Nat.eqb_refl. split; [lia|]. split; [done|]. apply no_ev. lia.
    + rewrite andb_true_r. change (if counts p (Some x) then 1 else 0) with (w p (Some x)). pose proof (hold_massign p i j x y s Ei Ej N).
      split; [lia|]. split; [f_equal; lia|]. apply no_ev. lia.
  - destruct (at_ s i) as [x|] eqn:Ei; [|done]. destruct (at_ s j) as [y|] eqn:Ej; [|done]. injection E as <- <-. set (t := length (objs s)).
    pose proof (lookup_lt_Some _ _ _ (at_some _ _ _ Ei)) as Li. pose proof (lookup_lt_Some _ _ _ (at_some _ _ _ Ej)) as Lj.
    set (s1 := push x (put i (Some (moved x)) s)).
    assert (Lt : length (objs (put i (Some (moved x)) s)) = t) by (simpl; by rewrite insert_length).
    assert (At : at_ s1 t = Some x) by (unfold s1; rewrite at_push, Lt; by rewrite decide_True).
    assert (Ai : at_ s1 i = Some (moved x)). { unfold s1. rewrite at_push, Lt, decide_False by (unfold t; lia). rewrite at_put by done. by rewrite decide_True. }
    assert (H1 : holders p s1 = holders p s). { unfold s1. rewrite hold_push. pose proof (hold_put p i _ (Some (moved x)) s (at_some _ _ _ Ei)) as H. rewrite w_moved in H. lia. }
    assert (H2 : holders p (massign i j s1) = holders p s /\ (exists z, at_ (massign i j s1) j = Some z /\ w p (Some z) = 0) /\ at_ (massign i j s1) t = Some x).
    { destruct (decide (i = j)) as [->|N].
      - unfold massign. rewrite Ai, Nat.eqb_refl. split; [done|]. split; [|done]. eexists. split; [done|]. done.
      - assert (Aj : at_ s1 j = Some y). { unfold s1. rewrite at_push, Lt, decide_False by (unfold t; lia). rewrite at_put by done. by rewrite decide_False. }
        pose proof (hold_massign p i j _ _ s1 Ai Aj N) as H. rewrite w_moved in H. split; [lia|]. split.
        + exists (moved y). split; [|done]. rewrite (at_massign i j j _ y s1 Ai Aj N). by rewrite decide_False, decide_True by done.
        + rewrite (at_massign i j t _ y s1 Ai Aj N). by rewrite !decide_False by (unfold t; lia). }
    destruct H2 as (H2 & (z & Az & Wz) & At2). assert (Nj : j <> t) by (unfold t; lia).
    pose proof (hold_massign p j t z x _ Az At2 Nj) as H3.
    assert (At3 : at_ (massign j t (massign i j s1)) t = Some (moved x)) by (rewrite (at_massign j t t z x _ Az At2 Nj); by rewrite decide_False, decide_True by done).
    pose proof (hold_put p t _ None _ (at_some _ _ _ At3)) as H4. rewrite w_moved in H4. unfold w in H4 at 1. simpl in H4.
    assert (Hc : cnt (put t None (massign j t (massign i j s1))) = cnt s). { simpl. rewrite (proj1 (massign_cnt j t _)), (proj1 (massign_cnt i j _)). done. }
    rewrite Hc, C. cbn [miscounts]. rewrite (Nat.add_0_r m). split; [lia|]. split; [f_equal; lia|]. apply no_ev. lia.
  - destruct (at_ s i) as [x|] eqn:Ei; [|done]. pose proof (at_some _ _ _ Ei) as Oi. cbn [miscounts]. rewrite (Nat.add_0_r m). destruct (rdy x) eqn:Rx.
    + injection E as <- <-. pose proof (hold_put p i _ None s Oi) as H. rewrite w_obj, Rx in H. unfold w in H. simpl in H.
      assert (H1 : holders p (put i None s) = holders p s) by (destruct (decide _); lia). rewrite H1. simpl. cbn [cnt put]. split; [lia|]. split; [done|]. apply no_ev. lia.
    + destruct (remove s (ptr x)) as [s1 e1] eqn:Rm. injection E as <- <-. by apply (remove_put s x i p m s1 e1 None).
  - destruct k; [|done]. destruct (at_ s i) as [x|] eqn:Ei; [|done]. pose proof (at_some _ _ _ Ei) as Oi. cbn [miscounts]. rewrite (Nat.add_0_r m).
    destruct (b_at Snd i x s B Ei) as [_ Rx]. specialize (Rx eq_refl).
    destruct (remove s (ptr x)) as [s1 e1] eqn:Rm. injection E as <- <-. by apply (remove_put s x i p m s1 e1).
  - destruct k; [done|]. destruct (at_ s i) as [x|] eqn:Ei; [|done]. pose proof (at_some _ _ _ Ei) as Oi. cbn [miscounts]. rewrite (Nat.add_0_r m). destruct (rdy x) eqn:Rx.
    + injection E as <- <-. pose proof (hold_put p i _ (Some (Obj (ptr x) true)) s Oi) as H. rewrite !w_obj, Rx in H. simpl in H.
      assert (H1 : holders p (put i (Some (Obj (ptr x) true)) s) = holders p s) by (destruct (decide _); lia). rewrite H1. simpl. split; [lia|]. split; [done|]. apply no_ev. lia.
    + destruct (remove s (ptr x)) as [s1 e1] eqn:Rm. injection E as <- <-. apply (remove_put s x i p m s1 e1); try done.
      rewrite w_obj. simpl. by destruct (decide _).
  - destruct k; [|done]. destruct (decide (q < length (cnt s))); [|done]. injection E as <- <-.
    change (holders p (St (objs s) (cnt s) (q :: gone s))) with (holders p s). split; [lia|]. cbn [cnt miscounts]. rewrite Nat.add_0_r. split; [done|]. apply no_ev. lia.
Qed.

(** ** runs *)
Lemma remove_ev s q p : Zero p ∈ snd (remove s q) \/ Under p ∈ snd (remove s q) -> p ∉ gone s /\ is_Some (cnt s !! p).
Proof.
  unfold remove. destruct (lock s q) as [r|] eqn:L; simpl; [|by intros [H|H]; apply elem_of_nil in H].
  apply lock_some in L as [_ L]. destruct (cnt s !! r) as [[|[|n]]|] eqn:E; intros [H|H]; try (by apply elem_of_nil in H);
    apply elem_of_cons in H as [[=]|H]; try (by apply elem_of_nil in H); subst p; rewrite E; eauto.
Qed.
Lemma step_ev k s l s' e p : step k s l = Some (s', e) -> Zero p ∈ e \/ Under p ∈ e -> p ∉ gone s /\ is_Some (cnt s !! p).
Proof.
  assert (N : ~ (Zero p ∈ @nil ev \/ Under p ∈ @nil ev)) by (by intros [H|H]; apply elem_of_nil in H).
  intros E H. destruct l as [n| |i|i|i j|i j|i j|i|i|i|q]; simpl in E.
  - destruct k; injection E as <- <-; done.
  - injection E as <- <-; done.
  - destruct (at_ s i); [|done]. injection E as <- <-; done.
  - destruct (at_ s i); [|done]. injection E as <- <-; done.
  - destruct (at_ s i), (at_ s j); try done. destruct (i =? j); [done|]. injection E as <- <-; done.
  - destruct (at_ s i), (at_ s j); try done. injection E as <- <-; done.
  - destruct (at_ s i), (at_ s j); try done. injection E as <- <-; done.
  - destruct (at_ s i) as [x|]; [|done]. destruct (rdy x); [injection E as <- <-; done|].
    pose proof (remove_ev s (ptr x) p) as R. destruct (remove s (ptr x)). injection E as <- <-. auto.
  - destruct k; [|done]. destruct (at_ s i) as [x|]; [|done].
    pose proof (remove_ev s (ptr x) p) as R. destruct (remove s (ptr x)). injection E as <- <-. auto.
  - destruct k; [done|]. destruct (at_ s i) as [x|]; [|done]. destruct (rdy x); [injection E as <- <-; done|].
    pose proof (remove_ev s (ptr x) p) as R. destruct (remove s (ptr x)). injection E as <- <-. auto.
  - destruct k; [|done]. destruct (decide _); [|done]. injection E as <- <-; done.
Qed.
Lemma step_mono k s l s' e : step k s l = Some (s', e) -> (forall p, p ∉ gone s' -> p ∉ gone s) /\
  (length (cnt s') = length (cnt s) \/ exists n, l = LNew n).
Proof.
  intros E. destruct l as [n| |i|i|i j|i j|i j|i|i|i|q]; simpl in E.
  - destruct k; injection E as <- <-; eauto.
  - injection E as <- <-; eauto.
  - destruct (at_ s i) as [x|]; [|done]. injection E as <- <-. simpl. destruct (add_len s (ptr x)) as (A & _ & C). rewrite A, C. eauto.
  - destruct (at_ s i) as [x|]; [|done]. injection E as <- <-. eauto.
  - destruct (at_ s i), (at_ s j) as [y|]; try done. destruct (i =? j); [done|]. injection E as <- <-. simpl.
    destruct (massign_cnt i (length (objs s)) (push y (add s (ptr y)))) as (M1 & M2 & _). rewrite M1, M2. simpl.
    destruct (add_len s (ptr y)) as (A & _ & C). rewrite A, C. eauto.
  - destruct (at_ s i), (at_ s j); try done. injection E as <- <-. destruct (massign_cnt i j s) as (M1 & M2 & _). rewrite M1, M2. eauto.
  - destruct (at_ s i) as [x|], (at_ s j); try done. injection E as <- <-. simpl.
    match goal with |- context [gone (massign ?a ?b ?c)] => destruct (massign_cnt a b c) as (M1 & M2 & _) end. rewrite M1, M2.
    match goal with |- context [gone (massign ?a ?b ?c)] => destruct (massign_cnt a b c) as (M3 & M4 & _) end. rewrite M3, M4. simpl. eauto.
  - destruct (at_ s i) as [x|]; [|done]. destruct (rdy x); [injection E as <- <-; eauto|].
    pose proof (remove_len s (ptr x)) as (A & _ & C). destruct (remove s (ptr x)). injection E as <- <-. simpl in *. rewrite A, C. eauto.
  - destruct k; [|done]. destruct (at_ s i) as [x|]; [|done].
    pose proof (remove_len s (ptr x)) as (A & _ & C). destruct (remove s (ptr x)). injection E as <- <-. simpl in *. rewrite A, C. eauto.
  - destruct k; [done|]. destruct (at_ s i) as [x|]; [|done]. destruct (rdy x); [injection E as <- <-; eauto|].
    pose proof (remove_len s (ptr x)) as (A & _ & C). destruct (remove s (ptr x)). injection E as <- <-. simpl in *. rewrite A, C. eauto.
  - destruct k; [|done]. destruct (decide _); [|done]. injection E as <- <-. simpl. split; [|eauto]. intros p H1 H2. apply H1. by right.
Qed.
Lemma mis_new k s l p : bounded k s -> length (cnt s) <= p -> miscounts p s l = 0.
Proof.
  intros B L. assert (K : forall i o, objs s !! i = Some o -> counts p o = false /\ match o with Some (Obj (Some q) true) => q <> p | _ => True end).
  { intros i o E. destruct B as [B _]. pose proof (proj1 (Forall_lookup _ _) B i o E) as O. destruct o as [[[q|] []]|]; simpl in *; try done; destruct O as [O _]; specialize (O q eq_refl).
    - split; [done|lia].
    - split; [by rewrite bool_decide_false by lia|done]. }
  assert (R : forall i, match objs s !! i with Some (Some (Obj (Some q) true)) => if decide (q = p) then 1 else 0 | _ => 0 end = 0).
  { intros i. destruct (objs s !! i) as [o|] eqn:E; [|done]. destruct (K i o E) as [_ H]. destruct o as [[[q|] []]|]; try done. by rewrite decide_False. }
  assert (O : forall i j, match objs s !! i with Some o => if counts p o && negb (Nat.eqb i j) then 1 else 0 | None => 0 end = 0).
  { intros i j. destruct (objs s !! i) as [o|] eqn:E; [|done]. by rewrite (proj1 (K i o E)). }
  destruct l; simpl; rewrite ?R, ?O; done.
Qed.
Lemma run_snoc k s ls l : run k s (ls ++ [l]) = match run k s ls with Some (s1, t) => match step k s1 l with Some (s2, e) => Some (s2, t ++ e) | None => None end | None => None end.
Proof.
  revert s. induction ls as [|x ls IH]; intros s; simpl.
  - destruct (step k s l) as [[s2 e]|]; [by rewrite app_nil_r|done].
  - destruct (step k s x) as [[s1 e1]|]; [|done]. rewrite IH. destruct (run k s1 ls) as [[s2 t]|]; [|done].
    destruct (step k s2 l) as [[s3 e3]|]; [by rewrite app_assoc|done].
Qed.
Lemma lost_snoc k p s ls l s1 t : run k s ls = Some (s1, t) -> lost k p s (ls ++ [l]) = lost k p s ls + miscounts p s1 l.
Proof.
  revert s t. induction ls as [|x ls IH]; intros s t E; simpl in *.
  - injection E as <- <-. destruct (step k s l) as [[]|]; lia.
  - destruct (step k s x) as [[s2 e2]|]; [|done]. destruct (run k s2 ls) as [[s3 t3]|] eqn:R; [|done]. injection E as -> <-.
    rewrite (IH s2 t3 R). lia.
Qed.
Definition good (k : kind) (ls : list label) (s : st) (t : list ev) : Prop :=
  bounded k s /\
  (forall p, p < length (cnt s) -> p ∉ gone s -> cnt s !! p = Some (holders p s + lost k p st0 ls)) /\
  (forall p, length (cnt s) <= p -> lost k p st0 ls = 0) /\
  (forall p, Under p ∉ t) /\
  (forall p, Zero p ∈ t -> p ∉ gone s -> holders p s = 0) /\
  (forall p, length (filter (λ e, e = Zero p) t) <= 1).
Lemma remove_len1 s q : length (snd (remove s q)) <= 1.
Proof. unfold remove. destruct (lock s q) as [r|]; simpl; [|lia]. destruct (cnt s !! r) as [[|[|n]]|]; simpl; lia. Qed.
Lemma step_len1 k s l s' e : step k s l = Some (s', e) -> length e <= 1.
Proof.
  intros E. destruct l as [n| |i|i|i j|i j|i j|i|i|i|q]; simpl in E;
    try (pose proof (fun x => remove_len1 s (ptr x)) as R; destruct k; try done; destruct (at_ s i) as [x|]; try done; specialize (R x); destruct (rdy x), (remove s (ptr x)); simplify_eq; simpl in *; try done; lia);
    repeat case_match; simplify_eq; simpl; lia.
Qed.
Lemma new_step k s n s' e : bounded k s -> step k s (LNew n) = Some (s', e) ->
  length (cnt s') = S (length (cnt s)) /\ e = [] /\ cnt s' !! (length (cnt s)) = Some (holders (length (cnt s)) s').
Proof.
  intros B E. set (p := length (cnt s)). assert (H : holders p s = 0) by (by apply (b_holders k)).
  simpl in E. destruct k; injection E as <- <-; rewrite holders_sum in *; simpl; rewrite app_length, sum_list_with_app, H; simpl; (split; [lia|]); (split; [done|]).
  - unfold p at 1. rewrite list_lookup_middle by done. f_equal. induction n as [|n IH]; [done|]. simpl in *. unfold w at 1. simpl. rewrite bool_decide_true by done. lia.
  - unfold p at 1. rewrite list_lookup_middle by done. unfold w. simpl. by rewrite bool_decide_true.
Qed.
Lemma good_run k ls s t : run k st0 ls = Some (s, t) -> good k ls s t.
Proof.
  revert s t. induction ls as [|l ls IH] using rev_ind; intros s2 t2 E.
  - injection E as <- <-. split; [split; constructor|]. split; [simpl; intros; lia|]. split; [done|]. split; [intros p; apply not_elem_of_nil|].
    split; [by intros p ?%elem_of_nil|]. simpl. lia.
  - rewrite run_snoc in E. destruct (run k st0 ls) as [[s t]|] eqn:R; [|done]. destruct (step k s l) as [[s' e]|] eqn:S; [|done]. injection E as <- <-.
    destruct (IH s t eq_refl) as (B & C & N & U & Z & O). pose proof (b_step k s l s' e B S) as B'. destruct (step_mono k s l s' e S) as [M L].
    assert (Lm : length (cnt s) <= length (cnt s')). { destruct L as [->|[n ->]]; [done|]. pose proof (proj1 (new_step k s n s' e B S)). lia. }
    assert (K : forall p, p < length (cnt s) -> p ∉ gone s -> holders p s' <= 2 * holders p s /\ cnt s' !! p = Some (holders p s' + lost k p st0 (ls ++ [l])) /\ Under p ∉ e /\
      (Zero p ∈ e <-> 0 < holders p s /\ holders p s' = 0 /\ lost k p st0 (ls ++ [l]) = 0)).
    { intros p Lp Gp. pose proof (count_step k s l s' e p _ B Gp (C p Lp Gp) S) as H. by rewrite (lost_snoc k p st0 ls l s t R). }
    assert (EV : forall p, Zero p ∈ e \/ Under p ∈ e -> p < length (cnt s) /\ p ∉ gone s).
    { intros p H. destruct (step_ev k s l s' e p S H) as [H1 [c H2]]. split; [by eapply lookup_lt_Some|done]. }
    split; [done|]. split; [|split; [|split; [|split]]].
    + intros p Lp Gp. destruct (decide (p < length (cnt s))) as [Lq|Lq]; [by apply K; [|apply M]|].
      destruct L as [L|[n ->]]; [lia|]. destruct (new_step k s n s' e B S) as (H1 & H2 & H3).
      assert (p = length (cnt s)) as -> by lia. rewrite H3, (lost_snoc k _ st0 ls _ s t R), (N (length (cnt s)) (le_n _)). cbn [miscounts]. f_equal. lia.
    + intros p Lp. rewrite (lost_snoc k _ st0 ls _ s t R), (N p ltac:(lia)). apply (mis_new k); [done|lia].
    + intros p [H|H]%elem_of_app; [by apply (U p)|]. destruct (EV p (or_intror H)) as [H1 H2]. by apply (K p H1 H2).
    + intros p H G. pose proof (M p G) as G0. apply elem_of_app in H as [H|H].
      * pose proof (Z p H G0) as Zp. destruct (decide (p < length (cnt s))) as [Lq|Lq].
        -- pose proof (proj1 (K p Lq G0)). lia.
        -- exfalso. clear - R H Lq. revert s t R H Lq. induction ls as [|l ls IH] using rev_ind; intros s t R H Lq; [injection R as <- <-; by apply elem_of_nil in H|].
           rewrite run_snoc in R. destruct (run k st0 ls) as [[s1 t1]|] eqn:R1; [|done]. destruct (step k s1 l) as [[s2 e2]|] eqn:S2; [|done]. injection R as <- <-.
           assert (L2 : length (cnt s1) <= length (cnt s2)). { destruct (proj2 (step_mono k s1 l s2 e2 S2)) as [->|[n ->]]; [done|]. simpl in S2. destruct k; injection S2 as <- <-; simpl; rewrite app_length; lia. }
           apply elem_of_app in H as [H|H]; [apply (IH s1 t1 eq_refl H); lia|]. destruct (step_ev _ _ _ _ _ p S2 (or_introl H)) as [_ [c Hc]]. apply lookup_lt_Some in Hc. lia.
      * destruct (EV p (or_introl H)) as [H1 H2]. by apply (K p H1 H2).
    + intros p. rewrite filter_app, app_length. pose proof (step_len1 k s l s' e S) as L1. specialize (O p).
      destruct (decide (Zero p ∈ e)) as [He|He].
      * destruct (EV p (or_introl He)) as [H1 H2]. pose proof (proj1 (proj1 (proj2 (proj2 (proj2 (K p H1 H2)))) He)) as Pos.
        assert (filter (λ x, x = Zero p) t = []) as ->.
        { destruct (filter (λ x, x = Zero p) t) as [|x r] eqn:F; [done|]. assert (X : x ∈ filter (λ x, x = Zero p) t) by (rewrite F; by left).
          apply elem_of_list_filter in X as [-> X]. pose proof (Z p X H2). lia. }
        simpl. etrans; [apply filter_length|done].
      * assert (filter (λ x, x = Zero p) e = []) as ->; [|simpl; lia].
        destruct (filter (λ x, x = Zero p) e) as [|x r] eqn:F; [done|]. assert (X : x ∈ filter (λ x, x = Zero p) e) by (rewrite F; by left).
        by apply elem_of_list_filter in X as [-> X].
Qed.
Lemma zero_iff k ls s t l s' e p : run k st0 ls = Some (s, t) -> step k s l = Some (s', e) -> p < length (cnt s) -> p ∉ gone s ->
  (Zero p ∈ e <-> 0 < holders p s /\ holders p s' = 0 /\ lost k p st0 (ls ++ [l]) = 0).
Proof.
  intros R S L G. destruct (good_run k ls s t R) as (B & C & _). pose proof (count_step k s l s' e p _ B G (C p L G) S) as (_ & _ & _ & H).
  by rewrite (lost_snoc k p st0 ls l s t R).
Qed.
Lemma forever k ls s t p : run k st0 ls = Some (s, t) -> 0 < lost k p st0 ls -> forall ls' s' t', run k s ls' = Some (s', t') -> Zero p ∉ t'.
Proof.
  intros R P ls' s' t' E.
  assert (A : forall ls' s' t', run k s ls' = Some (s', t') -> run k st0 (ls ++ ls') = Some (s', t ++ t') /\ lost k p st0 ls <= lost k p st0 (ls ++ ls') /\ Zero p ∉ t').
  { clear E ls' s' t'. induction ls' as [|l ls' IH] using rev_ind; intros s' t' E.
    - injection E as <- <-. rewrite !app_nil_r. split; [done|]. split; [done|apply not_elem_of_nil].
    - rewrite run_snoc in E. destruct (run k s ls') as [[s1 t1]|] eqn:R1; [|done]. destruct (step k s1 l) as [[s2 e]|] eqn:S; [|done]. injection E as <- <-.
      destruct (IH s1 t1 eq_refl) as (H1 & H2 & H3). rewrite app_assoc, run_snoc, H1, S. rewrite app_assoc. split; [done|].
      rewrite (lost_snoc k p st0 _ l s1 _ H1). split; [lia|]. intros [H|H]%elem_of_app; [done|].
      destruct (step_ev k s1 l s2 e p S (or_introl H)) as [G [c Hc]]. apply lookup_lt_Some in Hc.
      apply (zero_iff k (ls ++ ls') s1 (t ++ t1) l s2 e p H1 S Hc G) in H as (_ & _ & H). rewrite (lost_snoc k p st0 _ l s1 _ H1) in H. lia. }
  by apply (A ls' s' t').
Qed.

(** ** swapping *)
Lemma swap_at k s i j s' e : step k s (LSwap i j) = Some (s', e) -> e = [] /\ cnt s' = cnt s /\ gone s' = gone s /\
  forall n, at_ s' n = if decide (n = i) then at_ s j else if decide (n = j) then at_ s i else at_ s n.
Proof.
  simpl. destruct (at_ s i) as [x|] eqn:Ei; [|done]. destruct (at_ s j) as [y|] eqn:Ej; [|done]. set (t := length (objs s)). intros E. injection E as <- <-.
  pose proof (lookup_lt_Some _ _ _ (at_some _ _ _ Ei)) as Li. pose proof (lookup_lt_Some _ _ _ (at_some _ _ _ Ej)) as Lj.
  set (s1 := push x (put i (Some (moved x)) s)).
  assert (Lt : length (objs (put i (Some (moved x)) s)) = t) by (simpl; by rewrite insert_length).
  assert (A1 : forall n, at_ s1 n = if decide (n = t) then Some x else if decide (n = i) then Some (moved x) else at_ s n).
  { intros n. unfold s1. rewrite at_push, Lt. destruct (decide (n = t)); [done|]. by rewrite at_put. }
  assert (Nt : at_ s t = None). { unfold at_. rewrite lookup_ge_None_2; [done|unfold t; lia]. }
  split; [done|]. split; [simpl; rewrite (proj1 (massign_cnt j t _)), (proj1 (massign_cnt i j _)); done|].
  split; [simpl; rewrite (proj1 (proj2 (massign_cnt j t _))), (proj1 (proj2 (massign_cnt i j _))); done|].
  assert (L1 : length (objs s1) = S t) by (unfold s1; simpl; rewrite app_length, insert_length; simpl; unfold t; lia).
  assert (A2 : forall n, at_ (massign i j s1) n = if decide (n = t) then Some x else if decide (n = i) then (if decide (i = j) then Some (moved x) else Some y) else if decide (n = j) then Some (moved y) else at_ s n).
  { intros n. assert (Ai : at_ s1 i = Some (moved x)) by (rewrite A1, decide_False by (unfold t; lia); by rewrite decide_True).
    destruct (decide (i = j)) as [<-|N].
    - unfold massign. rewrite Ai, Nat.eqb_refl, A1. destruct (decide (n = t)); [done|]. by destruct (decide (n = i)).
    - assert (Aj : at_ s1 j = Some y) by (rewrite A1, decide_False by (unfold t; lia); by rewrite decide_False).
      rewrite (at_massign i j n _ y s1 Ai Aj N). rewrite A1. destruct (decide (n = i)) as [->|]; [by rewrite (decide_False (P := i = t)) by (unfold t; lia)|].
      destruct (decide (n = j)) as [->|]; [by rewrite (decide_False (P := j = t)) by (unfold t; lia)|]. done. }
  assert (Aj2 : exists z, at_ (massign i j s1) j = Some z). { rewrite A2. repeat destruct (decide _); eauto. }
  destruct Aj2 as [z Az]. assert (At : at_ (massign i j s1) t = Some x) by (rewrite A2; by rewrite decide_True).
  intros n. rewrite at_put by (rewrite (proj2 (proj2 (massign_cnt j t _))), (proj2 (proj2 (massign_cnt i j _))), L1; lia).
  destruct (decide (n = t)) as [->|Nn].
  - rewrite !decide_False by (unfold t; lia). done.
  - rewrite (at_massign j t n z x _ Az At) by (unfold t; lia). rewrite A2.
    destruct (decide (n = j)), (decide (n = t)), (decide (n = i)), (decide (i = j)); subst; congruence.
Qed.

(** ** values *)
Lemma at_ge s n : length (objs s) <= n -> at_ s n = None.
Proof. intros L. unfold at_. by rewrite lookup_ge_None_2. Qed.
Lemma at_lt s i x : at_ s i = Some x -> i < length (objs s).
Proof. intros E. by apply at_some, lookup_lt_Some in E. Qed.
Lemma at_app os s n c g : at_ (St (objs s ++ os) c g) n = if decide (n < length (objs s)) then at_ s n else match os !! (n - length (objs s)) with Some o => o | None => None end.
Proof.
  unfold at_. simpl. destruct (decide _); [by rewrite lookup_app_l|]. rewrite lookup_app_r by lia. by destruct (os !! _) as [[]|].
Qed.
Lemma at_objs s s' n : objs s' = objs s -> at_ s' n = at_ s n.
Proof. unfold at_. by intros ->. Qed.
Lemma values k s l s' e n : step k s l = Some (s', e) ->
  at_ s' n = if decide (n < length (objs s)) then after l (at_ s) n
             else match made k l (at_ s) (length (cnt s)) !! (n - length (objs s)) with Some o => o | None => None end.
Proof.
  intros E. destruct l as [m| |i|i|i j|i j|i j|i|i|i|q].
  - destruct k; injection E as <- <-; rewrite at_app; done.
  - injection E as <- <-. unfold push. by rewrite at_app.
  - simpl in E. destruct (at_ s i) as [x|] eqn:Ei; [|done]. injection E as <- <-. unfold push. rewrite at_app.
    rewrite (proj1 (proj2 (add_len _ _))), (at_objs s (add s (ptr x))) by apply add_len. cbn [made after]. by rewrite Ei.
  - simpl in E. destruct (at_ s i) as [x|] eqn:Ei; [|done]. injection E as <- <-. pose proof (at_lt s i x Ei). unfold push. rewrite at_app. cbn [made after]. rewrite Ei.
    replace (length (objs (put i (Some (moved x)) s))) with (length (objs s)) by (simpl; by rewrite insert_length).
    destruct (decide (n < length (objs s))); [|done]. by rewrite at_put.
  - simpl in E. destruct (at_ s i) as [x|] eqn:Ei; [|done]. destruct (at_ s j) as [y|] eqn:Ej; [|done]. destruct (Nat.eqb_spec i j) as [|N]; [done|].
    injection E as <- <-. pose proof (at_lt s i x Ei). pose proof (at_lt s j y Ej). set (t := length (objs s)). set (s1 := push y (add s (ptr y))).
    assert (Lo : objs (add s (ptr y)) = objs s) by apply add_len.
    assert (A1 : forall n, at_ s1 n = if decide (n = t) then Some y else at_ s n).
    { intros n0. unfold s1. rewrite at_push, Lo. destruct (decide _); [done|]. by apply at_objs. }
    assert (Ni : i <> t) by (unfold t; lia).
    assert (Ai : at_ s1 i = Some x) by (rewrite A1; by rewrite decide_False). assert (At : at_ s1 t = Some y) by (rewrite A1; by rewrite decide_True).
    rewrite at_put by (rewrite (proj2 (proj2 (massign_cnt i t s1))); unfold s1; simpl; rewrite app_length, Lo; simpl; unfold t; lia).
    rewrite (at_massign i t n x y s1 Ai At Ni), A1. cbn [made after]. rewrite Ej.
    destruct (decide (n < t)); destruct (decide (n = t)); try (unfold t in *; lia); [by destruct (decide (n = i))|done|].
    destruct (decide (n = i)); [unfold t in *; lia|]. rewrite at_ge by (unfold t in *; lia). done.
  - simpl in E. destruct (at_ s i) as [x|] eqn:Ei; [|done]. destruct (at_ s j) as [y|] eqn:Ej; [|done]. injection E as <- <-.
    pose proof (at_lt s i x Ei). pose proof (at_lt s j y Ej). cbn [made after]. rewrite Ej. destruct (decide (i = j)) as [->|N].
    + unfold massign. rewrite Ej, Nat.eqb_refl. destruct (decide (n < length (objs s))); [|by rewrite at_ge by lia].
      destruct (decide (n = j)) as [->|]; done.
    + rewrite (at_massign i j n x y s Ei Ej N). destruct (decide (n < length (objs s))); [done|]. rewrite !decide_False by lia. by rewrite at_ge by lia.
  - destruct (swap_at k s i j s' e E) as (_ & _ & _ & H). simpl in E. destruct (at_ s i) as [x|] eqn:Ei; [|done]. destruct (at_ s j) as [y|] eqn:Ej; [|done].
    pose proof (at_lt s i x Ei). pose proof (at_lt s j y Ej). rewrite H. cbn [made after]. rewrite Ei, Ej. destruct (decide (n < length (objs s))); [done|].
    rewrite !decide_False by lia. by rewrite at_ge by lia.
  - simpl in E. destruct (at_ s i) as [x|] eqn:Ei; [|done]. pose proof (at_lt s i x Ei). cbn [made after].
    assert (exists s1, objs s1 = objs s /\ s' = put i None s1) as (s1 & Lo & ->).
    { destruct (rdy x); [injection E as <- <-; eauto|]. pose proof (remove_len s (ptr x)) as (_ & Lo & _). destruct (remove s (ptr x)) as [s1 e1]. injection E as <- <-. eauto. }
    rewrite at_put by (by rewrite Lo). rewrite (at_objs s s1) by done. destruct (decide (n < length (objs s))); [done|]. rewrite decide_False by lia. by rewrite at_ge by lia.
  - simpl in E. destruct k; [|done]. destruct (at_ s i) as [x|] eqn:Ei; [|done]. pose proof (at_lt s i x Ei). cbn [made after].
    pose proof (remove_len s (ptr x)) as (_ & Lo & _). destruct (remove s (ptr x)) as [s1 e1]. injection E as <- <-. simpl in Lo.
    rewrite at_put by (by rewrite Lo). rewrite (at_objs s s1) by done. destruct (decide (n < length (objs s))); [done|]. rewrite decide_False by lia. by rewrite at_ge by lia.
  - simpl in E. destruct k; [done|]. destruct (at_ s i) as [x|] eqn:Ei; [|done]. pose proof (at_lt s i x Ei). cbn [made after]. rewrite Ei.
    assert (exists s1, objs s1 = objs s /\ s' = put i (Some (Obj (ptr x) true)) s1) as (s1 & Lo & ->).
    { destruct (rdy x); [injection E as <- <-; eauto|]. pose proof (remove_len s (ptr x)) as (_ & Lo & _). destruct (remove s (ptr x)) as [s1 e1]. injection E as <- <-. eauto. }
    rewrite at_put by (by rewrite Lo). rewrite (at_objs s s1) by done. destruct (decide (n < length (objs s))); [done|]. rewrite decide_False by lia. by rewrite at_ge by lia.
  - simpl in E. destruct k; [|done]. destruct (decide (q < length (cnt s))); [|done]. injection E as <- <-. cbn [made after].
    rewrite (at_objs s) by done. destruct (decide (n < length (objs s))); [done|]. by rewrite at_ge by lia.
Qed.
