(** Without new calls from outside and without spurious wake-ups the pool takes finitely many steps. *)
From Coq Require Import ZArith List Bool Lia.
From stdpp Require Import list list_numbers.
From Verif.Executor Require Import Queue QueueProof Pool PoolProof PoolInv PoolWake PoolThm.

Definition mw (c : nat) (p : wpc) : nat :=
  match p with Exited => 0 | Wait false => 1 | PopLock => 2 | Loop j => 2 + (c - j) | Wait true | Run _ => c + 3 end.
Definition me (c : nat) (p : epc) : nat :=
  match p with EExited => 0 | EWait false => 1 | EWaitLock => 2 | ELoop j => 2 + (c - j) | EWait true | ERun _ => c + 3 end.
Definition mc (c m : nat) (x : cpc) : nat :=
  match x with
  | Notify _ | NotifyW _ => c + 4
  | PushIt _ _ _ => 2 * c + 9
  | Try _ _ _ j => 2 * c + 9 + (c - j)
  | WakeW n l => (l - n) + c + 5
  | WakeQ n => (c - n) + m + c + 6
  end.
Definition mq (c : nat) (q : nq nat) : nat := length (items q) * (c + 4).
Definition mj (c m : nat) (j : jpc) : nat :=
  match j with
  | JReturned => 0
  | JThreads k => S (c + m - k)
  | JWDone k => (m - k) * (c + 5) + S (S (c + m))
  | JWNote k => (m - S k) * (c + 5) + S (S (c + m)) + c + 4
  | JDone k => (c - k) * (c + 5) + S (m * (c + 5) + S (S (c + m)))
  | JNote k => (c - S k) * (c + 5) + S (m * (c + 5) + S (S (c + m))) + c + 4
  | JIdle => S (c * (c + 5) + S (m * (c + 5) + S (S (c + m))))
  end.
Notation sum := sum_list_with.
Definition mu (c m : nat) (s : st) : nat :=
  sum (mw c) (ws s) + sum (me c) (es s) + sum (mc c m) (calls s) + sum (mq c) (qs s) + mj c m (jn s).

Lemma sum_insert {A} (f : A -> nat) l i x y : l !! i = Some x -> sum f (<[i := y]> l) + f x = sum f l + f y.
Proof. revert i. induction l as [|z l IH]; intros [|i] H; simplify_eq/=; [lia|]. specialize (IH _ H). lia. Qed.
Lemma sum_del {A} (f : A -> nat) l i x : l !! i = Some x -> sum f (del i l) + f x = sum f l.
Proof.
  intros H. rewrite <- (take_drop_middle _ _ _ H) at 2. unfold del. rewrite !sum_list_with_app. simpl. lia.
Qed.
Lemma pop_mq c k (q : nq nat) t q' : pop_at k q = Some (t, q') -> mq c q = mq c q' + (c + 4).
Proof.
  unfold pop_at, mq. destruct (items q !! k) as [[]|] eqn:E; [|done]. destruct (forallb _ _); [|done]. intros [= _ <-]. simpl.
  apply lookup_lt_Some in E. rewrite app_length, take_length, drop_length. rewrite Nat.min_l by lia.
  replace (length (items q)) with (S (k + (length (items q) - S k))) at 1 by lia. lia.
Qed.
Lemma notify_w_sum c i s : sum (mw c) (ws (notify_w i s)) <= sum (mw c) (ws s) + (c + 2).
Proof.
  unfold notify_w. destruct (ws s !! i) as [[]|] eqn:E; simpl; try lia.
  pose proof (sum_insert (mw c) _ _ _ (Wait true) E) as H. simpl in H. destruct notified; lia.
Qed.
Lemma notify_e_sum c i s : sum (me c) (es (notify_e i s)) <= sum (me c) (es s) + (c + 2).
Proof.
  unfold notify_e. destruct (es s !! i) as [[]|] eqn:E; simpl; try lia.
  pose proof (sum_insert (me c) _ _ _ (EWait true) E) as H. simpl in H. destruct notified; lia.
Qed.

Definition quiet (l : label) : Prop := match l with Call _ _ | Worker _ _ _ | Expand _ _ _ | Join => True | _ => False end.
Lemma mq_push c p t q : mq c (push p t q) = mq c q + (c + 4).
Proof. unfold mq, push. simpl. rewrite app_length. simpl. lia. Qed.

Lemma msub c k x : k < c -> (c - k) * x = (c - S k) * x + x.
Proof. intros H. replace (c - k) with (S (c - S k)) by lia. simpl. lia. Qed.

Lemma step_mu c m s l s' e : shape c m s -> quiet l -> step s l = Some (s', e) -> Ub ∉ e -> mu c m s' < mu c m s.
Proof.
  intros HS HQ H%step_t HU. unfold mu.
  assert (forall k x, calls s !! k = Some x -> call_ok c m x) as HC by (intros; eapply Forall_look; [apply HS|eauto]).
  assert (forall k x, ws s !! k = Some x -> w_ok c x) as HW by (intros; eapply Forall_look; [apply HS|eauto]).
  assert (forall k x, es s !! k = Some x -> e_ok c x) as HE by (intros; eapply Forall_look; [apply HS|eauto]).
  destruct HS as [Hc H1 H2 H3 H4 _ _ _ H8].
  destruct H; try done; try (destruct HU; by left);
    repeat match goal with
    | H : calls s !! _ = Some _ |- _ => apply HC in H as ?; revert H
    | H : ws s !! _ = Some _ |- _ => apply HW in H as ?; revert H
    | H : es s !! _ = Some _ |- _ => apply HE in H as ?; revert H
    end; intros; unfold ncount in *; simpl in *;
    repeat match goal with
    | H : calls s !! _ = Some _ |- context [<[_ := ?y]> (calls s)] => pose proof (sum_insert (mc c m) _ _ _ y H); revert H
    | H : calls s !! _ = Some _ |- context [del _ (calls s)] => pose proof (sum_del (mc c m) _ _ _ H); revert H
    | H : ws s !! _ = Some _ |- context [<[_ := ?y]> (ws s)] => pose proof (sum_insert (mw c) _ _ _ y H); revert H
    | H : es s !! _ = Some _ |- context [<[_ := ?y]> (es s)] => pose proof (sum_insert (me c) _ _ _ y H); revert H
    | H : qs s !! _ = Some _ |- context [<[_ := ?y]> (qs s)] => pose proof (sum_insert (mq c) _ _ _ y H); revert H
    end; intros; simpl in *; rewrite ?mq_push in *;
    try (match goal with H : pop_at _ _ = Some _ |- _ => apply (pop_mq c) in H end);
    repeat match goal with
    | H : _ \/ _ |- _ => destruct H
    | H : _ /\ _ |- _ => destruct H
    | H : wt s !! _ = Some _ |- _ => apply lookup_lt_Some in H
    end; subst; simpl in *; 
    repeat match goal with
    | |- context [notify_w ?i s] => pose proof (notify_w_sum (length (ws s)) i s); destruct (notify_w_shape i s) as (w' & E & _); rewrite E in *; clear E; simpl in *
    | |- context [notify_e ?i s] => pose proof (notify_e_sum (length (ws s)) i s); destruct (notify_e_shape i s) as (w' & E & _); rewrite E in *; clear E; simpl in *
    end;
    try (unfold mq in *; simpl in *; lia).
  all: try (destruct (jn s); lia).
  all: match goal with H : jn _ = _ |- _ => rewrite H in *; simpl in * end; rewrite ?Nat.sub_0_r;
    try (match goal with H : qs _ !! _ = Some _ |- _ => apply lookup_lt_Some in H end);
    try (match goal with H : ws _ !! _ = Some _ |- _ => apply lookup_lt_Some in H end);
    try (match goal with H : es _ !! _ = Some _ |- _ => apply lookup_lt_Some in H end);
    try (rewrite msub by lia); try (unfold mq in *; simpl in *; lia).
  - rewrite (msub _ k) by lia. change (mq _ (set_done true q)) with (mq (length (ws s)) q) in H5. lia.
  - generalize ((length (ws s) - k) * (length (ws s) + 5)) as a. generalize (length (wt s) * (length (ws s) + 5)) as b. intros. lia.
  - rewrite (msub _ k) by lia. lia.
Qed.
Lemma bounded c m ls1 s1 tr1 : 0 < c -> run (init c m) ls1 = Some (s1, tr1) -> exists n, forall ls2 s2 tr2, Forall quiet ls2 ->
  run s1 ls2 = Some (s2, tr2) -> Ub ∉ tr2 -> length ls2 <= n.
Proof.
  intros Hc R. exists (mu c m s1). pose proof (i_shape _ _ _ _ (reach_inv _ _ _ _ _ Hc R)) as HS. clear R.
  intros ls2. revert s1 HS. induction ls2 as [|l ls2 IH]; simpl; intros s1 HS s2 tr2 HQ R HU; [lia|].
  destruct (step s1 l) as [[s3 e3]|] eqn:E; [|done]. destruct (run s3 ls2) as [[s4 e4]|] eqn:R4; [|done]. injection R as <- <-.
  inversion HQ; subst. pose proof (step_mu _ _ _ _ _ _ HS H1 E) as M.
  assert (length ls2 <= mu c m s3) by (eapply IH; eauto using step_shape; intros ?; apply HU, elem_of_app; auto).
  assert (mu c m s3 < mu c m s1) by (apply M; intros ?; apply HU, elem_of_app; auto). lia.
Qed.
