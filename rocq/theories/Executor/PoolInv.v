From Coq Require Import ZArith List Bool Lia.
From stdpp Require Import list list_numbers.
From Verif.Lib Require Import Perm.
From Verif.Executor Require Import Queue QueueProof Pool PoolProof.

Definition c_task (x : cpc) : list nat := match x with Try t _ _ _ | PushIt t _ _ => [t] | _ => [] end.
Definition w_task (x : wpc) : list nat := match x with Run t => [t] | _ => [] end.
Definition e_task (x : epc) : list nat := match x with ERun t => [t] | _ => [] end.
Definition q_tasks (q : nq nat) : list nat := (items q).*2.

Lemma notify_w_shape i s : exists w, notify_w i s = St (qs s) w (wt s) (es s) (calls s) (jn s) (next s) (early s) (dropped s) /\
  length w = length (ws s) /\
  (forall j, w !! j = match ws s !! j with Some (Wait b) => Some (Wait (if decide (i = j) then true else b)) | x => x end) /\
  (w ≫= w_task) ≡ₚ (ws s ≫= w_task).
Proof.
  unfold notify_w. destruct (ws s !! i) as [[n| |b|t|]|] eqn:E;
    try (exists (ws s); destruct s; simpl in *; split_and!; auto; intros j; case_decide; subst; rewrite ?E; auto; repeat case_match; auto; fail).
  exists (<[i := Wait true]> (ws s)). split_and!; [done|apply insert_length| |].
  - intros j. case_decide; subst; [rewrite list_lookup_insert by (by eapply lookup_lt_Some); by rewrite E|].
    rewrite list_lookup_insert_ne by done. repeat case_match; auto.
  - clear -E. revert i E. induction (ws s) as [|x l IH]; intros [|i] E; simplify_eq/=; auto. f_equiv. by apply IH.
Qed.
Lemma notify_e_shape i s : exists w, notify_e i s = St (qs s) (ws s) (wt s) w (calls s) (jn s) (next s) (early s) (dropped s) /\
  length w = length (es s) /\
  (forall j, w !! j = match es s !! j with Some (EWait b) => Some (EWait (if decide (i = j) then true else b)) | x => x end) /\
  (w ≫= e_task) ≡ₚ (es s ≫= e_task).
Proof.
  unfold notify_e. destruct (es s !! i) as [[n| |b|t|]|] eqn:E;
    try (exists (es s); destruct s; simpl in *; split_and!; auto; intros j; case_decide; subst; rewrite ?E; auto; repeat case_match; auto; fail).
  exists (<[i := EWait true]> (es s)). split_and!; [done|apply insert_length| |].
  - intros j. case_decide; subst; [rewrite list_lookup_insert by (by eapply lookup_lt_Some); by rewrite E|].
    rewrite list_lookup_insert_ne by done. repeat case_match; auto.
  - clear -E. revert i E. induction (es s) as [|x l IH]; intros [|i] E; simplify_eq/=; auto. f_equiv. by apply IH.
Qed.

(** ** sizes and indices *)
Definition call_ok (c m : nat) (x : cpc) : Prop :=
  match x with
  | Try _ _ _ n => n < c
  | PushIt _ _ _ => True
  | Notify i => i < c
  | WakeQ n => n <= c
  | WakeW n l => n <= l /\ l <= m
  | NotifyW n => n < m
  end.
Definition w_ok (c : nat) (p : wpc) : Prop := match p with Loop n => n < c | _ => True end.
Definition e_ok (c : nat) (p : epc) : Prop := match p with ELoop n => n < c | _ => True end.
Definition j_ok (c m : nat) (j : jpc) : Prop :=
  match j with JDone k => k <= c | JNote k => k < c | JWDone k => k <= m | JWNote k => k < m | _ => True end.
Record shape (c m : nat) (s : st) : Prop := {
  sh_pos : 0 < c;
  sh_ws : length (ws s) = c;
  sh_wt : length (wt s) = m;
  sh_es : length (es s) <= m;
  sh_qs : length (qs s) = match jn s with JReturned => 0 | _ => c end;
  sh_calls : Forall (call_ok c m) (calls s);
  sh_w : Forall (w_ok c) (ws s);
  sh_e : Forall (e_ok c) (es s);
  sh_j : j_ok c m (jn s)
}.

Lemma Forall_ins {A} (P : A -> Prop) l i x : Forall P l -> P x -> Forall P (<[i := x]> l).
Proof. intros. by apply Forall_insert. Qed.
Lemma Forall_del {A} (P : A -> Prop) l c : Forall P l -> Forall P (del c l).
Proof. intros H. unfold del. apply Forall_app. split; [by apply Forall_take|by apply Forall_drop]. Qed.
Lemma Forall_look {A} (P : A -> Prop) l i x : Forall P l -> l !! i = Some x -> P x.
Proof. rewrite Forall_lookup. eauto. Qed.

Lemma step_shape c m s l s' e : shape c m s -> step s l = Some (s', e) -> shape c m s'.
Proof.
  intros [Hc H1 H2 H3 H4 H5 H6 H7 H8] H%step_t.
  assert (forall k x, calls s !! k = Some x -> call_ok c m x) as HC by (intros; by eapply Forall_look).
  assert (forall k x, ws s !! k = Some x -> w_ok c x) as HW by (intros; by eapply Forall_look).
  assert (forall k x, es s !! k = Some x -> e_ok c x) as HE by (intros; by eapply Forall_look).
  destruct H; try done;
    repeat match goal with
    | H : calls s !! _ = Some _ |- _ => apply HC in H as ?; revert H
    | H : ws s !! _ = Some _ |- _ => apply HW in H as ?; revert H
    | H : es s !! _ = Some _ |- _ => apply HE in H as ?; revert H
    end; intros;
    repeat match goal with
    | H : qs s !! _ = Some _ |- _ => pose proof (lookup_lt_Some _ _ _ H); revert H
    | H : qs s !! _ = None |- _ => pose proof (lookup_ge_None_1 _ _ H); revert H
    | H : wt s !! _ = Some _ |- _ => pose proof (lookup_lt_Some _ _ _ H); revert H
    | H : wt s !! _ = None |- _ => pose proof (lookup_ge_None_1 _ _ H); revert H
    end; intros;
    unfold ncount in *; simpl in *;
    try (destruct (notify_w_shape i s) as (w' & -> & L1 & L2 & _));
    try (destruct (notify_w_shape k s) as (w' & -> & L1 & L2 & _));
    try (destruct (notify_e_shape i s) as (w' & -> & L1 & L2 & _));
    try (destruct (notify_e_shape k s) as (w' & -> & L1 & L2 & _));
    try (destruct (notify_e_shape n s) as (w' & -> & L1 & L2 & _)).
  all: constructor; simpl;
    repeat match goal with
    | |- Forall _ (<[_ := _]> _) => apply Forall_ins
    | |- Forall _ (del _ _) => apply Forall_del
    | |- Forall _ (_ ++ [_]) => apply Forall_app; split; [|apply Forall_singleton]
    end; rewrite ?insert_length, ?app_length; simpl; auto; try lia; try congruence;
    try (rewrite ?H in *; simpl in *; lia); try (destruct (jn s); simpl in *; lia);
    try (apply Forall_lookup; intros jj x Hx; rewrite L2 in Hx;
         first [destruct (ws s !! jj) as [y|] eqn:Y; [apply HW in Y; destruct y; simplify_eq; done|done]
               |destruct (es s !! jj) as [y|] eqn:Y; [apply HE in Y; destruct y; simplify_eq; done|done]]).
Qed.

Lemma init_shape c m : 0 < c -> shape c m (init c m).
Proof.
  intros H. constructor; simpl; rewrite ?replicate_length; auto; try lia; try apply Forall_nil_2.
  by apply Forall_replicate.
Qed.

Lemma returned_stays s l s' e : step s l = Some (s', e) -> jn s = JReturned -> jn s' = JReturned.
Proof.
  intros H%step_t J. destruct H; simpl; try done; try congruence;
    first [destruct (notify_w_shape i s) as (w' & -> & _)|destruct (notify_e_shape i s) as (w' & -> & _)|destruct (notify_e_shape n s) as (w' & -> & _)]; done.
Qed.

Lemma step_ub c m s l s' e : shape c m s -> step s l = Some (s', e) -> Ub ∈ e -> jn s = JReturned.
Proof.
  intros [Hc H1 H2 H3 H4 H5 H6 H7 H8] H%step_t HU.
  assert (forall i, i mod c < c) as Hm by (intros; apply Nat.mod_upper_bound; lia).
  assert (forall n, qs s !! n = None -> n < c -> jn s = JReturned) as HQ.
  { intros n Hn%lookup_ge_None_1 Hl. rewrite H4 in Hn. destruct (jn s); done || lia. }
  assert (forall k x, calls s !! k = Some x -> call_ok c m x) as HC by (intros; by eapply Forall_look).
  destruct H; try (exfalso; rewrite ?elem_of_cons, elem_of_nil in HU; naive_solver); unfold ncount in *; rewrite ?H1 in *.
  - destruct H as (t & p & i & n & [[A B]|[[A B]|[[A B]|[(A & D & B)|(A & D & B)]]]]); apply HC in A; simpl in A.
    + by apply HQ in B.
    + by apply HQ in B.
    + rewrite H4 in B. destruct (jn s); done || lia.
    + rewrite H4 in D. apply lookup_ge_None_1 in B. rewrite H4 in B. destruct (jn s); done || lia.
    + apply lookup_ge_None_1 in B. lia.
  - destruct H as [(n & A & B)|[A B]].
    + by apply HQ in B.
    + apply HQ in B; [done|]. destruct A as [A|A]; apply lookup_lt_Some in A; lia.
  - destruct H as [(n & A & B)|[A B]].
    + by apply HQ in B.
    + apply lookup_ge_None_1 in B. destruct A as [A|A]; apply lookup_lt_Some in A; lia.
Qed.

(** ** where the tasks are *)
Lemma bind_insert {A B} (f : A -> list B) l i x : l !! i = Some x ->
  exists r, (l ≫= f) ≡ₚ f x ++ r /\ (forall y, (<[i := y]> l ≫= f) ≡ₚ f y ++ r) /\ (del i l ≫= f) ≡ₚ r.
Proof.
  intros H. exists ((take i l ≫= f) ++ (drop (S i) l ≫= f)). split_and!.
  - rewrite <- (take_drop_middle _ _ _ H) at 1. rewrite bind_app, bind_cons. by rewrite !(assoc_L (++)), (comm (++) (f x)).
  - intros y. rewrite insert_take_drop by (by eapply lookup_lt_Some). rewrite bind_app, bind_cons.
    by rewrite !(assoc_L (++)), (comm (++) (f y)).
  - unfold del. by rewrite bind_app.
Qed.

Definition running (s : st) : list nat := (ws s ≫= w_task) ++ (es s ≫= e_task).

Record flow (tr : list event) (s : st) : Prop := {
  f_calls : (calls s ≫= c_task) ++ pushes tr ≡ₚ seq 0 (next s);
  f_push : pushes tr ≡ₚ (qs s ≫= q_tasks) ++ starts tr ++ dropped s;
  f_run : starts tr ≡ₚ ends tr ++ running s
}.
Lemma pop_tasks k (q : nq nat) t q' : pop_at k q = Some (t, q') -> q_tasks q ≡ₚ t :: q_tasks q'.
Proof.
  unfold pop_at, q_tasks. destruct (items q !! k) as [[key a]|] eqn:E; [|done]. destruct (forallb _ _); [|done].
  intros [= <- <-]. simpl. rewrite <- (take_drop_middle _ _ _ E) at 1. rewrite !fmap_app, fmap_cons. simpl.
  by rewrite <- Permutation_middle.
Qed.

Lemma q_tasks_push p t (q : nq nat) : q_tasks (push p t q) = q_tasks q ++ [t].
Proof. unfold q_tasks, push. simpl. by rewrite fmap_app. Qed.
Lemma q_tasks_w b (q : nq nat) : q_tasks (set_waiting b q) = q_tasks q.
Proof. done. Qed.
Lemma q_tasks_d b (q : nq nat) : q_tasks (set_done b q) = q_tasks q.
Proof. done. Qed.

Lemma step_flow c m tr s l s' e : shape c m s -> flow tr s -> step s l = Some (s', e) -> flow (tr ++ e) s'.
Proof.
  intros HS [F1 F2 F3] H%step_t.
  assert (forall r, r ++ ends tr ≡ₚ ends tr ++ r) as _ by (intros; apply (comm (++))).
  destruct H;
    repeat match goal with
    | H : calls s !! _ = Some _ |- _ => pose proof (bind_insert c_task _ _ _ H) as (? & ? & ? & ?); revert H
    | H : qs s !! _ = Some _ |- _ => pose proof (bind_insert q_tasks _ _ _ H) as (? & ? & ? & ?); revert H
    | H : ws s !! _ = Some _ |- _ => pose proof (bind_insert w_task _ _ _ H) as (? & ? & ? & ?); revert H
    | H : es s !! _ = Some _ |- _ => pose proof (bind_insert e_task _ _ _ H) as (? & ? & ? & ?); revert H
    end; intros; simpl in *;
    try (destruct (notify_w_shape i s) as (w' & -> & _ & _ & L));
    try (destruct (notify_w_shape k s) as (w' & -> & _ & _ & L));
    try (destruct (notify_e_shape i s) as (w' & -> & _ & _ & L));
    try (destruct (notify_e_shape k s) as (w' & -> & _ & _ & L));
    try (destruct (notify_e_shape n s) as (w' & -> & _ & _ & L));
    try (match goal with H : pop_at _ _ = Some _ |- _ => apply pop_tasks in H as Hpop end);
    try (match goal with H : qs s !! ?j = Some _ |- _ => idtac end).
  all: constructor; unfold running, set_q, set_w, set_e, set_wt, set_c, set_j in *; simpl; rewrite ?pushes_app, ?starts_app, ?ends_app; simpl; rewrite ?app_nil_r; auto.

  all: repeat match goal with
    | H : forall y, (<[?i := y]> ?l ≫= ?f) ≡ₚ _ |- context [<[?i := ?z]> ?l ≫= ?f] => specialize (H z); simpl in H
    | H : forall y, (<[_ := y]> _ ≫= _) ≡ₚ _ |- _ => clear H
    end.
  all: repeat match goal with
    | H : _ /\ _ |- _ => destruct H
    | H : _ \/ _ |- _ => destruct H
    end; subst; unfold all_items in *; fold q_tasks in *; rewrite ?q_tasks_push, ?q_tasks_w, ?q_tasks_d, ?bind_app in *; simpl in *; rewrite ?app_nil_r; auto.
  all: try (perm_solve; fail).
  change (0 :: seq 1 (next s)) with (seq 0 (S (next s))). rewrite seq_S, Nat.add_0_l. perm_solve.
Qed.
Lemma init_flow c m : flow [] (init c m).
Proof.
  assert (forall n, replicate n nq0 ≫= q_tasks = []) as H1 by (by induction n; simpl).
  assert (forall n, replicate n (Loop 0) ≫= w_task = []) as H2 by (by induction n; simpl).
  constructor; unfold running; simpl; rewrite ?H1, ?H2; done.
Qed.

(** ** the order of things *)
Definition jq (c : nat) (j : jpc) : nat := match j with JIdle => 0 | JDone k => k | JNote k => S k | _ => c end.
Definition jw (m : nat) (j : jpc) : nat := match j with JIdle | JDone _ | JNote _ => 0 | JWDone k => k | JWNote k => S k | _ => m end.
Definition thrw (j : jpc) (i : nat) : Prop := match j with JThreads k => i < k | JReturned => True | _ => False end.
Definition thre (c : nat) (j : jpc) (i : nat) : Prop := match j with JThreads k => c + i < k | JReturned => True | _ => False end.

Record ord (c m : nat) (s : st) : Prop := {
  o_exit : forall i q, ws s !! i = Some Exited -> qs s !! i = Some q -> done q = true;
  o_exit_e : forall i w, es s !! i = Some EExited -> wt s !! i = Some w -> w_done w = true;
  o_idle : jn s = JIdle -> (forall i q, qs s !! i = Some q -> done q = false) /\ (forall i w, wt s !! i = Some w -> w_done w = false);
  o_jq : forall i q, qs s !! i = Some q -> i < jq c (jn s) -> done q = true;
  o_jw : forall i w, wt s !! i = Some w -> i < jw m (jn s) -> w_done w = true;
  o_thr : forall i p, ws s !! i = Some p -> thrw (jn s) i -> p = Exited;
  o_thr_e : forall i p, es s !! i = Some p -> thre c (jn s) i -> p = EExited
}.

Ltac notify_cases :=
  repeat match goal with
  | |- context [notify_w ?i ?s] => let w' := fresh "w'" in destruct (notify_w_shape i s) as (w' & -> & ? & ? & _)
  | |- context [notify_e ?i ?s] => let w' := fresh "w'" in destruct (notify_e_shape i s) as (w' & -> & ? & ? & _)
  end.
Lemma lookup_snoc_Some {A} (l : list A) x i y : (l ++ [x]) !! i = Some y -> l !! i = Some y \/ (i = length l /\ y = x).
Proof. rewrite lookup_app_Some, list_lookup_singleton_Some. intros [?|[? [? ->]]]; [auto|right; split; [lia|done]]. Qed.

Ltac lk := repeat match goal with
  | H : <[_ := _]> _ !! _ = Some _ |- _ => apply list_lookup_insert_Some in H as [(? & ? & ?)|[? ?]]
  | H : (_ ++ [_]) !! _ = Some _ |- _ => apply lookup_snoc_Some in H as [?|[? ?]]
  end.

Lemma pop_flags {A} k (q : nq A) t q' : pop_at k q = Some (t, q') -> done q' = done q /\ waiting q' = waiting q.
Proof. unfold pop_at. destruct (_ !! _) as [[]|]; [|done]. destruct (forallb _ _); [|done]. by intros [= <- <-]. Qed.

(** what steps other than join()'s preserve *)
Lemma frame_j s l s' e : step s l = Some (s', e) -> l <> Join -> jn s' = jn s.
Proof. intros H%step_t N. destruct H; try done; notify_cases; done. Qed.
Lemma frame_q s l s' e i q' : step s l = Some (s', e) -> l <> Join -> qs s' !! i = Some q' ->
  exists q, qs s !! i = Some q /\ done q' = done q.
Proof.
  intros H%step_t N. destruct H; try done; notify_cases; simpl; intros Hq; try (eexists; split; [exact Hq|done]); lk;
    try (eexists; split; [eassumption|done]); subst; eexists; (split; [eassumption|]); try done.
  - by apply pop_flags in H2 as [-> _].
  - naive_solver.
  - by apply pop_flags in H2 as [-> _].
  - by apply pop_flags in H2 as [-> _].
Qed.
Lemma frame_wt s l s' e i w' : step s l = Some (s', e) -> l <> Join -> wt s' !! i = Some w' ->
  exists w, wt s !! i = Some w /\ w_done w' = w_done w.
Proof.
  intros H%step_t N. destruct H; try done; notify_cases; simpl; intros Hq; try (eexists; split; [exact Hq|done]); lk;
    try (eexists; split; [eassumption|done]); subst; eexists; (split; [eassumption|]); try done.
  naive_solver.
Qed.
Ltac solve_notify := match goal with Hl : forall j, ?w !! j = _ |- _ => rewrite Hl in *; repeat case_match; simplify_eq; eauto end.
Lemma frame_w s l s' e i : step s l = Some (s', e) -> ws s' !! i = Some Exited ->
  ws s !! i = Some Exited \/ exists q, qs s !! i = Some q /\ done q = true.
Proof.
  intros H%step_t. destruct H; notify_cases; simpl; intros Hq; auto; try (left; assumption); lk; subst; try done; auto; eauto; solve_notify.
Qed.
Lemma frame_e s l s' e i : step s l = Some (s', e) -> es s' !! i = Some EExited ->
  es s !! i = Some EExited \/ exists q, wt s !! i = Some q /\ w_done q = true.
Proof.
  intros H%step_t. destruct H; notify_cases; simpl; intros Hq; auto; try (left; assumption); lk; subst; try done; auto; eauto; solve_notify.
Qed.
Lemma exited_w s l s' e i : step s l = Some (s', e) -> ws s !! i = Some Exited -> ws s' !! i = Some Exited.
Proof.
  intros H%step_t Hi. destruct H; notify_cases; simpl; try assumption;
    try (rewrite list_lookup_insert_ne; [assumption|]; intros ->; naive_solver); solve_notify.
Qed.
Lemma exited_e s l s' e i : step s l = Some (s', e) -> es s !! i = Some EExited -> es s' !! i = Some EExited.
Proof.
  intros H%step_t Hi. destruct H; notify_cases; simpl; try assumption;
    try (rewrite list_lookup_insert_ne; [assumption|]; intros ->; naive_solver); try solve_notify.
  rewrite lookup_app_l; [done|by eapply lookup_lt_Some].
Qed.
Lemma frame_es_len s l s' e : step s l = Some (s', e) -> jn s <> JIdle -> length (es s') = length (es s).
Proof. intros H%step_t J. destruct H; notify_cases; simpl; rewrite ?insert_length; done. Qed.
Lemma exited_w_bk s l s' e i p : step s l = Some (s', e) -> ws s' !! i = Some p -> length (ws s') = length (ws s) ->
  (forall p, ws s !! i = Some p -> p = Exited) -> p = Exited.
Proof.
  intros H Hp Hl Hb. destruct (lookup_lt_is_Some_2 (ws s) i) as [x Hx]; [apply lookup_lt_Some in Hp; lia|].
  rewrite (Hb x Hx) in Hx. apply (exited_w _ _ _ _ _ H) in Hx. congruence.
Qed.
Lemma exited_e_bk s l s' e i p : step s l = Some (s', e) -> es s' !! i = Some p -> length (es s') = length (es s) ->
  (forall p, es s !! i = Some p -> p = EExited) -> p = EExited.
Proof.
  intros H Hp Hl Hb. destruct (lookup_lt_is_Some_2 (es s) i) as [x Hx]; [apply lookup_lt_Some in Hp; lia|].
  rewrite (Hb x Hx) in Hx. apply (exited_e _ _ _ _ _ H) in Hx. congruence.
Qed.

Lemma step_ord c m s l s' e : shape c m s -> ord c m s -> step s l = Some (s', e) -> ord c m s'.
Proof.
  intros HS HO H. pose proof (step_shape _ _ _ _ _ _ HS H) as HS'.
  assert (length (ws s') = length (ws s)) as LW by (rewrite (sh_ws _ _ _ HS), (sh_ws _ _ _ HS'); done).
  destruct HO as [O1 O2 O3 O4 O5 O6 O7].
  assert (l = Join \/ l <> Join) as [->|N] by (destruct l; auto).
  2: { pose proof (frame_j _ _ _ _ H N) as J. constructor.
    - intros i q Hi Hq. destruct (frame_q _ _ _ _ _ _ H N Hq) as (q0 & Hq0 & ->).
      destruct (frame_w _ _ _ _ _ H Hi) as [Hw|(q1 & Hq1 & D)]; [eauto|]. congruence.
    - intros i q Hi Hq. destruct (frame_wt _ _ _ _ _ _ H N Hq) as (q0 & Hq0 & ->).
      destruct (frame_e _ _ _ _ _ H Hi) as [Hw|(q1 & Hq1 & D)]; [eauto|]. congruence.
    - rewrite J. intros Hj. destruct (O3 Hj) as [A B]. split; intros i q Hq.
      + destruct (frame_q _ _ _ _ _ _ H N Hq) as (q0 & Hq0 & ->). eauto.
      + destruct (frame_wt _ _ _ _ _ _ H N Hq) as (q0 & Hq0 & ->). eauto.
    - rewrite J. intros i q Hq ?. destruct (frame_q _ _ _ _ _ _ H N Hq) as (q0 & Hq0 & ->). eauto.
    - rewrite J. intros i q Hq ?. destruct (frame_wt _ _ _ _ _ _ H N Hq) as (q0 & Hq0 & ->). eauto.
    - rewrite J. intros i q Hq ?. eapply exited_w_bk; eauto.
    - rewrite J. intros i q Hq ?. eapply exited_e_bk; eauto. eapply frame_es_len; eauto. by intros Hj; rewrite Hj in *. }
  destruct HS as [Hc H1 H2 H3 H4 H5 H6 H7 H8]. clear HS'.
  inversion H as [H']. apply step_t in H. inversion H; subst; rewrite H0 in *; simpl in *.
  - constructor; simpl; auto; try done; intros; lia.
  - constructor; simpl; auto; try done.
    + intros i q0 Hi Hq. lk; subst; eauto.
    + intros i q0 Hq Hl. lk; subst; auto. apply (O4 i); [done|lia].
  - constructor; simpl; auto; try done.
    intros i q Hq _. apply lookup_lt_Some in Hq as Hl. apply lookup_ge_None_1 in H9. apply (O4 i); [done|lia].
  - notify_cases. constructor; simpl; auto; try done. intros i q Hi Hq. apply (O1 i); [|done]. solve_notify.
  - constructor; simpl; auto; try done.
    + intros i q0 Hi Hq. lk; subst; eauto.
    + intros i q0 Hq Hl. lk; subst; auto. apply (O5 i); [done|lia].
  - constructor; simpl; auto; try done; try (intros; lia).
    intros i q Hq _. apply lookup_lt_Some in Hq as Hl. apply lookup_ge_None_1 in H9. apply (O5 i); [done|lia].
  - notify_cases. constructor; simpl; auto; try done. intros i q Hi Hq. apply (O2 i); [|done]. solve_notify.
  - constructor; simpl; auto; try done.
    + intros i p Hp Hl. destruct (decide (i = k)) as [->|]; [congruence|]. apply (O6 i); [done|lia].
    + intros i p Hp Hl. apply (O7 i); [done|]. apply lookup_lt_Some in H9. lia.
  - constructor; simpl; auto; try done.
    + intros i p Hp Hl. apply (O6 i); [done|]. apply lookup_lt_Some in Hp. lia.
    + intros i p Hp Hl. destruct (decide (i = k - length (ws s))) as [->|]; [congruence|]. apply (O7 i); [done|lia].
  - constructor; simpl; auto; try done.
    + intros i p Hp _. apply (O6 i); [done|]. apply lookup_lt_Some in Hp. lia.
    + intros i p Hp _. apply (O7 i); [done|]. apply lookup_lt_Some in Hp. apply lookup_ge_None_1 in H10. lia.
Qed.
Lemma init_ord c m : ord c m (init c m).
Proof.
  constructor; simpl; try done; try (intros; lia).
  - intros i q H. by apply lookup_replicate in H as [? _].
  - intros _. split; intros i q H; by apply lookup_replicate in H as [-> _].
Qed.
