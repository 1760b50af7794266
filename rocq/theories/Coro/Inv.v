(** Invariants of Verif.Coro.Model. *)
From Coq Require Import List Bool Arith Lia ZifyBool.
From stdpp Require Import list.
From Verif.Coro Require Import Model Spec.

Section Inv.
Context (prog : nat -> option body).

(** ** where a coroutine is *)
Definition one (b : bool) : nat := if b then 1 else 0.
Definition in_eval (c : nat) (a : act) : nat := match a with Eval d _ => one (d =? c) | _ => 0 end.
Definition in_free (c : nat) (a : act) : nat := match a with Free d => one (d =? c) | _ => 0 end.
Definition in_list (c : nat) (l : list (nat * kont)) : nat := list_sum (map (fun w => one (fst w =? c)) l).
Definition in_susp (c : nat) (a : act) : nat :=
  match a with Susp d _ _ => one (d =? c) | Fire _ _ l => in_list c l | _ => 0 end.
Definition total (w : act -> nat) (l : list act) : nat := list_sum (map w l).
Definition stored (c : nat) (l : list (nat * (nat * kont))) : nat := in_list c (map snd l).

Lemma total_app w a b : total w (a ++ b) = total w a + total w b.
Proof. unfold total. by rewrite map_app, list_sum_app. Qed.
Lemma total_one w a : total w [a] = w a.
Proof. unfold total. cbn. lia. Qed.
Lemma total_cons w a l : total w (a :: l) = w a + total w l.
Proof. done. Qed.
Lemma total_delete w i l a : l !! i = Some a -> total w l = w a + total w (delete i l).
Proof.
  revert i. induction l as [|x l IH]; intros [|i] H; cbn in H; try done.
  - by injection H as ->.
  - change (delete (S i) (x :: l)) with (x :: delete i l). rewrite !total_cons, (IH i H). lia.
Qed.
Lemma in_list_app c a b : in_list c (a ++ b) = in_list c a + in_list c b.
Proof. unfold in_list. by rewrite map_app, list_sum_app. Qed.
Lemma stored_filter c f l : stored c l =
  in_list c (map snd (List.filter (fun w => fst w =? f) l)) + stored c (List.filter (fun w => negb (fst w =? f)) l).
Proof.
  assert (forall w l, in_list c (w :: l) = one (fst w =? c) + in_list c l) as C by done.
  unfold stored. induction l as [|[g w] l IH]; [done|]. cbn [map List.filter fst snd].
  destruct (g =? f); cbn [map List.filter fst snd negb]; rewrite !C; lia.
Qed.

(** the coroutine c has b still to do: what it saw on the way are the outcomes of the futures *)
Inductive path (o : nat -> option outcome) : body -> body -> Prop :=
  | path_nil b : path o b b
  | path_cons f k x b : o f = Some x -> path o (k x) b -> path o (Await f k) b.
Lemma path_mono (o o' : nat -> option outcome) b b' : (forall f x, o f = Some x -> o' f = Some x) -> path o b b' -> path o' b b'.
Proof. intros M. induction 1; [constructor|]. econstructor; eauto. Qed.
Lemma path_more o b f k x : path o b (Await f k) -> o f = Some x -> path o b (k x).
Proof.
  intros P X. remember (Await f k) as r eqn:E. induction P as [b|g h y b Y P IH]; [subst; econstructor; [done|constructor]|].
  econstructor; [done|by apply IH].
Qed.
Definition at_ (s : st) (c : nat) (b : body) : Prop := exists b0, prog c = Some b0 /\ path (outs s) b0 b.
Definition act_ok (s : st) (a : act) : Prop :=
  match a with
  | Eval c b => at_ s c b
  | Susp c f k => at_ s c (Await f k)
  | Fire f o l => outs s f = Some o /\ Forall (fun w => at_ s (fst w) (Await f (snd w))) l
  | Free c => prog c <> None
  end.
Definition wait_ok (s : st) (w : nat * (nat * kont)) : Prop :=
  outs s (fst w) = None /\ at_ s (fst (snd w)) (Await (fst w) (snd (snd w))).

Record coroutine (s : st) (c : nat) : Prop := {
  c_run : total (in_eval c) (acts s) + total (in_free c) (acts s) = one (is_running (cst s c));
  c_susp : total (in_susp c) (acts s) + stored c (waiting s) = one (is_suspended (cst s c));
  c_out : prog c <> None -> outs s c = None <-> total (in_free c) (acts s) = 0 /\ cst s c <> Gone;
  c_ext : prog c = None -> cst s c = Fresh
}.
Record inv (s : st) : Prop := {
  i_acts : Forall (act_ok s) (acts s);
  i_wait : Forall (wait_ok s) (waiting s);
  i_coro : forall c, coroutine s c;
  i_bad : bad s = false;
  i_done : forall c o, prog c <> None -> outs s c = Some o -> exists b r, prog c = Some b /\ path (outs s) b r /\
    match r with Ret v => o = Value v | Throw e => o = Error e | Await _ _ => False end
}.

Lemma init_inv : inv init.
Proof.
  constructor; cbn; try constructor; try done.
Qed.

(** ** a future becomes ready *)
Definition grows (s s' : st) : Prop := forall f x, outs s f = Some x -> outs s' f = Some x.
Lemma at_grows s s' c b : grows s s' -> at_ s c b -> at_ s' c b.
Proof. intros G (b0 & P & Q). exists b0. split; [done|]. by eapply path_mono. Qed.
Lemma act_grows s s' a : grows s s' -> act_ok s a -> act_ok s' a.
Proof.
  intros G. destruct a; cbn; [by apply at_grows|by apply at_grows| |done].
  intros [A B]. split; [by apply G|]. eapply Forall_impl; [done|]. intros w. by apply at_grows.
Qed.

Lemma resolve_parts f o s : outs s f = None -> Forall (act_ok s) (acts s) -> Forall (wait_ok s) (waiting s) ->
  grows s (resolve f o s) /\ Forall (act_ok (resolve f o s)) (acts (resolve f o s)) /\ Forall (wait_ok (resolve f o s)) (waiting (resolve f o s)).
Proof.
  intros N A W. assert (grows s (resolve f o s)) as G.
  { intros g x X. cbn. unfold upd. destruct (g =? f) eqn:E; [|done]. apply Nat.eqb_eq in E. congruence. }
  split; [done|]. split.
  - apply Forall_app. split; [eapply Forall_impl; [exact A|]; intros a; by apply act_grows|].
    constructor; [|constructor]. split; [cbn; unfold upd; by rewrite Nat.eqb_refl|].
    apply Forall_forall. intros w Hw. apply elem_of_list_In, in_map_iff in Hw. destruct Hw as ([g w'] & <- & Hw).
    apply filter_In in Hw. destruct Hw as [Hw E]. cbn in E. apply Nat.eqb_eq in E. subst g.
    rewrite Forall_forall in W. destruct (W (f, w')) as [_ X]; [by apply elem_of_list_In|]. by eapply at_grows.
  - apply Forall_forall. intros [g w] Hw. apply elem_of_list_In, filter_In in Hw. destruct Hw as [Hw E]. cbn in E.
    rewrite Forall_forall in W. destruct (W (g, w)) as [X Y]; [by apply elem_of_list_In|].
    split; [|by eapply at_grows]. cbn. unfold upd. by destruct (g =? f).
Qed.


(** ** steps *)
Lemma eval_running s c b i : inv s -> acts s !! i = Some (Eval c b) ->
  cst s c = Running /\ prog c <> None /\ outs s c = None /\ total (in_eval c) (delete i (acts s)) = 0 /\ total (in_free c) (acts s) = 0.
Proof.
  intros I H. destruct (i_coro s I c) as [R S O E]. pose proof (total_delete (in_eval c) i (acts s) _ H) as D.
  cbn in D. rewrite Nat.eqb_refl in D. cbn in D.
  assert (cst s c = Running) as C by (destruct (cst s c); cbn in R; [lia|done|lia|lia]).
  assert (prog c <> None) as P. { intros P. rewrite (E P) in C. done. }
  rewrite C in R. cbn in R. split; [done|]. split; [done|]. split; [|lia]. apply O; [done|]. split; [lia|congruence].
Qed.
Lemma free_running s c i : inv s -> acts s !! i = Some (Free c) -> cst s c = Running /\ prog c <> None /\ outs s c <> None /\
  total (in_eval c) (acts s) = 0 /\ total (in_free c) (delete i (acts s)) = 0.
Proof.
  intros I H. destruct (i_coro s I c) as [R S O E]. pose proof (total_delete (in_free c) i (acts s) _ H) as D.
  cbn in D. rewrite Nat.eqb_refl in D. cbn in D.
  assert (cst s c = Running) as C by (destruct (cst s c); cbn in R; [lia|done|lia|lia]).
  assert (prog c <> None) as P. { intros P. rewrite (E P) in C. done. }
  rewrite C in R. cbn in R. split; [done|]. split; [done|]. split; [|lia]. intros N. apply O in N; [lia|done].
Qed.
Lemma susp_suspended s c : inv s -> 0 < total (in_susp c) (acts s) + stored c (waiting s) ->
  cst s c = Suspended /\ prog c <> None.
Proof.
  intros I H. destruct (i_coro s I c) as [R S O E].
  assert (cst s c = Suspended) as C by (destruct (cst s c); cbn in S; [lia|lia|done|lia]).
  split; [done|]. intros P. by rewrite (E P) in C.
Qed.
Lemma total_le w i l a : l !! i = Some a -> w a <= total w l.
Proof. intros H. rewrite (total_delete w i l a H). lia. Qed.

(** counts after a step, given what was taken out and put in *)
Ltac counts := repeat rewrite ?total_app, ?total_one, ?total_cons, ?in_list_app.

Lemma resolve_inv_ext f o s : inv s -> prog f = None -> outs s f = None -> inv (resolve f o s).
Proof.
  intros I P N. destruct (resolve_parts f o s N (i_acts s I) (i_wait s I)) as (G & A & W). constructor; [done|done| |apply I|].
  - intros c. destruct (i_coro s I c) as [R S O E]. constructor; cbn [acts resolve set_acts set_outs set_waiting cst waiting outs].
    + counts. cbn. lia.
    + counts. cbn [in_susp]. rewrite (stored_filter c f) in S. lia.
    + intros Pc. counts. cbn [in_free]. unfold upd. destruct (c =? f) eqn:E1; [apply Nat.eqb_eq in E1; congruence|].
      rewrite Nat.add_0_r. by apply O.
    + done.
  - intros c x Pc X. cbn in X. unfold upd in X. destruct (c =? f) eqn:E1; [apply Nat.eqb_eq in E1; congruence|].
    destruct (i_done s I c x Pc X) as (b & r & B & Q & M). exists b, r. split; [done|]. split; [|done]. by eapply path_mono.
Qed.

Lemma at_same s s' c b : outs s' = outs s -> at_ s c b -> at_ s' c b.
Proof. intros E. apply at_grows. intros f x. by rewrite E. Qed.
Lemma acts_same s s' l : outs s' = outs s -> Forall (act_ok s) l -> Forall (act_ok s') l.
Proof. intros E A. eapply Forall_impl; [exact A|]. intros a. apply act_grows. intros f x. by rewrite E. Qed.
Lemma waits_same s s' l : outs s' = outs s -> Forall (wait_ok s) l -> Forall (wait_ok s') l.
Proof. intros E A. eapply Forall_impl; [exact A|]. intros w [X Y]. split; [by rewrite E|by eapply at_same]. Qed.
Lemma done_same s s' : outs s' = outs s -> inv s -> forall c o, prog c <> None -> outs s' c = Some o -> exists b r, prog c = Some b /\ path (outs s') b r /\
  match r with Ret v => o = Value v | Throw e => o = Error e | Await _ _ => False end.
Proof. intros E I. rewrite E. apply (i_done s I). Qed.

Ltac split_on c d :=
  let Q := fresh "Q" in destruct (c =? d) eqn:Q;
  repeat match goal with H : context [c =? d] |- _ => lazymatch H with Q => fail | _ => rewrite Q in H end end;
  [apply Nat.eqb_eq in Q; subst|]; cbn [one] in *.
Ltac taken H d := pose proof (total_delete (in_eval d) _ _ _ H) as ?T1; pose proof (total_delete (in_free d) _ _ _ H) as ?T2;
  pose proof (total_delete (in_susp d) _ _ _ H) as ?T3; cbn [in_eval in_free in_susp] in *.

Lemma await_ready_inv s i c f k o : inv s -> acts s !! i = Some (Eval c (Await f k)) -> outs s f = Some o ->
  inv (set_acts (delete i (acts s) ++ [Eval c (k o)]) (touch c (set_acts (delete i (acts s)) s))).
Proof.
  intros I H X. destruct (eval_running s c _ i I H) as (C & P & N & _). pose proof (Forall_lookup_1 _ _ _ _ (i_acts s I) H) as A.
  constructor; cbn [acts set_acts touch set_bad outs waiting bad cst].
  - apply Forall_app. split; [by eapply (acts_same s); [|apply Forall_delete, I]|]. constructor; [|constructor].
    destruct A as (b0 & A1 & A2). exists b0. split; [done|]. by apply (path_more _ _ f).
  - eapply (waits_same s); [done|apply I].
  - intros d. destruct (i_coro s I d) as [R S O E]. taken H d.
    constructor; cbn [acts set_acts touch set_bad outs waiting bad cst]; try done; counts; cbn [in_eval in_free in_susp]; try lia.
    intros Pd. rewrite (O Pd), T2, Nat.add_0_r. done.
  - rewrite C, (i_bad s I). done.
  - by apply (done_same s).
Qed.
Lemma await_susp_inv s i c f k : inv s -> acts s !! i = Some (Eval c (Await f k)) ->
  inv (set_acts (delete i (acts s) ++ [Susp c f k]) (set_cst c Suspended (touch c (set_acts (delete i (acts s)) s)))).
Proof.
  intros I H. destruct (eval_running s c _ i I H) as (C & P & N & Z & Z2). pose proof (Forall_lookup_1 _ _ _ _ (i_acts s I) H) as A.
  constructor; cbn [acts set_acts touch set_bad outs waiting bad cst set_cst].
  - apply Forall_app. split; [by eapply (acts_same s); [|apply Forall_delete, I]|]. constructor; [|constructor]. by eapply (at_same s).
  - eapply (waits_same s); [done|apply I].
  - intros d. destruct (i_coro s I d) as [R S O E]. taken H d.
    constructor; cbn [acts set_acts touch set_bad outs waiting bad cst set_cst]; unfold upd; counts; cbn [in_eval in_free in_susp].
    + rewrite (Nat.eqb_sym d c). split_on c d; [|lia]. cbn. rewrite C in R. cbn in R. lia.
    + rewrite (Nat.eqb_sym d c). split_on c d; [|lia]. cbn. rewrite C in S. cbn in S. lia.
    + intros Pd. rewrite (O Pd), T2, !Nat.add_0_r. rewrite (Nat.eqb_sym d c). split_on c d; [|done]. rewrite C. by intuition.
    + intros Pd. rewrite (Nat.eqb_sym d c). split_on c d; [done|auto].
  - rewrite C, (i_bad s I). done.
  - by apply (done_same s).
Qed.
(** the coroutine c, which was to be found at one place where it is suspended, is resumed *)
Lemma resume_inv s s0 i a c f k o : inv s -> acts s !! i = Some a ->
  outs s0 = outs s -> waiting s0 = waiting s -> cst s0 = cst s -> bad s0 = bad s ->
  outs s f = Some o -> at_ s c (Await f k) ->
  Forall (act_ok s) (acts s0) ->
  (forall d, in_eval d a = 0 /\ in_free d a = 0 /\ total (in_eval d) (acts s0) = total (in_eval d) (delete i (acts s)) /\
     total (in_free d) (acts s0) = total (in_free d) (delete i (acts s)) /\
     total (in_susp d) (acts s0) + one (c =? d) = in_susp d a + total (in_susp d) (delete i (acts s))) ->
  inv (fst (resume c f o k s0)).
Proof.
  intros I H Eo Ew Ec Eb X A F T. assert (cst s c = Suspended) as C.
  { apply (susp_suspended s c I). destruct (T c) as (_ & _ & _ & _ & T3). rewrite Nat.eqb_refl in T3. cbn in T3.
    rewrite (total_delete (in_susp c) i _ _ H). lia. }
  constructor; cbn [fst resume acts set_acts set_cst set_bad outs waiting cst bad]; rewrite ?Eo, ?Ew, ?Ec, ?Eb.
  - apply Forall_app. split; [by eapply (acts_same s)|]. constructor; [|constructor].
    destruct A as (b0 & A1 & A2). exists b0. split; [done|]. cbn. rewrite Eo. by apply (path_more _ _ f).
  - eapply (waits_same s); [done|apply I].
  - intros d. destruct (i_coro s I d) as [R S O E]. destruct (T d) as (U1 & U2 & U3 & U4 & U5).
    pose proof (total_delete (in_eval d) _ _ _ H) as T1; pose proof (total_delete (in_free d) _ _ _ H) as T2;
    pose proof (total_delete (in_susp d) _ _ _ H) as T3.
    constructor; cbn [acts set_acts set_cst set_bad outs waiting cst bad]; rewrite ?Eo, ?Ew, ?Ec; unfold upd; counts; cbn [in_eval in_free in_susp]; rewrite (Nat.eqb_sym d c).
    + split_on c d; [|cbn in U5; lia]. cbn. rewrite C in R. cbn in R. lia.
    + split_on c d; cbn in U5; [|lia]. cbn. rewrite C in S. cbn in S. lia.
    + intros Pd. rewrite (O Pd), U4, !Nat.add_0_r. replace (total (in_free d) (acts s)) with (total (in_free d) (delete i (acts s))) by lia.
      split_on c d; [|done]. rewrite C. by intuition.
    + intros Pd. split_on c d; [|auto]. rewrite (E Pd) in C. done.
  - rewrite C, (i_bad s I). done.
  - intros d x. apply (i_done s I).
Qed.
Lemma store_inv s i c f k : inv s -> acts s !! i = Some (Susp c f k) -> outs s f = None ->
  inv (set_waiting (waiting s ++ [(f, (c, k))]) (set_bad (negb (is_suspended (cst s c))) (set_acts (delete i (acts s)) s))).
Proof.
  intros I H X. pose proof (Forall_lookup_1 _ _ _ _ (i_acts s I) H) as A.
  assert (cst s c = Suspended) as C.
  { apply (susp_suspended s c I). pose proof (total_le (in_susp c) i _ _ H) as L. cbn in L. rewrite Nat.eqb_refl in L. cbn in L. lia. }
  constructor; cbn [acts set_acts set_bad outs waiting bad cst set_waiting].
  - by eapply (acts_same s); [|apply Forall_delete, I].
  - apply Forall_app. split; [eapply (waits_same s); [done|apply I]|]. constructor; [|constructor]. split; [done|]. by eapply (at_same s).
  - intros d. destruct (i_coro s I d) as [R S O E]. taken H d.
    constructor; cbn [acts set_acts set_bad outs waiting bad cst set_waiting]; try done; try lia.
    + unfold stored in *. rewrite map_app, in_list_app. change (in_list d (map snd [(f, (c, k))])) with (one (c =? d) + 0). lia.
    + intros Pd. by rewrite (O Pd), T2.
  - rewrite C, (i_bad s I). done.
  - by apply (done_same s).
Qed.
Lemma drop_inv s i f o : inv s -> acts s !! i = Some (Fire f o []) -> inv (set_acts (delete i (acts s)) s).
Proof.
  intros I H. constructor; cbn [acts set_acts outs waiting bad cst].
  - by eapply (acts_same s); [|apply Forall_delete, I].
  - eapply (waits_same s); [done|apply I].
  - intros d. destruct (i_coro s I d) as [R S O E]. taken H d. unfold in_list in T3; cbn in T3.
    constructor; cbn [acts set_acts outs waiting bad cst]; try done; try lia. intros Pd. by rewrite (O Pd), T2.
  - apply I.
  - by apply (done_same s).
Qed.
Lemma free_inv s i c : inv s -> acts s !! i = Some (Free c) -> inv (set_cst c Gone (touch c (set_acts (delete i (acts s)) s))).
Proof.
  intros I H. destruct (free_running s c i I H) as (C & P & N & Z & Z2).
  constructor; cbn [acts set_acts touch set_bad outs waiting bad cst set_cst].
  - by eapply (acts_same s); [|apply Forall_delete, I].
  - eapply (waits_same s); [done|apply I].
  - intros d. destruct (i_coro s I d) as [R S O E]. taken H d.
    constructor; cbn [acts set_acts touch set_bad outs waiting bad cst set_cst]; unfold upd; rewrite (Nat.eqb_sym d c).
    + split_on c d; [|cbn in *; lia]. cbn. rewrite C in R. cbn in R. lia.
    + split_on c d; [|lia]. cbn. rewrite C in S. cbn in S. lia.
    + intros Pd. split_on c d; [by intuition|]. rewrite (O Pd), T2. done.
    + intros Pd. split_on c d; [done|auto].
  - rewrite C, (i_bad s I). done.
  - by apply (done_same s).
Qed.
Lemma finish_inv s i c b o : inv s -> acts s !! i = Some (Eval c b) ->
  match b with Ret v => o = Value v | Throw e => o = Error e | Await _ _ => False end ->
  let s1 := resolve c o (touch c (set_acts (delete i (acts s)) s)) in inv (set_acts (acts s1 ++ [Free c]) s1).
Proof.
  intros I H B s1. destruct (eval_running s c _ i I H) as (C & P & N & Z & Z2). pose proof (Forall_lookup_1 _ _ _ _ (i_acts s I) H) as A.
  set (s0 := touch c (set_acts (delete i (acts s)) s)) in *.
  assert (outs s0 = outs s) as E0 by done. assert (waiting s0 = waiting s) as E1 by done.
  destruct (resolve_parts c o s0 N) as (G & F & W).
  { eapply (acts_same s); [done|apply Forall_delete, I]. }
  { eapply (waits_same s); [done|apply I]. }
  fold s1 in G, F, W. constructor; cbn [acts set_acts].
  - apply Forall_app. split; [done|]. by constructor.
  - done.
  - intros d. destruct (i_coro s I d) as [R S O E]. taken H d.
    constructor; cbn [acts set_acts waiting outs cst]; unfold s1; cbn [acts resolve set_acts set_waiting set_outs waiting outs cst s0 touch set_bad];
      counts; cbn [in_eval in_free in_susp].
    + lia.
    + rewrite (stored_filter d c) in S. lia.
    + intros Pd. unfold upd. rewrite (Nat.eqb_sym d c). split_on c d; [split; [done|intros [? _]; lia]|]. rewrite (O Pd), T2, !Nat.add_0_r. done.
    + done.
  - cbn. rewrite C, (i_bad s I). done.
  - intros d x Pd X. cbn in X. unfold upd in X. split_on d c.
    + injection X as <-. destruct A as (b0 & A1 & A2). exists b0, b. split; [done|]. split; [|done].
      eapply path_mono; [|exact A2]. intros g y Y. by apply (G g y).
    + destruct (i_done s I d x Pd X) as (b0 & r & Y1 & Y2 & Y3). exists b0, r. split; [done|]. split; [|done].
      eapply path_mono; [|exact Y2]. intros g y Y. by apply (G g y).
Qed.

Lemma step_inv s l s' ev : inv s -> step prog s l = Some (s', ev) -> inv s'.
Proof.
  intros I H. destruct l as [f o|c|i]; cbn [step] in H.
  - destruct (prog f) eqn:P; [done|]. destruct (outs s f) eqn:N; [done|]. injection H as <- <-. by apply resolve_inv_ext.
  - destruct (prog c) as [b|] eqn:P; [|done]. destruct (cst s c) eqn:C; try done. injection H as <- <-.
    constructor; cbn [acts set_acts set_cst outs waiting bad cst].
    + apply Forall_app. split; [by eapply (acts_same s); [|apply I]|]. constructor; [|constructor]. exists b. split; [done|constructor].
    + eapply (waits_same s); [done|apply I].
    + intros d. destruct (i_coro s I d) as [R S O E].
      constructor; cbn [acts set_acts set_cst outs waiting bad cst]; unfold upd; counts; cbn [in_eval in_free in_susp]; rewrite (Nat.eqb_sym d c).
      * split_on c d; [|cbn; lia]. rewrite C in R. cbn in *. lia.
      * split_on c d; [|lia]. rewrite C in S. cbn in *. lia.
      * intros Pd. rewrite (O Pd), Nat.add_0_r. split_on c d; [|done]. rewrite C. by intuition.
      * intros Pd. split_on c d; [congruence|auto].
    + apply I.
    + by apply (done_same s).
  - destruct (acts s !! i) as [a|] eqn:H0; [|done]. destruct a as [c b|c f k|f o [|[c k] l]|c].
    + destruct b as [v|e|f k].
      * injection H as <- <-. by apply (finish_inv s i c (Ret v)).
      * injection H as <- <-. by apply (finish_inv s i c (Throw e)).
      * change (outs (touch c (set_acts (delete i (acts s)) s)) f) with (outs s f) in H. destruct (outs s f) as [o|] eqn:X.
        -- injection H as <- <-. by apply (await_ready_inv s i c f k o).
        -- injection H as <- <-. by apply (await_susp_inv s i c f k).
    + change (outs (set_acts (delete i (acts s)) s) f) with (outs s f) in H. pose proof (Forall_lookup_1 _ _ _ _ (i_acts s I) H0) as A.
      destruct (outs s f) as [o|] eqn:X.
      * injection H as <- <-. apply (resume_inv s (set_acts (delete i (acts s)) s) i _ c f k o I H0); try done; [apply Forall_delete, I|].
        intros d. cbn [in_eval in_free in_susp acts set_acts]. lia.
      * injection H as <- <-. by apply store_inv.
    + injection H as <- <-. by eapply drop_inv.
    + pose proof (Forall_lookup_1 _ _ _ _ (i_acts s I) H0) as [A1 A2]. inversion A2 as [|? ? B1 B2]; subst.
      injection H as <- <-. apply (resume_inv s (set_acts (Fire f o l :: delete i (acts s)) s) i _ c f k o I H0); try done.
      * cbn [acts set_acts]. constructor; [by split|]. apply Forall_delete, I.
      * intros d. cbn [in_eval in_free acts set_acts]. rewrite !total_cons. cbn [in_eval in_free in_susp].
        change (in_list d ((c, k) :: l)) with (one (c =? d) + in_list d l). lia.
    + injection H as <- <-. by apply free_inv.
Qed.
Lemma run_inv s ls s' tr : inv s -> run prog s ls = Some (s', tr) -> inv s'.
Proof.
  revert s s' tr. induction ls as [|l ls IH]; intros s s' tr I R; cbn [run] in R; [by injection R as <- <-|].
  destruct (step prog s l) as [[s1 ev]|] eqn:E; [|done]. destruct (run prog s1 ls) as [[s2 tr2]|] eqn:E2; [|done].
  injection R as <- <-. eapply IH; [|done]. by eapply step_inv.
Qed.
End Inv.
