(** What the trace says of a coroutine. *)
From Coq Require Import List Bool Arith Lia ZifyBool.
From stdpp Require Import list.
From Verif.Coro Require Import Model Spec Inv Final.

Section Trace.
Context (prog : nat -> option body).

Lemma saw_app c a b : saw c (a ++ b) = saw c a ++ saw c b.
Proof. apply flat_map_app. Qed.
Lemma began_app c a b : began c (a ++ b) = began c a ++ began c b.
Proof. apply flat_map_app. Qed.
Lemma finished_app c a b : finished c (a ++ b) = finished c a ++ finished c b.
Proof. apply flat_map_app. Qed.
Lemma freed_app c a b : freed c (a ++ b) = freed c a ++ freed c b.
Proof. apply flat_map_app. Qed.
Lemma follows_snoc b l f k o : follows b l (Await f k) -> follows b (l ++ [(f, o)]) (k o).
Proof.
  intros P. remember (Await f k) as r eqn:E. induction P as [b|g h x l r P IH]; subst; cbn; constructor; [constructor|by apply IH].
Qed.

Definition spot (tr : list event) (c : nat) (b : body) : Prop := exists b0, prog c = Some b0 /\ follows b0 (saw c tr) b.
Definition act_at (tr : list event) (a : act) : Prop :=
  match a with
  | Eval c b => spot tr c b
  | Susp c f k => spot tr c (Await f k)
  | Fire f o l => Forall (fun w => spot tr (fst w) (Await f (snd w))) l
  | Free c => True
  end.
Definition wait_at (tr : list event) (w : nat * (nat * kont)) : Prop := spot tr (fst (snd w)) (Await (fst w) (snd (snd w))).
Definition got (s : st) (l : list (nat * outcome)) : Prop := Forall (fun p => outs s (fst p) = Some (snd p)) l.
Definition is_fresh (x : cstate) : bool := match x with Fresh => true | _ => false end.
Definition is_gone (x : cstate) : bool := match x with Gone => true | _ => false end.

Record tinv (s : st) (tr : list event) : Prop := {
  t_acts : Forall (act_at tr) (acts s);
  t_wait : Forall (wait_at tr) (waiting s);
  t_fresh : forall c, cst s c = Fresh -> saw c tr = [];
  t_saw : forall c, got s (saw c tr);
  t_done : forall c o, prog c <> None -> outs s c = Some o -> exists r, spot tr c r /\ ends r o;
  t_fin : forall c, finished c tr = match prog c, outs s c with Some _, Some o => [o] | _, _ => [] end;
  t_began : forall c, began c tr = if is_fresh (cst s c) then [] else [tt];
  t_freed : forall c, freed c tr = if is_gone (cst s c) then [tt] else []
}.
Lemma init_tinv : tinv init [].
Proof. by constructor; cbn; try constructor; try done; intros c; destruct (prog c). Qed.

Lemma spot_same tr ev c b : saw c ev = [] -> spot tr c b -> spot (tr ++ ev) c b.
Proof. intros E (b0 & P & F). exists b0. by rewrite saw_app, E, app_nil_r. Qed.
Lemma in_list_in c k (l : list (nat * kont)) : (c, k) ∈ l -> 0 < in_list c l.
Proof.
  induction l as [|[d h] l IH]; intros A; [by apply elem_of_nil in A|].
  change (in_list c ((d, h) :: l)) with (one (d =? c) + in_list c l).
  apply elem_of_cons in A. destruct A as [[= -> ->]|A]; [rewrite Nat.eqb_refl; cbn; lia|]. specialize (IH A). lia.
Qed.
Lemma act_same tr ev a : (forall c, 0 < in_eval c a + in_susp c a -> saw c ev = []) -> act_at tr a -> act_at (tr ++ ev) a.
Proof.
  intros E. destruct a as [c b|c f k|f o l|c]; cbn in *.
  - apply spot_same, E. rewrite Nat.eqb_refl. cbn. lia.
  - apply spot_same, E. rewrite Nat.eqb_refl. cbn. lia.
  - intros F. apply Forall_forall. intros [c k] W. rewrite Forall_forall in F. apply spot_same; [|by apply (F (c, k))].
    apply E. pose proof (in_list_in c k l W). cbn. lia.
  - done.
Qed.
Lemma acts_same_tr tr ev l : (forall c, 0 < total (in_eval c) l + total (in_susp c) l -> saw c ev = []) ->
  Forall (act_at tr) l -> Forall (act_at (tr ++ ev)) l.
Proof.
  intros E F. apply Forall_forall. intros a A. rewrite Forall_forall in F. apply act_same; [|auto]. intros c C. apply E.
  apply elem_of_list_lookup in A. destruct A as [i A]. pose proof (total_le (in_eval c) i l a A). pose proof (total_le (in_susp c) i l a A). lia.
Qed.
Lemma wait_same_tr tr ev l : (forall c, 0 < stored c l -> saw c ev = []) -> Forall (wait_at tr) l -> Forall (wait_at (tr ++ ev)) l.
Proof.
  intros E F. apply Forall_forall. intros [f [c k]] A. rewrite Forall_forall in F. apply spot_same; [|by apply (F (f, (c, k)))].
  apply E. apply (in_list_in c k). apply elem_of_list_In, in_map_iff. exists (f, (c, k)). split; [done|by apply elem_of_list_In].
Qed.
Lemma saw_other c d f o : d <> c -> saw d [Saw c f o] = [].
Proof. intros N. cbn. destruct (c =? d) eqn:E; [apply Nat.eqb_eq in E; congruence|done]. Qed.
Lemma saw_self c f o : saw c [Saw c f o] = [(f, o)].
Proof. cbn. by rewrite Nat.eqb_refl. Qed.
Lemma got_grows s s' l : grows s s' -> got s l -> got s' l.
Proof. intros G F. eapply Forall_impl; [exact F|]. intros [f o]. apply G. Qed.

(** a step in which c sees the outcome o of f, and is found nowhere else *)
Lemma saw_tinv s s' tr c f o k i a : inv prog s -> tinv s tr -> acts s !! i = Some a ->
  outs s' = outs s -> waiting s' = waiting s -> (forall d, cst s' d = if d =? c then Running else cst s d) ->
  (exists l, acts s' = l ++ [Eval c (k o)] /\ Forall (act_at tr) l /\ total (in_eval c) l = 0 /\ total (in_susp c) l = 0) ->
  stored c (waiting s) = 0 -> cst s c = Running \/ cst s c = Suspended -> outs s c = None ->
  outs s f = Some o -> spot tr c (Await f k) -> tinv s' (tr ++ [Saw c f o]).
Proof.
  intros I T Hi Eo Ew Ec (l & El & Fl & Z1 & Z2) Z3 Cc N X Sp.
  assert (forall d, 0 < total (in_eval d) l + total (in_susp d) l -> saw d [Saw c f o] = []) as O1.
  { intros d D. apply saw_other. intros ->. lia. }
  assert (forall d, 0 < stored d (waiting s) -> saw d [Saw c f o] = []) as O2.
  { intros d D. apply saw_other. intros ->. lia. }
  constructor.
  - rewrite El. apply Forall_app. split; [by apply acts_same_tr|]. constructor; [|constructor]. destruct Sp as (b0 & P & F). exists b0.
    split; [done|]. rewrite saw_app, saw_self. by apply follows_snoc.
  - rewrite Ew. apply wait_same_tr; [done|apply T].
  - intros d. rewrite Ec. destruct (d =? c) eqn:E; [done|]. intros C. rewrite saw_app, (t_fresh s tr T d C), saw_other; [done|].
    apply Nat.eqb_neq in E. done.
  - intros d. rewrite saw_app. apply Forall_app. split; [unfold got; rewrite Eo; apply T|].
    destruct (decide (d = c)) as [->|D]; [|rewrite (saw_other c d f o D); constructor]. rewrite saw_self. constructor; [|constructor]. cbn. by rewrite Eo.
  - intros d x Pd Xd. rewrite Eo in Xd. destruct (t_done s tr T d x Pd Xd) as (r & S1 & S2). exists r. split; [|done].
    apply spot_same; [|done]. apply saw_other. intros ->. congruence.
  - intros d. rewrite finished_app, Eo. cbn. rewrite app_nil_r. apply T.
  - intros d. rewrite began_app, Ec. cbn. rewrite app_nil_r, (t_began s tr T). destruct (d =? c) eqn:E; [|done].
    apply Nat.eqb_eq in E. subst. by destruct Cc as [-> | ->].
  - intros d. rewrite freed_app, Ec. cbn. rewrite app_nil_r, (t_freed s tr T). destruct (d =? c) eqn:E; [|done].
    apply Nat.eqb_eq in E. subst. by destruct Cc as [-> | ->].
Qed.
(** a step in which nobody sees anything *)
Lemma quiet_tinv s s' tr ev : inv prog s -> tinv s tr -> (forall c, saw c ev = []) -> grows s s' ->
  Forall (act_at tr) (acts s') -> Forall (wait_at tr) (waiting s') -> (forall c, cst s' c = Fresh -> cst s c = Fresh) ->
  (forall c o, prog c <> None -> outs s' c = Some o -> outs s c = Some o \/ exists r, spot tr c r /\ ends r o) ->
  (forall c, finished c tr ++ finished c ev = match prog c, outs s' c with Some _, Some o => [o] | _, _ => [] end) ->
  (forall c, began c tr ++ began c ev = if is_fresh (cst s' c) then [] else [tt]) ->
  (forall c, freed c tr ++ freed c ev = if is_gone (cst s' c) then [tt] else []) ->
  tinv s' (tr ++ ev).
Proof.
  intros I T S G A W C D F B R. constructor.
  - apply acts_same_tr; auto.
  - apply wait_same_tr; auto.
  - intros c X. rewrite saw_app, S, app_nil_r. by apply (t_fresh s tr T), C.
  - intros c. rewrite saw_app, S, app_nil_r. by apply (got_grows s); [|apply T].
  - intros c o P X. destruct (D c o P X) as [Y|(r & S1 & S2)]; [destruct (t_done s tr T c o P Y) as (r & S1 & S2)|]; exists r; (split; [by apply spot_same|done]).
  - intros c. rewrite finished_app. apply F.
  - intros c. rewrite began_app. apply B.
  - intros c. rewrite freed_app. apply R.
Qed.

Lemma resolved_acts f o s tr : tinv s tr -> Forall (act_at tr) (acts s ++ [Fire f o (map snd (List.filter (fun w => fst w =? f) (waiting s)))]).
Proof.
  intros T. apply Forall_app. split; [apply T|]. constructor; [|constructor]. apply Forall_forall. intros w W.
  apply elem_of_list_In, in_map_iff in W. destruct W as ([g w'] & <- & W). apply filter_In in W. destruct W as [W E]. cbn in E.
  apply Nat.eqb_eq in E. subst g. pose proof (t_wait s tr T) as F. rewrite Forall_forall in F. apply (F (f, w')). by apply elem_of_list_In.
Qed.
Lemma resolved_waits f s tr : tinv s tr -> Forall (wait_at tr) (List.filter (fun w => negb (fst w =? f)) (waiting s)).
Proof.
  intros T. apply Forall_forall. intros w W. apply elem_of_list_In, filter_In in W. destruct W as [W _].
  pose proof (t_wait s tr T) as F. rewrite Forall_forall in F. apply F. by apply elem_of_list_In.
Qed.
Lemma finish_tinv s tr i c b o : inv prog s -> tinv s tr -> acts s !! i = Some (Eval c b) -> ends b o ->
  let s1 := resolve c o (touch c (set_acts (delete i (acts s)) s)) in tinv (set_acts (acts s1 ++ [Free c]) s1) (tr ++ [Finished c o]).
Proof.
  intros I T H E s1. destruct (eval_running prog s c b i I H) as (C & P & N & Z1 & Z2). pose proof (Forall_lookup_1 _ _ _ _ (t_acts s tr T) H) as A.
  apply (quiet_tinv s); try done; unfold s1; cbn [acts resolve set_acts set_outs set_waiting waiting outs cst touch set_bad].
  - intros g x X. cbn. unfold upd. destruct (g =? c) eqn:Q; [apply Nat.eqb_eq in Q; congruence|done].
  - apply Forall_app. split; [|by constructor]. pose proof (resolved_acts c o s tr T) as F. apply Forall_app in F. destruct F as [F1 F2].
    apply Forall_app. split; [by apply Forall_delete|done].
  - by apply resolved_waits.
  - intros d x Pd. unfold upd. destruct (d =? c) eqn:Q; [|auto]. apply Nat.eqb_eq in Q. subst. intros [= <-]. right. by exists b.
  - intros d. cbn. rewrite (t_fin s tr T). unfold upd. rewrite (Nat.eqb_sym d c). destruct (c =? d) eqn:Q; [|by rewrite app_nil_r].
    apply Nat.eqb_eq in Q. subst. rewrite N. by destruct (prog d).
  - intros d. cbn. rewrite app_nil_r. apply T.
  - intros d. cbn. rewrite app_nil_r. apply T.
Qed.
Lemma total_witness w l : 0 < total w l -> exists a, a ∈ l /\ 0 < w a.
Proof.
  induction l as [|a l IH]; [cbn; lia|]. rewrite total_cons. intros H. destruct (w a) eqn:E.
  - destruct (IH H) as (b & B1 & B2). exists b. split; [by apply elem_of_list_further|done].
  - exists a. split; [apply elem_of_list_here|lia].
Qed.
Lemma in_list_witness c (l : list (nat * kont)) : 0 < in_list c l -> exists k, (c, k) ∈ l.
Proof.
  induction l as [|[d h] l IH]; [cbn; lia|]. change (in_list c ((d, h) :: l)) with (one (d =? c) + in_list c l). intros H.
  destruct (d =? c) eqn:E; [apply Nat.eqb_eq in E; subst; exists h; apply elem_of_list_here|].
  destruct (IH H) as [k K]. exists k. by apply elem_of_list_further.
Qed.
Lemma step_tinv s l s' ev tr : inv prog s -> tinv s tr -> step prog s l = Some (s', ev) -> tinv s' (tr ++ ev).
Proof.
  intros I T H. pose proof (step_grows prog s l s' ev I H) as G. destruct l as [f o|c|i]; cbn [step] in H.
  - destruct (prog f) eqn:P; [done|]. destruct (outs s f) eqn:N; [done|]. injection H as <- <-.
    apply (quiet_tinv s); try done; cbn [acts resolve set_acts set_outs set_waiting waiting outs cst].
    + by apply resolved_acts.
    + by apply resolved_waits.
    + intros c x Pc. unfold upd. destruct (c =? f) eqn:E; [apply Nat.eqb_eq in E; congruence|auto].
    + intros c. cbn. rewrite app_nil_r, (t_fin s tr T). unfold upd. destruct (c =? f) eqn:E; [|done].
      apply Nat.eqb_eq in E. subst. by rewrite P.
    + intros c. cbn. rewrite app_nil_r. apply T.
    + intros c. cbn. rewrite app_nil_r. apply T.
  - destruct (prog c) as [b|] eqn:P; [|done]. destruct (cst s c) eqn:C; try done. injection H as <- <-.
    apply (quiet_tinv s); try done; cbn [acts set_acts set_cst waiting outs cst].
    + apply Forall_app. split; [apply T|]. constructor; [|constructor]. exists b. split; [done|]. rewrite (t_fresh s tr T c C). constructor.
    + apply T.
    + intros d. unfold upd. by destruct (d =? c).
    + auto.
    + intros d. cbn. rewrite app_nil_r. apply T.
    + intros d. cbn. rewrite (t_began s tr T). unfold upd. rewrite (Nat.eqb_sym d c). destruct (c =? d) eqn:E; [|by rewrite app_nil_r].
      apply Nat.eqb_eq in E. subst. by rewrite C.
    + intros d. cbn. rewrite app_nil_r, (t_freed s tr T). unfold upd. destruct (d =? c) eqn:E; [|done].
      apply Nat.eqb_eq in E. subst. by rewrite C.
  - destruct (acts s !! i) as [a|] eqn:H0; [|done]. pose proof (Forall_lookup_1 _ _ _ _ (t_acts s tr T) H0) as A.
    assert (Forall (act_at tr) (delete i (acts s))) as D by apply Forall_delete, T.
    destruct a as [c b|c f k|f o [|[c k] l]|c].
    + destruct (eval_running prog s c b i I H0) as (C & P & N & Z1 & Z2).
      assert (total (in_susp c) (delete i (acts s)) = 0 /\ stored c (waiting s) = 0) as [Z3 Z4].
      { destruct (i_coro prog s I c) as [R S O E]. pose proof (total_delete (in_susp c) _ _ _ H0) as X. rewrite C in S. cbn in S, X. lia. }
      destruct b as [v|e|f k].
      * injection H as <- <-. by apply (finish_tinv s tr i c (Ret v) (Value v)).
      * injection H as <- <-. by apply (finish_tinv s tr i c (Throw e) (Error e)).
      * change (outs (touch c (set_acts (delete i (acts s)) s)) f) with (outs s f) in H. destruct (outs s f) as [o|] eqn:X; injection H as <- <-.
        -- eapply (saw_tinv s _ tr c f o k i); try done; [| |by left].
           ++ intros d. cbn. destruct (d =? c) eqn:E; [|done]. apply Nat.eqb_eq in E. by subst.
           ++ exists (delete i (acts s)). done.
        -- apply (quiet_tinv s); try done; cbn [acts set_acts touch set_bad set_cst waiting outs cst].
           ++ apply Forall_app. split; [done|]. by constructor.
           ++ apply T.
           ++ intros d. unfold upd. by destruct (d =? c).
           ++ auto.
           ++ intros d. cbn. rewrite app_nil_r. apply T.
           ++ intros d. cbn. rewrite app_nil_r, (t_began s tr T). unfold upd. destruct (d =? c) eqn:E; [|done].
              apply Nat.eqb_eq in E. subst. by rewrite C.
           ++ intros d. cbn. rewrite app_nil_r, (t_freed s tr T). unfold upd. destruct (d =? c) eqn:E; [|done].
              apply Nat.eqb_eq in E. subst. by rewrite C.
    + assert (0 < total (in_susp c) (acts s)) as L.
      { rewrite (total_delete (in_susp c) _ _ _ H0). cbn. rewrite Nat.eqb_refl. cbn. lia. }
      destruct (susp_suspended prog s c I ltac:(lia)) as [C P].
      change (outs (set_acts (delete i (acts s)) s) f) with (outs s f) in H. destruct (outs s f) as [o|] eqn:X; injection H as <- <-.
      * destruct (i_coro prog s I c) as [R S O E]. rewrite C in R, S, O. cbn in R, S.
        pose proof (total_delete (in_susp c) _ _ _ H0) as X1. pose proof (total_delete (in_eval c) _ _ _ H0) as X2. cbn in X1, X2.
        rewrite Nat.eqb_refl in X1. cbn in X1.
        eapply (saw_tinv s _ tr c f o k i); try done; [|lia|by right|apply O; [done|split; [lia|done]]].
        exists (delete i (acts s)). split; [done|]. split; [done|]. lia.
      * apply (quiet_tinv s); try done; cbn [acts set_acts set_bad set_waiting waiting outs cst]; auto.
        -- apply Forall_app. split; [apply T|]. by constructor.
        -- intros d. cbn. rewrite app_nil_r. apply T.
        -- intros d. cbn. rewrite app_nil_r. apply T.
        -- intros d. cbn. rewrite app_nil_r. apply T.
    + injection H as <- <-. rewrite app_nil_r. destruct T as [T1 T2 T3 T4 T5 T6 T7 T8]. by constructor.
    + cbn in A. inversion A as [|? ? A1 A2]; subst. cbn in A1.
      pose proof (Forall_lookup_1 _ _ _ _ (i_acts prog s I) H0) as [X _].
      assert (forall d, in_susp d (Fire f o ((c, k) :: l)) = one (c =? d) + in_list d l) as Z by done.
      assert (0 < total (in_susp c) (acts s)) as L.
      { rewrite (total_delete (in_susp c) _ _ _ H0), Z, Nat.eqb_refl. cbn. lia. }
      destruct (susp_suspended prog s c I ltac:(lia)) as [C P].
      injection H as <- <-. destruct (i_coro prog s I c) as [R S O E]. rewrite C in R, S, O. cbn in R, S.
      pose proof (total_delete (in_susp c) _ _ _ H0) as X1. pose proof (total_delete (in_eval c) _ _ _ H0) as X2.
      rewrite Z in X1. cbn [in_eval] in X2. rewrite Nat.eqb_refl in X1. cbn [one] in X1.
      eapply (saw_tinv s _ tr c f o k i); try done; [|lia|by right|apply O; [done|split; [lia|done]]].
      exists (Fire f o l :: delete i (acts s)). split; [done|]. split; [by constructor|].
      rewrite !total_cons. cbn [in_eval in_susp]. lia.
    + destruct (free_running prog s c i I H0) as (C & P & N & Z1 & Z2). injection H as <- <-.
      apply (quiet_tinv s); try done; cbn [acts set_acts touch set_bad set_cst waiting outs cst].
      * apply T.
      * intros d. unfold upd. by destruct (d =? c).
      * auto.
      * intros d. cbn. rewrite app_nil_r. apply T.
      * intros d. cbn. rewrite app_nil_r, (t_began s tr T). unfold upd. destruct (d =? c) eqn:E; [|done].
        apply Nat.eqb_eq in E. subst. by rewrite C.
      * intros d. cbn. rewrite (t_freed s tr T). unfold upd. rewrite (Nat.eqb_sym d c). destruct (c =? d) eqn:E; [|by rewrite app_nil_r].
        apply Nat.eqb_eq in E. subst. by rewrite C.
Qed.
Lemma run_tinv s ls s' tr tr0 : inv prog s -> tinv s tr0 -> run prog s ls = Some (s', tr) -> tinv s' (tr0 ++ tr).
Proof.
  revert s s' tr tr0. induction ls as [|l ls IH]; intros s s' tr tr0 I S R; cbn [run] in R; [injection R as <- <-; by rewrite app_nil_r|].
  destruct (step prog s l) as [[s1 ev]|] eqn:E; [|done]. destruct (run prog s1 ls) as [[s2 tr2]|] eqn:E2; [|done].
  injection R as <- <-. rewrite app_assoc. eapply IH; [| |done]; [by eapply step_inv|by eapply step_tinv].
Qed.

(** ** the theorems *)
Lemma awaited ls s tr c : run prog init ls = Some (s, tr) ->
  match prog c with
  | Some b => (exists r, follows b (saw c tr) r /\ forall o, o ∈ finished c tr -> ends r o) /\ Forall (fun p => outs s (fst p) = Some (snd p)) (saw c tr)
  | None => saw c tr = [] /\ finished c tr = []
  end.
Proof.
  intros R. pose proof (run_inv prog _ _ _ _ (init_inv prog) R) as I. pose proof (run_tinv _ _ _ _ [] (init_inv prog) init_tinv R) as T.
  cbn in T. destruct (prog c) as [b|] eqn:P.
  - split; [|apply T]. pose proof (t_fin s tr T c) as F. rewrite P in F. assert (prog c <> None) as Pn by congruence.
    destruct (outs s c) as [o|] eqn:O.
    + destruct (t_done s tr T c o Pn O) as (r & (b0 & P0 & S1) & S2). rewrite P in P0. injection P0 as <-.
      exists r. split; [done|]. rewrite F. intros x X. apply elem_of_list_singleton in X. by subst.
    + rewrite F. cut (exists r, follows b (saw c tr) r). { intros [r X]. exists r. split; [done|]. intros o X1. by apply elem_of_nil in X1. }
      destruct (i_coro prog s I c) as [C1 C2 C3 C4]. pose proof (proj1 (C3 Pn) O) as [Z1 Z2].
      destruct (cst s c) eqn:C; cbn in C1, C2; try done.
      * rewrite (t_fresh s tr T c C). exists b. constructor.
      * assert (total (in_eval c) (acts s) = 1) as E by lia. destruct (total_witness (in_eval c) (acts s) ltac:(lia)) as (a & A1 & A2).
        pose proof (t_acts s tr T) as F1. rewrite Forall_forall in F1. specialize (F1 a A1). destruct a as [d b'| | |]; cbn in A2; try lia.
        destruct (d =? c) eqn:E1; cbn in A2; [|lia]. apply Nat.eqb_eq in E1. subst. destruct F1 as (b0 & P0 & S1).
        rewrite P in P0. injection P0 as <-. by exists b'.
      * assert (0 < total (in_susp c) (acts s) \/ 0 < stored c (waiting s)) as [E|E] by lia.
        -- destruct (total_witness (in_susp c) (acts s) E) as (a & A1 & A2).
           pose proof (t_acts s tr T) as F1. rewrite Forall_forall in F1. specialize (F1 a A1). destruct a as [|d f k|f o l|]; cbn in A2; try lia.
           ++ destruct (d =? c) eqn:E1; cbn in A2; [|lia]. apply Nat.eqb_eq in E1. subst. destruct F1 as (b0 & P0 & S1).
              rewrite P in P0. injection P0 as <-. by exists (Await f k).
           ++ destruct (in_list_witness c l A2) as [k W]. cbn in F1. rewrite Forall_forall in F1. destruct (F1 _ W) as (b0 & P0 & S1). cbn in P0, S1.
              rewrite P in P0. injection P0 as <-. by exists (Await f k).
        -- destruct (in_list_witness c _ E) as [k W]. apply elem_of_list_In, in_map_iff in W. destruct W as ([f w] & E1 & W). cbn in E1. subst.
           pose proof (t_wait s tr T) as F1. rewrite Forall_forall in F1. destruct (F1 (f, (c, k))) as (b0 & P0 & S1); [by apply elem_of_list_In|].
           cbn in P0, S1. rewrite P in P0. injection P0 as <-. by exists (Await f k).
  - split; [|by rewrite (t_fin s tr T), P]. apply (t_fresh s tr T). by apply (i_coro prog s I c).
Qed.
Lemma frames ls s tr c : run prog init ls = Some (s, tr) ->
  length (began c tr) <= 1 /\ length (finished c tr) <= length (began c tr) /\ length (freed c tr) <= length (finished c tr).
Proof.
  intros R. pose proof (run_inv prog _ _ _ _ (init_inv prog) R) as I. pose proof (run_tinv _ _ _ _ [] (init_inv prog) init_tinv R) as T.
  cbn in T. rewrite (t_began s tr T), (t_fin s tr T), (t_freed s tr T). destruct (i_coro prog s I c) as [C1 C2 C3 C4].
  destruct (prog c) as [b|] eqn:P; [|rewrite (C4 eq_refl); cbn; lia]. destruct (outs s c) as [o|] eqn:O.
  - destruct (cst s c) eqn:C; cbn in *; try lia. destruct (C3 ltac:(done)) as [_ X]. assert (Some o = None); [|done]. apply X. split; [lia|done].
  - pose proof (proj1 (C3 ltac:(done)) eq_refl) as [_ Z]. destruct (cst s c); cbn; try lia. done.
Qed.
Lemma all_freed ls s tr c : run prog init ls = Some (s, tr) -> rest s -> length (freed c tr) = length (finished c tr).
Proof.
  intros R Q. pose proof (run_inv prog _ _ _ _ (init_inv prog) R) as I. pose proof (run_tinv _ _ _ _ [] (init_inv prog) init_tinv R) as T.
  cbn in T. rewrite (t_fin s tr T), (t_freed s tr T). destruct (i_coro prog s I c) as [C1 C2 C3 C4]. rewrite Q in C1, C3. cbn in C1, C3.
  destruct (prog c) as [b|] eqn:P; [|by rewrite C4]. destruct (outs s c) as [o|] eqn:O.
  - destruct (cst s c) eqn:C; cbn in *; try done; destruct (C3 ltac:(done)) as [_ X]; assert (Some o = None) by (apply X; done); done.
  - pose proof (proj1 (C3 ltac:(done)) eq_refl) as [_ Z]. by destruct (cst s c).
Qed.
(** at rest, who has not finished waits for a future that is not ready *)
Lemma waits ls s tr c b : run prog init ls = Some (s, tr) -> rest s -> prog c = Some b -> began c tr <> [] -> finished c tr = [] ->
  exists f k, follows b (saw c tr) (Await f k) /\ outs s f = None.
Proof.
  intros R Q P B F. pose proof (run_inv prog _ _ _ _ (init_inv prog) R) as I. pose proof (run_tinv _ _ _ _ [] (init_inv prog) init_tinv R) as T.
  cbn in T. rewrite (t_began s tr T) in B. rewrite (t_fin s tr T), P in F. destruct (outs s c) eqn:O; [done|].
  destruct (i_coro prog s I c) as [C1 C2 C3 C4]. rewrite Q in C1, C2, C3. cbn in C1, C2, C3.
  pose proof (proj1 (C3 ltac:(congruence)) O) as [_ Z]. destruct (cst s c) eqn:C; try done. cbn in C2.
  destruct (in_list_witness c (map snd (waiting s)) ltac:(unfold stored in C2; lia)) as [k W]. apply elem_of_list_In, in_map_iff in W. destruct W as ([f w] & E1 & W). cbn in E1. subst.
  pose proof (t_wait s tr T) as F1. rewrite Forall_forall in F1. destruct (F1 (f, (c, k))) as (b0 & P0 & S1); [by apply elem_of_list_In|].
  pose proof (i_wait prog s I) as F2. rewrite Forall_forall in F2. destruct (F2 (f, (c, k))) as [N _]; [by apply elem_of_list_In|].
  cbn in P0, S1, N. rewrite P in P0. injection P0 as <-. by exists f, k.
Qed.
Lemma complete_tr ls s tr c o : run prog init ls = Some (s, tr) -> rest s -> (forall d, prog d <> None -> began d tr <> []) ->
  den prog (outs s) c o -> outs s c = Some o.
Proof.
  intros R Q B. pose proof (run_tinv _ _ _ _ [] (init_inv prog) init_tinv R) as T. apply (complete prog ls s tr c o R Q).
  intros d P F. apply (B d P). cbn in T. by rewrite (t_began s tr T), F.
Qed.
Lemma awaited_tr ls s tr c : run prog init ls = Some (s, tr) ->
  match prog c with
  | Some b => (exists r, follows b (saw c tr) r /\ forall o, o ∈ finished c tr -> r = match o with Value v => Ret v | Error e => Throw e end) /\
      Forall (fun p => outs s (fst p) = Some (snd p)) (saw c tr)
  | None => saw c tr = [] /\ finished c tr = []
  end.
Proof.
  intros R. pose proof (awaited ls s tr c R) as A. destruct (prog c); [|done]. destruct A as ((r & A1 & A2) & A3). split; [|done].
  exists r. split; [done|]. intros o O. specialize (A2 o O). destruct r; cbn in A2; by subst.
Qed.
Lemma frames_tr ls s tr c : run prog init ls = Some (s, tr) ->
  length (began c tr) <= 1 /\ length (finished c tr) <= length (began c tr) /\ length (freed c tr) <= length (finished c tr) /\
  (rest s -> length (freed c tr) = length (finished c tr)).
Proof. intros R. destruct (frames ls s tr c R) as (A & B & C). split; [done|]. split; [done|]. split; [done|]. by apply all_freed with (ls := ls). Qed.
End Trace.
