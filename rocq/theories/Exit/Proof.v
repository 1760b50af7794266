(** Proofs about Exit.Model. *)
From Coq Require Import List Bool Arith Lia.
From stdpp Require Import list sets.
From Verif.Exit Require Import Model Spec.

Lemma run_app v s ls ls' : run v s (ls ++ ls') =
  match run v s ls with None => None | Some (s1, e1) => match run v s1 ls' with None => None | Some (s2, e2) => Some (s2, e1 ++ e2) end end.
Proof.
  revert s. induction ls as [|l ls IH]; intros s; cbn [app run].
  - destruct (run v s ls') as [[s2 e2]|]; reflexivity.
  - destruct (step v s l) as [[s1 e1]|]; [|reflexivity]. rewrite IH.
    destruct (run v s1 ls) as [[s2 e2]|]; [|reflexivity]. destruct (run v s2 ls') as [[s3 e3]|]; [|reflexivity].
    by rewrite app_assoc.
Qed.
(** induction over runs, at the end *)
Lemma run_inv v (Q : st -> list event -> Prop) (L : label -> Prop) :
  Q init [] -> (forall s tr l s' es, Q s tr -> L l -> step v s l = Some (s', es) -> Q s' (tr ++ es)) ->
  forall ls s tr, Forall L ls -> run v init ls = Some (s, tr) -> Q s tr.
Proof.
  intros H0 Hs ls. induction ls as [|l ls IH] using rev_ind; intros s tr HL R.
  - cbn in R. by injection R as <- <-.
  - rewrite run_app in R. destruct (run v init ls) as [[s1 e1]|] eqn:R1; [|done]. cbn [run] in R.
    destruct (step v s1 l) as [[s2 e2]|] eqn:S2; [|done]. injection R as <- <-. rewrite app_nil_r.
    apply Forall_app in HL as [HL Hl]. eapply Hs; [by apply IH| |done]. by inversion Hl.
Qed.

(** permutations of appended lists, by counting *)
Lemma perm_count (l k : list nat) : (forall x, count_occ Nat.eq_dec l x = count_occ Nat.eq_dec k x) -> l ≡ₚ k.
Proof. apply (Permutation_count_occ Nat.eq_dec). Qed.
Ltac permute := apply perm_count; intros ?; repeat first [rewrite count_occ_app | progress cbn [count_occ]]; repeat case_match; lia.

(** ** Accounting *)
Definition qids (s : st) : list nat := map (fun q => fst (fst q)) (queued s).
Definition rids (s : st) : list nat := map fst (running s).
Record acc (s : st) (tr : list event) : Prop := {
  a_all : submitted tr ++ armed tr ≡ₚ seq 0 (next s);
  a_start : started tr ++ lost tr ++ qids s ++ pending s ≡ₚ submitted tr ++ armed tr;
  a_end : started tr ≡ₚ ended tr ++ rids s;
  a_q : forall i, i ∈ qids s -> i ∈ submitted tr;
  a_pend : forall i, i ∈ pending s -> i ∈ armed tr;
  a_ret : returned tr = [] <-> ph s <> After
}.
Lemma subm_app a b : submitted (a ++ b) = submitted a ++ submitted b. Proof. apply flat_map_app. Qed.
Lemma armed_app a b : armed (a ++ b) = armed a ++ armed b. Proof. apply flat_map_app. Qed.
Lemma started_app a b : started (a ++ b) = started a ++ started b. Proof. apply flat_map_app. Qed.
Lemma ended_app a b : ended (a ++ b) = ended a ++ ended b. Proof. apply flat_map_app. Qed.
Lemma lost_app a b : lost (a ++ b) = lost a ++ lost b. Proof. apply flat_map_app. Qed.
Lemma late_app a b : late_timer (a ++ b) = late_timer a ++ late_timer b. Proof. apply flat_map_app. Qed.
Lemma ret_app a b : returned (a ++ b) = returned a ++ returned b. Proof. apply flat_map_app. Qed.
Lemma map_delete {A B} (f : A -> B) k (l : list A) : map f (delete k l) = delete k (map f l).
Proof. revert k. induction l as [|x l IH]; intros [|k]; try done. cbn. f_equal. apply IH. Qed.
Lemma perm_delete {A} (l : list A) k x : l !! k = Some x -> l ≡ₚ x :: delete k l.
Proof. apply delete_Permutation. Qed.

(** what [use], [register] leave alone *)
Lemma register_same h s : next (register h s) = next s /\ queued (register h s) = queued s /\ running (register h s) = running s /\
  pending (register h s) = pending s /\ ph (register h s) = ph s /\ tclosed (register h s) = tclosed s /\ timer (register h s) = timer s /\
  joined (register h s) = joined s /\ made (register h s) = made s /\ bad (register h s) = bad s.
Proof. unfold register. by destruct (is_after s). Qed.
Lemma use_same p s : next (use p s) = next s /\ queued (use p s) = queued s /\ running (use p s) = running s /\
  pending (use p s) = pending s /\ ph (use p s) = ph s /\ tclosed (use p s) = tclosed s /\ timer (use p s) = timer s /\
  joined (use p s) = joined s /\ bad (use p s) = bad s.
Proof. unfold use, register. repeat case_match; done. Qed.
(** the timer, constructed *)
Definition with_timer (v : variant) (s : st) : st :=
  if timer s then s else match v with Libdispatch => register CloseTimer (use 0 (set_timer true (tclosed s) s)) | _ => set_timer true (tclosed s) s end.
Lemma with_timer_same v s : next (with_timer v s) = next s /\ queued (with_timer v s) = queued s /\ running (with_timer v s) = running s /\
  pending (with_timer v s) = pending s /\ ph (with_timer v s) = ph s /\ tclosed (with_timer v s) = tclosed s /\
  joined (with_timer v s) = joined s /\ bad (with_timer v s) = bad s.
Proof. unfold with_timer, use, register. repeat case_match; done. Qed.
(** an action adds a task, or it is refused *)
Lemma act_parts v a s s' es : act v a s = (s', es) ->
  ph s' = ph s /\ running s' = running s /\ tclosed s' = tclosed s /\ joined s' = joined s /\
  started es = [] /\ ended es = [] /\ lost es = [] /\ returned es = [] /\ in_time (es) = submitted es /\ Called ∉ es /\
  ((next s' = next s /\ queued s' = queued s /\ pending s' = pending s /\ submitted es = [] /\ armed es = [] /\ (bad s' = true \/ aborted s' = true)) \/
   (exists p, a = Exec p /\ next s' = S (next s) /\ queued s' = queued s ++ [(next s, pool_of v p, negb (is_before s))] /\ pending s' = pending s /\
      submitted es = [next s] /\ armed es = [] /\ bad s' = bad s /\ pool_of v p ∉ joined s) \/
   (a = Arm /\ next s' = S (next s) /\ queued s' = queued s /\ pending s' = pending s ++ [next s] /\ submitted es = [] /\ armed es = [next s] /\
      tclosed s = false /\ bad s' = bad s)).
Proof.
  destruct a as [p|]; cbn [act].
  - unfold exec. destruct (use_same (pool_of v p) s) as (E1&E2&E3&E4&E5&E6&E7&E8&E9).
    assert (Eb : is_before (use (pool_of v p) s) = is_before s) by (unfold is_before; by rewrite E5).
    case_bool_decide as Hj; intros H; injection H as <- <-; cbn; rewrite ?E1, ?E2, ?E3, ?E4, ?E5, ?E6, ?E8, ?Eb.
    + repeat (split; [try done; set_solver|]). left. repeat (split; [done|]). by left.
    + repeat (split; [try done; set_solver|]). right. left. exists p. repeat (split; [done|]). rewrite <-E8. done.
  - unfold arm. fold (with_timer v s). destruct (with_timer_same v s) as (E1&E2&E3&E4&E5&E6&E7&E8).
    rewrite E6. destruct (tclosed s) eqn:Et; intros H; injection H as <- <-; cbn; rewrite ?E1, ?E2, ?E3, ?E4, ?E5, ?E6, ?E7, ?E8.
    + assert (Hl : forall b : bool, let l := if b then [] else [LateTimer] in started l = [] /\ ended l = [] /\ lost l = [] /\ returned l = [] /\
        in_time l = submitted l /\ Called ∉ l /\ submitted l = [] /\ armed l = []) by (intros []; cbn; repeat (split; [try done; set_solver|]); done).
      destruct (Hl (timer s || is_before s)) as (H1&H2&H3&H4&H5&H6&H7&H8). repeat (split; [done|]). left.
      repeat (split; [done|]). by right.
    + assert (Hl : forall b : bool, let l := (if b then [] else [LateTimer]) ++ [Armed (next s)] in started l = [] /\ ended l = [] /\ lost l = [] /\ returned l = [] /\
        in_time l = submitted l /\ Called ∉ l /\ submitted l = [] /\ armed l = [next s]) by (intros []; cbn; repeat (split; [try done; set_solver|]); done).
      destruct (Hl (timer s || is_before s)) as (H1&H2&H3&H4&H5&H6&H7&H8). repeat (split; [done|]). right. right.
      repeat (split; [done|]). done.
Qed.
Lemma acc_init : acc init [].
Proof. constructor; cbn; try done; try set_solver. Qed.
Lemma act_acc v a s tr s' es : acc s tr -> act v a s = (s', es) -> acc s' (tr ++ es).
Proof.
  intros [A1 A2 A3 A4 A5 A6] H. destruct (act_parts _ _ _ _ _ H) as (E1&E2&E3&E4&N1&N2&N3&N4&_&_&HH).
  assert (R : rids s' = rids s) by (unfold rids; by rewrite E2).
  destruct HH as [(F1&F2&F3&F4&F5&_)|[(p&_&F1&F2&F3&F4&F5&_)|(_&F1&F2&F3&F4&F5&_)]];
    constructor; rewrite ?subm_app, ?armed_app, ?started_app, ?ended_app, ?lost_app, ?ret_app, ?N1, ?N2, ?N3, ?N4, ?F4, ?F5, ?R, ?E1, ?app_nil_r; try done.
  - by rewrite F1.
  - unfold qids in *. by rewrite F2, F3.
  - unfold qids in *. by rewrite F2.
  - by rewrite F3.
  - rewrite F1, seq_S. cbn [plus]. rewrite <-A1. permute.
  - unfold qids in *. rewrite F2, F3, map_app. cbn [map fst]. revert A2. intros A2.
    trans (next s :: (submitted tr ++ armed tr)); [rewrite <-A2|]; permute.
  - intros i. unfold qids. rewrite F2, map_app. cbn. set_solver.
  - by rewrite F3.
  - rewrite F1, seq_S. cbn [plus]. rewrite <-A1. by rewrite app_assoc.
  - unfold qids in *. rewrite F2, F3. rewrite !app_assoc. rewrite <-!app_assoc. rewrite (app_assoc (submitted tr)), <-A2. by rewrite <-!app_assoc.
  - unfold qids in *. rewrite F2. done.
  - intros i. rewrite F3. set_solver.
Qed.
Lemma step_acc v s tr l s' es : acc s tr -> step v s l = Some (s', es) -> acc s' (tr ++ es).
Proof.
  intros Ha H. unfold step in H. destruct (aborted s || bad s); [done|].
  assert (Hact : forall a, Some (act v a s) = Some (s', es) -> acc s' (tr ++ es))
    by (intros a E; injection E as E; eapply act_acc; done).
  destruct l.
  - destruct (is_before s); [eauto|done].
  - destruct (running s !! k); [eauto|done].
  - destruct (queued s !! k) as [[[i p] b]|] eqn:Hk; [|done]. injection H as <- <-. destruct Ha as [A1 A2 A3 A4 A5 A6].
    assert (P : qids s ≡ₚ i :: map (fun q => fst (fst q)) (delete k (queued s)))
      by (unfold qids; by rewrite (perm_delete _ _ _ Hk) at 1).
    constructor; rewrite ?subm_app, ?armed_app, ?started_app, ?ended_app, ?lost_app, ?ret_app; cbn [submitted armed started ended lost returned flat_map app]; rewrite ?app_nil_r; try done.
    + unfold qids in *. cbn [queued set_tasks pending]. rewrite <-A2, P. permute.
    + unfold rids. cbn [running set_tasks]. rewrite map_app. cbn. rewrite app_assoc. rewrite A3 at 1. done.
    + intros j Hj. apply A4. rewrite P. unfold qids in Hj. cbn [queued set_tasks] in Hj. set_solver.
  - destruct v; try done. destruct (ph s) eqn:Eph; try done. destruct (queued s !! k) as [[[i q] b]|] eqn:Hk; [|done]. destruct b; [|done].
    injection H as <- <-. destruct Ha as [A1 A2 A3 A4 A5 A6].
    assert (P : qids s ≡ₚ i :: map (fun q => fst (fst q)) (delete k (queued s)))
      by (unfold qids; by rewrite (perm_delete _ _ _ Hk) at 1).
    constructor; rewrite ?subm_app, ?armed_app, ?started_app, ?ended_app, ?lost_app, ?ret_app; cbn [submitted armed started ended lost returned flat_map app]; rewrite ?app_nil_r; try done.
    + unfold qids in *. cbn [queued set_tasks pending]. rewrite <-A2, P. permute.
    + intros j Hj. apply A4. rewrite P. unfold qids in Hj. cbn [queued set_tasks] in Hj. set_solver.
  - destruct (pending s !! k) as [i|] eqn:Hk; [|done]. destruct Ha as [A1 A2 A3 A4 A5 A6].
    assert (P : pending s ≡ₚ i :: delete k (pending s)) by by apply perm_delete.
    assert (H1 : (s', es) = (set_tasks (queued s) (running s) (delete k (pending s)) s, [Lost i]) \/
                 (s', es) = (set_tasks (queued s) (running s ++ [(i, None)]) (delete k (pending s)) s, [Started i]))
      by (destruct v; repeat case_match; try done; injection H as <- <-; auto).
    destruct H1 as [H1|H1]; injection H1 as -> ->;
    (constructor; rewrite ?subm_app, ?armed_app, ?started_app, ?ended_app, ?lost_app, ?ret_app; cbn [submitted armed started ended lost returned flat_map app]; rewrite ?app_nil_r; try done).
    + unfold qids in *. cbn [queued set_tasks pending]. rewrite <-A2. rewrite P at 2. permute.
    + intros j Hj. apply A5. rewrite P. cbn in Hj. set_solver.
    + unfold qids in *. cbn [queued set_tasks pending]. rewrite <-A2. rewrite P at 2. permute.
    + unfold rids. cbn [running set_tasks]. rewrite map_app. cbn. rewrite app_assoc. rewrite A3 at 1. done.
    + intros j Hj. apply A5. rewrite P. cbn in Hj. set_solver.
  - destruct (running s !! k) as [[i o]|] eqn:Hk; [|done]. injection H as <- <-. destruct Ha as [A1 A2 A3 A4 A5 A6].
    assert (P : rids s ≡ₚ i :: map fst (delete k (running s)))
      by (unfold rids; by rewrite (perm_delete _ _ _ Hk) at 1).
    constructor; rewrite ?subm_app, ?armed_app, ?started_app, ?ended_app, ?lost_app, ?ret_app; cbn [submitted armed started ended lost returned flat_map app]; rewrite ?app_nil_r; try done.
    unfold rids. cbn [running set_tasks]. rewrite A3, P. permute.
  - unfold is_before in H. destruct (ph s) eqn:Eph; try done. injection H as <- <-. destruct Ha as [A1 A2 A3 A4 A5 A6].
    constructor; rewrite ?subm_app, ?armed_app, ?started_app, ?ended_app, ?lost_app, ?ret_app; cbn [submitted armed started ended lost returned flat_map app]; rewrite ?app_nil_r; try done.
    cbn. split; [done|]. intros _. by apply A6; rewrite Eph.
  - destruct (ph s) eqn:Eph; try done. destruct Ha as [A1 A2 A3 A4 A5 A6].
    destruct (stack s) as [|[p|] hs]; injection H as <- <-;
    (constructor; rewrite ?subm_app, ?armed_app, ?started_app, ?ended_app, ?lost_app, ?ret_app; cbn [submitted armed started ended lost returned flat_map app]; rewrite ?app_nil_r; try done); cbn.
    + split; [|by intros []]. intros HH. destruct (app_eq_nil _ _ HH). done.
    + split; [done|]. intros _. by apply A6; rewrite Eph.
    + split; [done|]. intros _. by apply A6; rewrite Eph.
  - destruct (ph s) eqn:Eph; try done. destruct (quiet v p s); [|done]. injection H as <- <-. destruct Ha as [A1 A2 A3 A4 A5 A6].
    destruct v; (constructor; rewrite ?subm_app, ?armed_app, ?started_app, ?ended_app, ?lost_app, ?ret_app; cbn [submitted armed started ended lost returned flat_map app]; rewrite ?app_nil_r; try done); cbn;
    (split; [done|]); intros _; by apply A6; rewrite Eph.
Qed.
Lemma run_acc v ls s tr : run v init ls = Some (s, tr) -> acc s tr.
Proof.
  intros R. eapply (run_inv v acc (fun _ => True)); [apply acc_init| |apply Forall_true; done|done].
  intros. by eapply step_acc.
Qed.

(** ** libdispatch *)
(** what is in place while the timer was not constructed late *)
Definition none (s : st) : Prop := queued s = [] /\ running s = [].
Definition shape (s : st) : Prop :=
  joined s = [] /\ bad s = false /\
  ((made s = [] /\ timer s = false /\ tclosed s = false /\ stack s = [] /\ none s /\ pending s = [] /\ (forall p, ph s <> Waiting p)) \/
   (made s = [0] /\ (timer s = false -> pending s = []) /\
     ((stack s = (if timer s then [CloseTimer; Wait 0] else [Wait 0]) /\ tclosed s = false /\ (ph s = Before \/ ph s = Popping)) \/
      (timer s = true /\ tclosed s = true /\ stack s = [Wait 0] /\ ph s = Popping) \/
      (tclosed s = timer s /\ stack s = [] /\ (ph s = Waiting 0 \/ ((ph s = Popping \/ ph s = After) /\ none s)))))).
Lemma shape_init : shape init.
Proof. repeat split; try done. left. repeat split; done. Qed.
Lemma exec_shape p s s' es : shape s -> (is_before s = true \/ running s <> []) -> exec Libdispatch p s = (s', es) -> shape s'.
Proof.
  intros (J&B&HH) Hw H. unfold exec, use, register, pool_of, is_before, is_after, none in *.
  destruct s as [n m j t c st p' q r pe b a]; cbn in *. subst j b.
  destruct HH as [(->&->&->&->&[-> ->]&->&Hp)|(->&Hd&HH)].
  - destruct p'; try (by destruct Hw as [Hw|Hw]); try done.
    cbn in H. injection H as <- <-. unfold shape; cbn. split; [done|]. split; [done|]. right. split; [done|]. split; [done|]. left. auto.
  - cbn in H. injection H as <- <-. unfold shape, none; cbn. split; [done|]. split; [done|]. right. split; [done|]. split; [done|].
    destruct HH as [HH|[HH|(H1&H2&[H3|[[H3|H3] [H4 H5]]])]]; [left; done|right; left; done|right; right; auto| |];
      subst; by destruct Hw.
Qed.
Lemma arm_shape s s' es : shape s -> (is_before s = true \/ running s <> []) -> arm Libdispatch s = (s', es) -> late_timer es = [] -> shape s'.
Proof.
  intros (J&B&HH) Hw H Hl. unfold arm, use, register, is_before, is_after, none in *.
  destruct s as [n m j t c st p' q r pe b a]; cbn in *. subst j b.
  destruct HH as [(->&->&->&->&[-> ->]&->&Hp)|(->&Hd&HH)].
  - destruct p'; try (by destruct Hw as [Hw|Hw]); try done.
    cbn in H. injection H as <- <-. unfold shape; cbn. split; [done|]. split; [done|]. right. split; [done|]. split; [done|]. left. auto.
  - destruct t; cbn in H.
    + destruct c; injection H as <- <-; unfold shape, none; cbn; (split; [done|]); (split; [done|]); right; (split; [done|]); (split; [done|]); done.
    + destruct p'; cbn in H, Hl.
      * destruct HH as [(->&->&_)|[(?&_)|(E1&E2&[E3|[[E3|E3] _]])]]; try done.
        cbn in H. injection H as <- <-. unfold shape, none; cbn. split; [done|]. split; [done|]. right. split; [done|]. split; [done|]. left. auto.
      * exfalso. destruct c; injection H as <- <-; done.
      * exfalso. destruct c; injection H as <- <-; done.
      * exfalso. destruct c; injection H as <- <-; done.
Qed.
Lemma step_shape s l s' es : shape s -> step Libdispatch s l = Some (s', es) -> late_timer es = [] -> shape s'.
Proof.
  intros Hs H Hl. unfold step in H. destruct (aborted s || bad s); [done|].
  assert (Hact : forall a, (is_before s = true \/ running s <> []) -> Some (act Libdispatch a s) = Some (s', es) -> shape s').
  { intros [p|] Hw E; injection E as E; [by eapply exec_shape|by eapply arm_shape]. }
  destruct l.
  - destruct (is_before s); [eauto|done].
  - destruct (running s !! k) eqn:Hk; [|done]. apply (Hact a); [|done]. right. intros E. by rewrite E in Hk.
  - destruct (queued s !! k) as [[[i p] b]|] eqn:Hk; [|done]. injection H as <- <-.
    destruct Hs as (J&B&HH). unfold shape, none in *. cbn. split; [done|]. split; [done|].
    assert (Hq : queued s <> []) by (intros E; by rewrite E in Hk).
    destruct HH as [(_&_&_&_&[E _]&_)|(M&Hd&HH)]; [done|]. right. split; [done|]. split; [done|].
    destruct HH as [HH|[HH|(H1&H2&[H3|[_ [H4 H5]]])]]; [tauto|tauto|tauto|done].
  - destruct (ph s); done.
  - destruct (pending s !! k) as [i|] eqn:Hk; [|done].
    assert (Hq : pending s <> []) by (intros E; by rewrite E in Hk).
    destruct Hs as (J&B&HH). unfold shape, none in *.
    destruct HH as [(_&_&_&_&_&E&_)|(M&Hd&HH)]; [done|]. destruct (timer s) eqn:Et; [|by destruct Hq; apply Hd].
    destruct (tclosed s) eqn:Ec; injection H as <- <-; cbn; rewrite Et, Ec; (split; [done|]); (split; [done|]); right; (split; [done|]); (split; [done|]).
    + done.
    + destruct HH as [HH|[(_&?&_)|(?&_)]]; auto; done.
  - destruct (running s !! k) as [[i o]|] eqn:Hk; [|done]. injection H as <- <-.
    destruct Hs as (J&B&HH). unfold shape, none in *. cbn. split; [done|]. split; [done|].
    assert (Hq : running s <> []) by (intros E; by rewrite E in Hk).
    destruct HH as [(_&_&_&_&[_ E]&_)|(M&Hd&HH)]; [done|]. right. split; [done|]. split; [done|].
    destruct HH as [HH|[HH|(H1&H2&[H3|[_ [H4 H5]]])]]; [tauto|tauto|tauto|done].
  - unfold is_before in H. destruct (ph s) eqn:Eph; try done. injection H as <- <-.
    destruct Hs as (J&B&HH). unfold shape, none in *. cbn. split; [done|]. split; [done|].
    destruct HH as [HH|(M&Hd&HH)]; [left; naive_solver|right]. rewrite Eph in HH.
    split; [done|]. split; [done|]. destruct HH as [HH|[(_&_&_&?)|(_&_&[?|[[?|?] _]])]]; try done. left. naive_solver.
  - destruct (ph s) eqn:Eph; try done.
    destruct Hs as (J&B&HH). unfold shape, none in *. rewrite Eph in HH.
    destruct HH as [(M&T&C&K&[Q R]&Pe&_)|(M&Hd&[(K&C&_)|[(T&C&K&_)|(T&K&[?|[_ [Q R]]])]])]; try done.
    + rewrite K in H. injection H as <- <-. cbn. split; [done|]. split; [done|]. left. repeat (split; [done|]). done.
    + rewrite K in H. destruct (timer s) eqn:Et; injection H as <- <-; cbn; rewrite ?Et; (split; [done|]); (split; [done|]); right; (split; [done|]); (split; [done|]).
      * tauto.
      * rewrite C. tauto.
    + rewrite K in H. injection H as <- <-. cbn. rewrite T, C. split; [done|]. split; [done|]. right. split; [done|]. split; [done|]. tauto.
    + rewrite K in H. injection H as <- <-. cbn. split; [done|]. split; [done|]. right. split; [done|]. split; [done|]. right. right. tauto.
  - destruct (ph s) eqn:Eph; try done. destruct (quiet Libdispatch p s) eqn:Eq; [|done]. injection H as <- <-.
    unfold quiet in Eq. destruct (queued s) eqn:Q; [|done]. destruct (running s) eqn:R; [|done].
    destruct Hs as (J&B&HH). unfold shape, none in *. cbn. rewrite Eph in HH. split; [done|]. split; [done|].
    destruct HH as [(_&_&_&_&_&_&HH)|(M&Hd&HH)]; [by destruct (HH p)|]. right. split; [done|]. split; [done|].
    destruct HH as [(_&_&[?|?])|[(_&_&_&?)|(T&K&_)]]; try done. right. right. tauto.
Qed.
Lemma run_shape ls s tr : run Libdispatch init ls = Some (s, tr) -> late_timer tr = [] -> shape s.
Proof.
  intros R. refine (run_inv Libdispatch (fun s tr => late_timer tr = [] -> shape s) (fun _ => True) _ _ ls s tr _ R);
    [intros _; apply shape_init| |apply Forall_true; done].
  clear. intros s tr l s' es IH _ Hs Hl. rewrite late_app in Hl. apply app_eq_nil in Hl as [L1 L2]. eapply step_shape; eauto.
Qed.

(** ** the other two, with tasks of one priority and no timer *)
Definition pshape (v : variant) (p : nat) (s : st) : Prop :=
  let P := pool_of v p in
  timer s = false /\ tclosed s = false /\ pending s = [] /\ bad s = false /\ aborted s = false /\
  Forall (fun q => snd (fst q) = P) (queued s) /\ Forall (fun r => snd r = Some P) (running s) /\
  ((made s = [] /\ stack s = [] /\ none s /\ joined s = [] /\ (forall x, ph s <> Waiting x)) \/
   (made s = [P] /\
     ((stack s = [Wait P] /\ joined s = [] /\ (ph s = Before \/ ph s = Popping)) \/
      (stack s = [] /\ joined s = [] /\ ph s = Waiting P) \/
      (stack s = [] /\ joined s = [P] /\ (ph s = Popping \/ ph s = After) /\ none s)))).
Lemma pshape_init v p : pshape v p init.
Proof. unfold pshape. cbn. repeat (split; [done|]). left. done. Qed.
Lemma exec_pshape v p s s' es : pshape v p s -> (is_before s = true \/ running s <> []) -> exec v p s = (s', es) -> pshape v p s'.
Proof.
  intros (T&C&Pe&B&A&FQ&FR&HH) Hw H. unfold exec, use, register, is_before, is_after, none in *.
  destruct s as [n m j t c st p' q r pe b a]; cbn in *. subst t c pe b a. set (P := pool_of v p) in *.
  destruct HH as [(->&->&[-> ->]&->&Hp)|(->&HH)].
  - destruct p'; try (by destruct Hw as [Hw|Hw]); try done.
    rewrite (bool_decide_eq_false_2 (P ∈ [])) in H by apply not_elem_of_nil. cbn in H. injection H as <- <-. unfold pshape; cbn. fold P.
    repeat (split; [done|]). split; [by constructor|]. split; [done|]. right. tauto.
  - rewrite (bool_decide_eq_true_2 (P ∈ [P])) in H by apply elem_of_list_here. cbn in H.
    assert (Hj : j = []).
    { destruct HH as [(_&?&_)|[(_&?&_)|(_&_&[E|E]&_&E')]]; try done; subst; by destruct Hw. }
    subst j. cbn in H. injection H as <- <-. unfold pshape, none; cbn. fold P. repeat (split; [done|]).
    split; [by apply Forall_app; split; [|by repeat constructor]|]. split; [done|]. right. split; [done|].
    destruct HH as [HH|[HH|(_&?&_)]]; [tauto|tauto|done].
Qed.
Lemma none_quiet v p s : v <> Libdispatch -> pshape v p s -> quiet v (pool_of v p) s = true -> none s.
Proof.
  intros Hv (T&C&Pe&B&A&FQ&FR&_) H.
  assert (E : negb (existsb (queued_in (pool_of v p)) (queued s)) && negb (existsb (from (pool_of v p)) (running s)) = true) by by destruct v.
  apply andb_prop in E as [E1 E2]. split.
  - destruct (queued s) as [|q l]; [done|]. cbn in E1. apply Forall_cons in FQ as [F _]. unfold queued_in in E1. rewrite F in E1.
    by rewrite Nat.eqb_refl in E1.
  - destruct (running s) as [|q l]; [done|]. cbn in E2. apply Forall_cons in FR as [F _]. unfold from in E2. rewrite F in E2.
    by rewrite Nat.eqb_refl in E2.
Qed.
Lemma step_pshape v p s l s' es : v <> Libdispatch -> pshape v p s -> plain p l -> step v s l = Some (s', es) -> pshape v p s'.
Proof.
  intros Hv Hs Hp H. unfold step in H. destruct (aborted s || bad s); [done|].
  destruct l.
  - destruct a; cbn in Hp; [|done]. subst p0. destruct (is_before s) eqn:Eb; [|done]. injection H as H. cbn in H. eapply exec_pshape; eauto.
  - destruct a; cbn in Hp; [|done]. subst p0. destruct (running s !! k) eqn:Hk; [|done]. injection H as H. cbn in H.
    eapply exec_pshape; eauto. right. intros E. by rewrite E in Hk.
  - destruct (queued s !! k) as [[[i x] b]|] eqn:Hk; [|done]. injection H as <- <-.
    assert (Hq : queued s <> []) by (intros E; by rewrite E in Hk).
    destruct Hs as (T&C&Pe&B&A&FQ&FR&HH). unfold pshape, none in *. cbn. repeat (split; [done|]).
    split; [by apply Forall_delete|]. split.
    { apply Forall_app. split; [done|]. repeat constructor. cbn. f_equal. by apply (Forall_lookup_1 _ _ _ _ FQ Hk). }
    destruct HH as [(_&_&[E _]&_)|(M&HH)]; [done|]. right. split; [done|].
    destruct HH as [HH|[HH|(_&_&_&E&_)]]; [tauto|tauto|done].
  - destruct v; try done. destruct (ph s) eqn:Eph; try done. destruct (queued s !! k) as [[[i q] b]|] eqn:Hk; [|done]. destruct b; [|done].
    injection H as <- <-.
    assert (Hq : queued s <> []) by (intros E; by rewrite E in Hk).
    destruct Hs as (T&C&Pe&B&A&FQ&FR&HH). unfold pshape, none in *. cbn. repeat (split; [done|]).
    split; [by apply Forall_delete|]. split; [done|].
    destruct HH as [(_&_&[E _]&_)|(M&HH)]; [done|]. right. split; [done|].
    destruct HH as [HH|[HH|(_&_&_&E&_)]]; [tauto|tauto|done].
  - destruct Hs as (T&C&Pe&_). rewrite Pe in H. done.
  - destruct (running s !! k) as [[i o]|] eqn:Hk; [|done]. injection H as <- <-.
    assert (Hq : running s <> []) by (intros E; by rewrite E in Hk).
    destruct Hs as (T&C&Pe&B&A&FQ&FR&HH). unfold pshape, none in *. cbn. repeat (split; [done|]).
    split; [by apply Forall_delete|].
    destruct HH as [(_&_&[_ E]&_)|(M&HH)]; [done|]. right. split; [done|].
    destruct HH as [HH|[HH|(_&_&_&_&E)]]; [tauto|tauto|done].
  - unfold is_before in H. destruct (ph s) eqn:Eph; try done. injection H as <- <-.
    destruct Hs as (T&C&Pe&B&A&FQ&FR&HH). unfold pshape, none in *. cbn. repeat (split; [done|]). rewrite Eph in HH.
    destruct HH as [(M&K&N&J&_)|(M&[HH|[(_&_&?)|(_&_&[?|?]&_)]])]; try done; [left|right].
    + repeat (split; [done|]). done.
    + split; [done|]. left. tauto.
  - destruct (ph s) eqn:Eph; try done.
    destruct Hs as (T&C&Pe&B&A&FQ&FR&HH). rewrite Eph in HH.
    destruct HH as [(M&K&N&J&_)|(M&[(K&J&_)|[(_&_&?)|(K&J&_&N)]])]; try done; rewrite K in H; injection H as <- <-;
      unfold pshape, none in *; cbn; (repeat (split; [done|])).
    + left. repeat (split; [done|]). done.
    + right. split; [done|]. right. left. done.
    + right. split; [done|]. right. right. tauto.
  - destruct (ph s) eqn:Eph; try done. destruct (quiet v p0 s) eqn:Eq; [|done].
    assert (Hp0 : p0 = pool_of v p).
    { destruct Hs as (T&C&Pe&B&A&FQ&FR&HH). rewrite Eph in HH.
      destruct HH as [(_&_&_&_&HH)|(M&[(_&_&[?|?])|[(_&_&E)|(_&_&[?|?]&_)]])]; try done; [by destruct (HH p0)|congruence]. }
    subst p0. pose proof (none_quiet v p s Hv Hs Eq) as N.
    assert (E : (s', es) = (set_stack (stack s) Popping (set_joined (pool_of v p :: joined s) s), [])) by (destruct v; [done|by injection H as <- <-..]).
    injection E as -> ->. destruct Hs as (T&C&Pe&B&A&FQ&FR&HH). rewrite Eph in HH.
    unfold pshape, none in *; cbn; repeat (split; [done|]). right.
    destruct HH as [(_&_&_&_&HH)|(M&[(_&_&[?|?])|[(K&J&E)|(_&_&[?|?]&_)]])]; try done; [by destruct (HH (pool_of v p))|].
    split; [done|]. right. right. rewrite J. tauto.
Qed.
Lemma run_pshape v p ls s tr : v <> Libdispatch -> Forall (plain p) ls -> run v init ls = Some (s, tr) -> pshape v p s.
Proof.
  intros Hv Hp R. refine (run_inv v (fun s _ => pshape v p s) (plain p) _ _ ls s tr Hp R); [apply pshape_init|].
  intros. by eapply step_pshape.
Qed.

(** ** tasks that were in time are not lost *)
Record intime (s : st) (tr : list event) : Prop := {
  i_called : Called ∈ tr <-> ph s <> Before;
  i_in : forall i, i ∈ in_time tr -> i ∈ ended tr \/ i ∈ rids s \/ exists p, (i, p, false) ∈ queued s
}.
Lemma in_time_called a b : Called ∈ a -> in_time (a ++ b) = in_time a.
Proof. induction a as [|e a IH]; [set_solver|]. intros H. destruct e; cbn; [f_equal|..]; try apply IH; try done; set_solver. Qed.
Lemma in_time_before a b : Called ∉ a -> in_time (a ++ b) = in_time a ++ in_time b.
Proof. induction a as [|e a IH]; [done|]. intros H. destruct e; cbn; [f_equal|..]; try apply IH; try done; set_solver. Qed.
Lemma step_intime v s tr l s' es : intime s tr -> step v s l = Some (s', es) -> intime s' (tr ++ es).
Proof.
  intros [I1 I2] H. unfold step in H. destruct (aborted s || bad s); [done|].
  assert (Hact : forall a, Some (act v a s) = Some (s', es) -> intime s' (tr ++ es)).
  { intros a E. injection E as E. destruct (act_parts _ _ _ _ _ E) as (E1&E2&E3&E4&N1&N2&N3&N4&N5&N6&HH).
    assert (HQ : forall q, q ∈ queued s -> q ∈ queued s').
    { intros q Hq. destruct HH as [(F1&F2&F3&F4&F5&_)|[(p&_&F1&F2&F3&F4&F5&_)|(_&F1&F2&F3&F4&F5&_)]]; rewrite F2; set_solver. }
    constructor.
    - rewrite E1, <-I1. set_solver.
    - intros i Hi. rewrite ended_app, N2, app_nil_r. unfold rids. rewrite E2. fold (rids s).
      assert (Hc : i ∈ in_time tr -> i ∈ ended tr \/ i ∈ rids s \/ exists p, (i, p, false) ∈ queued s').
      { intros Hin. destruct (I2 i Hin) as [?|[?|[p ?]]]; eauto 6. }
      destruct (ph s) eqn:Eph.
      2-4: rewrite in_time_called in Hi by (apply I1; done); auto.
      rewrite in_time_before in Hi by (intros Hx; by apply I1 in Hx). apply elem_of_app in Hi as [Hi|Hi]; [auto|].
      rewrite N5 in Hi. destruct HH as [(F1&F2&F3&F4&F5&_)|[(p&_&F1&F2&F3&F4&F5&_)|(_&F1&F2&F3&F4&F5&_)]]; rewrite F4 in Hi; [set_solver| |set_solver].
      apply elem_of_list_singleton in Hi as ->. right. right. exists (pool_of v p). rewrite F2. unfold is_before. rewrite Eph. set_solver. }
  assert (Hkeep : Called ∉ es -> submitted es = [] -> ph s' <> Before <-> ph s <> Before ->
            (forall i, i ∈ in_time tr -> i ∈ ended (tr ++ es) \/ i ∈ rids s' \/ exists p, (i, p, false) ∈ queued s') -> intime s' (tr ++ es)).
  { intros K1 K2 K3 K4. constructor; [rewrite K3, <-I1; set_solver|]. intros i Hi. apply K4.
    destruct (ph s) eqn:Eph.
    2-4: by rewrite in_time_called in Hi by (apply I1; done).
    rewrite in_time_before in Hi by (intros Hx; by apply I1 in Hx). apply elem_of_app in Hi as [Hi|Hi]; [done|].
    exfalso. revert K1 K2 Hi. clear. induction es as [|e es IH]; [set_solver|]. destruct e; cbn; intros; try done; try (apply IH; try done; set_solver). }
  destruct l.
  - destruct (is_before s); [eauto|done].
  - destruct (running s !! k); [eauto|done].
  - destruct (queued s !! k) as [[[i p] b]|] eqn:Hk; [|done]. injection H as <- <-. apply Hkeep; [set_solver|done|done|].
    intros j Hj. rewrite ended_app. cbn. rewrite app_nil_r. unfold rids. cbn. rewrite map_app. fold (rids s).
    destruct (I2 j Hj) as [?|[?|[q Hq]]]; [auto|set_solver|]. rewrite (perm_delete _ _ _ Hk) in Hq.
    apply elem_of_cons in Hq as [E|Hq]; [injection E as -> _ _; set_solver|]. right. right. eauto.
  - destruct v; try done. destruct (ph s) eqn:Eph; try done. destruct (queued s !! k) as [[[i q] b]|] eqn:Hk; [|done]. destruct b; [|done].
    injection H as <- <-. apply Hkeep; [set_solver|done|cbn; by rewrite Eph|].
    intros j Hj. rewrite ended_app. cbn. rewrite app_nil_r. unfold rids. cbn. fold (rids s).
    destruct (I2 j Hj) as [?|[?|[x Hq]]]; [auto|auto|]. rewrite (perm_delete _ _ _ Hk) in Hq.
    apply elem_of_cons in Hq as [E|Hq]; [done|]. right. right. eauto.
  - destruct (pending s !! k) as [i|] eqn:Hk; [|done].
    assert (H1 : (s', es) = (set_tasks (queued s) (running s) (delete k (pending s)) s, [Lost i]) \/
                 (s', es) = (set_tasks (queued s) (running s ++ [(i, None)]) (delete k (pending s)) s, [Started i]))
      by (destruct v; repeat case_match; try done; injection H as <- <-; auto).
    destruct H1 as [H1|H1]; injection H1 as -> ->; (apply Hkeep; [set_solver|done|done|]);
      intros j Hj; rewrite ended_app; cbn; rewrite app_nil_r; unfold rids; cbn; rewrite ?map_app; fold (rids s); [by apply I2|].
    destruct (I2 j Hj) as [?|[?|?]]; [auto|set_solver|auto].
  - destruct (running s !! k) as [[i o]|] eqn:Hk; [|done]. injection H as <- <-. apply Hkeep; [set_solver|done|done|].
    intros j Hj. rewrite ended_app. cbn. unfold rids. cbn.
    destruct (I2 j Hj) as [?|[Hr|?]]; [set_solver| |auto]. unfold rids in Hr. rewrite (perm_delete _ _ _ Hk) in Hr. set_solver.
  - unfold is_before in H. destruct (ph s) eqn:Eph; try done. injection H as <- <-. constructor.
    + cbn. split; [done|]. set_solver.
    + rewrite in_time_before by (intros Hx; by apply I1 in Hx). cbn. rewrite app_nil_r. intros i Hi. rewrite ended_app. cbn. rewrite app_nil_r. apply (I2 i Hi).
  - destruct (ph s) eqn:Eph; try done.
    destruct (stack s) as [|[p|] hs]; injection H as <- <-; (apply Hkeep; [set_solver|done|cbn; rewrite ?Eph; by split|]);
      intros j Hj; rewrite ended_app; cbn; rewrite app_nil_r; apply (I2 j Hj).
  - destruct (ph s) eqn:Eph; try done. destruct (quiet v p s); [|done]. injection H as <- <-.
    apply Hkeep; [set_solver|done|destruct v; cbn; rewrite ?Eph; by split|].
    intros j Hj. rewrite ended_app. cbn. rewrite app_nil_r. destruct v; apply (I2 j Hj).
Qed.
Lemma run_intime v ls s tr : run v init ls = Some (s, tr) -> intime s tr.
Proof.
  intros R. eapply (run_inv v intime (fun _ => True)); [constructor; cbn; set_solver| |apply Forall_true; done|done].
  intros. by eapply step_intime.
Qed.
