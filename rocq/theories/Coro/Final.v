(** The theorems about coroutines. *)
From Coq Require Import List Bool Arith Lia ZifyBool.
From stdpp Require Import list.
From Verif.Coro Require Import Model Spec Inv.

Scheme den_mut := Induction for den Sort Prop with eval_mut := Induction for eval Sort Prop.
Combined Scheme den_eval_ind from den_mut, eval_mut.

Section Final.
Context (prog : nat -> option body).

(** ** the specification is a function *)
Lemma den_fun ext ext' : (forall f o o', prog f = None -> ext f = Some o -> ext' f = Some o' -> o = o') ->
  (forall f o, den prog ext f o -> forall o', den prog ext' f o' -> o = o') /\
  (forall b o, eval prog ext b o -> forall o', eval prog ext' b o' -> o = o').
Proof.
  intros C. apply (den_eval_ind prog ext (fun f o _ => forall o', den prog ext' f o' -> o = o') (fun b o _ => forall o', eval prog ext' b o' -> o = o')).
  - intros f o P X o' D. destruct D; [eauto|congruence].
  - intros f b o P E IH o' D. destruct D as [|f b' o' P' E']; [congruence|]. rewrite P in P'. injection P' as <-. auto.
  - intros v o' E. by inversion E.
  - intros v o' E. by inversion E.
  - intros f k o r D IHD E IHE o' E'. inversion E' as [| |? ? o1 ? D1 E1]; subst. apply IHD in D1. subst o1. auto.
Qed.
Lemma den_mono ext ext' : (forall f o, ext f = Some o -> ext' f = Some o) ->
  (forall f o, den prog ext f o -> den prog ext' f o) /\ (forall b o, eval prog ext b o -> eval prog ext' b o).
Proof.
  intros C. apply (den_eval_ind prog ext (fun f o _ => den prog ext' f o) (fun b o _ => eval prog ext' b o)).
  - intros. apply den_ext; auto.
  - intros. by eapply den_coro.
  - constructor.
  - constructor.
  - intros. by eapply eval_await.
Qed.

(** ** steps only add outcomes *)
Lemma step_grows s l s' ev : inv prog s -> step prog s l = Some (s', ev) -> grows s s'.
Proof.
  intros I H. destruct l as [f o|c|i]; cbn [step] in H.
  - destruct (prog f) eqn:P; [done|]. destruct (outs s f) eqn:N; [done|]. injection H as <- <-.
    intros g x X. cbn. unfold upd. destruct (g =? f) eqn:E; [apply Nat.eqb_eq in E; congruence|done].
  - destruct (prog c) as [b|] eqn:P; [|done]. destruct (cst s c) eqn:C; try done. (injection H as <- <-; intros ? ? X; exact X).
  - destruct (acts s !! i) as [a|] eqn:H0; [|done]. destruct a as [c b|c f k|f o [|[c k] l]|c].
    + destruct b as [v|e|f k].
      * injection H as <- <-. destruct (eval_running prog s c _ i I H0) as (_ & _ & N & _).
        intros g x X. cbn. unfold upd. destruct (g =? c) eqn:E; [apply Nat.eqb_eq in E; congruence|done].
      * injection H as <- <-. destruct (eval_running prog s c _ i I H0) as (_ & _ & N & _).
        intros g x X. cbn. unfold upd. destruct (g =? c) eqn:E; [apply Nat.eqb_eq in E; congruence|done].
      * destruct (outs (touch c (set_acts (delete i (acts s)) s)) f); (injection H as <- <-; intros ? ? X; exact X).
    + destruct (outs (set_acts (delete i (acts s)) s) f); (injection H as <- <-; intros ? ? X; exact X).
    + (injection H as <- <-; intros ? ? X; exact X).
    + (injection H as <- <-; intros ? ? X; exact X).
    + (injection H as <- <-; intros ? ? X; exact X).
Qed.

(** ** what a coroutine returns is what it evaluates to *)
Definition sound (s : st) : Prop := forall f o, outs s f = Some o -> den prog (outs s) f o.
Definition ends (b : body) (o : outcome) : Prop := match b with Ret v => o = Value v | Throw e => o = Error e | Await _ _ => False end.
Lemma path_eval s (ext : nat -> option outcome) b r o : (forall f x, outs s f = Some x -> den prog ext f x) ->
  path (outs s) b r -> ends r o -> eval prog ext b o.
Proof.
  intros S P. induction P as [b|f k x b X P IH]; intros E; [|econstructor; [by apply S|auto]].
  destruct b; cbn in E; subst; try constructor. done.
Qed.
Lemma step_sound s l s' ev : inv prog s -> sound s -> step prog s l = Some (s', ev) -> sound s'.
Proof.
  intros I S H. pose proof (step_grows s l s' ev I H) as G. pose proof (step_inv prog s l s' ev I H) as I'.
  assert (forall f x, outs s f = Some x -> den prog (outs s') f x) as S'.
  { intros f x X. apply (den_mono (outs s)); [exact G|auto]. }
  intros f x X. destruct (prog f) as [b|] eqn:P; [|by apply den_ext].
  destruct (outs s f) as [y|] eqn:Y; [rewrite (G f y Y) in X; injection X as <-; auto|].
  (* f has just finished *)
  assert (exists i b, acts s !! i = Some (Eval f b) /\ ends b x) as (i & b1 & Hi & E1).
  { destruct l as [g o|c|i]; cbn [step] in H.
    - destruct (prog g) eqn:Pg; [done|]. destruct (outs s g) eqn:N; [done|]. injection H as <- <-.
      cbn in X. unfold upd in X. destruct (f =? g) eqn:E; [apply Nat.eqb_eq in E; congruence|congruence].
    - destruct (prog c) as [bc|] eqn:Pc; [|done]. destruct (cst s c) eqn:C; try done. injection H as <- <-. cbn in X. congruence.
    - destruct (acts s !! i) as [a|] eqn:H0; [|done]. destruct a as [c bc|c g k|g o [|[c k] l]|c].
      + destruct bc as [v|e|g k].
        * injection H as <- <-. cbn in X. unfold upd in X. destruct (f =? c) eqn:E; [|congruence]. apply Nat.eqb_eq in E. subst. injection X as <-.
          exists i, (Ret v). done.
        * injection H as <- <-. cbn in X. unfold upd in X. destruct (f =? c) eqn:E; [|congruence]. apply Nat.eqb_eq in E. subst. injection X as <-.
          exists i, (Throw e). done.
        * destruct (outs (touch c (set_acts (delete i (acts s)) s)) g); injection H as <- <-; cbn in X; congruence.
      + destruct (outs (set_acts (delete i (acts s)) s) g); injection H as <- <-; cbn in X; congruence.
      + injection H as <- <-. cbn in X. congruence.
      + injection H as <- <-. cbn in X. congruence.
      + injection H as <- <-. cbn in X. congruence. }
  pose proof (Forall_lookup_1 _ _ _ _ (i_acts prog s I) Hi) as (b0 & A1 & A2).
  eapply den_coro; [exact A1|]. by eapply path_eval.
Qed.
Lemma run_sound s ls s' tr : inv prog s -> sound s -> run prog s ls = Some (s', tr) -> sound s'.
Proof.
  revert s s' tr. induction ls as [|l ls IH]; intros s s' tr I S R; cbn [run] in R; [by injection R as <- <-|].
  destruct (step prog s l) as [[s1 ev]|] eqn:E; [|done]. destruct (run prog s1 ls) as [[s2 tr2]|] eqn:E2; [|done].
  injection R as <- <-. eapply IH; [| |done]; [by eapply step_inv|by eapply step_sound].
Qed.
Lemma results ls s tr c o : run prog init ls = Some (s, tr) -> outs s c = Some o -> den prog (outs s) c o.
Proof. intros R. apply (run_sound init ls s tr (init_inv prog)); [by intros ? ?|done]. Qed.
Lemma same_results ls ls' s s' tr tr' c o o' : run prog init ls = Some (s, tr) -> run prog init ls' = Some (s', tr') ->
  (forall f x x', prog f = None -> outs s f = Some x -> outs s' f = Some x' -> x = x') ->
  outs s c = Some o -> outs s' c = Some o' -> o = o'.
Proof.
  intros R R' C X X'. apply (proj1 (den_fun (outs s) (outs s') C) c o); by eapply results.
Qed.

(** ** at rest everything has been computed that can be *)
Lemma complete ls s tr c o : run prog init ls = Some (s, tr) -> rest s -> (forall d, prog d <> None -> cst s d <> Fresh) ->
  den prog (outs s) c o -> outs s c = Some o.
Proof.
  intros R Q F. pose proof (run_inv prog _ _ _ _ (init_inv prog) R) as I.
  pose proof (run_sound init ls s tr (init_inv prog) ltac:(by intros ? ?) R) as S.
  revert c o. refine (proj1 (den_eval_ind prog (outs s) (fun f o _ => outs s f = Some o)
    (fun b o _ => forall f k, path (outs s) b (Await f k) -> outs s f <> None) _ _ _ _ _)).
  - done.
  - intros f b o P E IH. destruct (outs s f) as [x|] eqn:X.
    + f_equal. apply (proj1 (den_fun (outs s) (outs s) ltac:(congruence)) f x); [by apply S|by eapply den_coro].
    + exfalso. destruct (i_coro prog s I f) as [C1 C2 C3 C4]. unfold rest in Q. rewrite Q in C1, C2, C3. cbn in C1, C2.
      assert (prog f <> None) as Pn by congruence. pose proof (proj1 (C3 Pn) X) as [_ G]. specialize (F f Pn).
      assert (cst s f = Suspended) as C by (destruct (cst s f); cbn in C1; done). rewrite C in C2. cbn in C2.
      assert (exists g k, (g, (f, k)) ∈ waiting s) as (g & k & W).
      { clear - C2. unfold stored in C2. induction (waiting s) as [|[g [d k]] w IH]; [done|].
        change (in_list f (map snd ((g, (d, k)) :: w))) with (one (d =? f) + in_list f (map snd w)) in C2.
        destruct (d =? f) eqn:E; [apply Nat.eqb_eq in E; subst; exists g, k; apply elem_of_list_here|].
        cbn in C2. destruct (IH C2) as (g' & k' & ?). exists g', k'. by apply elem_of_list_further. }
      pose proof (i_wait prog s I) as Wk. rewrite Forall_forall in Wk. destruct (Wk _ W) as [N (b0 & A1 & A2)]. cbn in N, A1, A2.
      rewrite P in A1. injection A1 as <-. by apply (IH _ _ A2).
  - intros v f k P. inversion P.
  - intros v f k P. inversion P.
  - intros g k' x r D IHD E IHE f k P. inversion P as [|? ? y ? Y P']; subst; [congruence|].
    rewrite IHD in Y. injection Y as <-. by apply (IHE f k).
Qed.
Lemma safe ls s tr : run prog init ls = Some (s, tr) -> bad s = false.
Proof. intros R. apply (run_inv prog _ _ _ _ (init_inv prog) R). Qed.
End Final.
