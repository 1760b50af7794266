(** The coroutines come to rest: there is no endless run of the library's own steps, whatever the schedule. *)
From Coq Require Import List Arith Lia.
From stdpp Require Import list relations.
From Verif.Coro Require Import Model Spec.

(** ** lists with an element replaced by smaller ones *)
Section Multi.
Context {A : Type} (R : A -> A -> Prop).
Definition less (l' l : list A) : Prop := exists a m n, l ≡ₚ a :: m /\ l' ≡ₚ n ++ m /\ Forall (fun b => R b a) n.
Lemma less_perm l l' k : l ≡ₚ l' -> less k l -> less k l'.
Proof. intros P (a & m & n & H1 & H2 & H3). exists a, m, n. by rewrite <- P. Qed.
Lemma acc_perm l l' : l ≡ₚ l' -> Acc less l -> Acc less l'.
Proof. intros P [H]. constructor. intros k K. apply H. eapply less_perm; [symmetry; exact P|exact K]. Qed.
Lemma acc_nil : Acc less [].
Proof. constructor. intros l (a & m & n & H & _). apply Permutation_nil_l in H. done. Qed.
Lemma less_cons a m k : less k (a :: m) -> (exists m', k ≡ₚ a :: m' /\ less m' m) \/ (exists n, k ≡ₚ n ++ m /\ Forall (fun b => R b a) n).
Proof.
  intros (b & m' & n & H1 & H2 & H3).
  assert (b ∈ a :: m) as E by (rewrite H1; apply elem_of_list_here). apply elem_of_cons in E as [->|E].
  - right. exists n. split; [|done]. rewrite H2. f_equiv. by apply Permutation_cons_inv in H1.
  - left. apply elem_of_Permutation in E as [m2 E]. exists (n ++ m2). split.
    + rewrite H2. rewrite E in H1. rewrite (perm_swap b a) in H1. apply Permutation_cons_inv in H1. rewrite <- H1. by rewrite Permutation_middle.
    + by exists b, m2, n.
Qed.
Lemma acc_add a : (forall b, R b a -> forall l, Acc less l -> Acc less (b :: l)) -> forall m, Acc less m -> Acc less (a :: m).
Proof.
  intros IHa m M. induction M as [m M IHm]. constructor. intros k K. apply less_cons in K as [(m' & K1 & K2)|(n & K1 & K2)].
  - eapply acc_perm; [symmetry; exact K1|]. by apply IHm.
  - eapply acc_perm; [symmetry; exact K1|]. clear K1. induction K2 as [|b n B K2 IH]; cbn; [by constructor|by apply IHa].
Qed.
Lemma less_wf : well_founded R -> forall l, Acc less l.
Proof.
  intros W l. induction l as [|a l IH]; [apply acc_nil|]. revert l IH. induction (W a) as [a _ IHa]. intros l L. by apply acc_add.
Qed.
Lemma less_app l l' k : less l' l -> less (l' ++ k) (l ++ k).
Proof. intros (a & m & n & H1 & H2 & H3). exists a, (m ++ k), n. rewrite H1, H2. split; [done|]. split; [by rewrite <- app_assoc|done]. Qed.
End Multi.

(** ** what the state has still to do *)
Inductive todo := TEval (b : body) | TSusp (k : kont) | TWait (k : kont) | TFire (k : kont) | TMark.
Inductive smaller : todo -> todo -> Prop :=
  | s_ready f k o : smaller (TEval (k o)) (TEval (Await f k))
  | s_susp f k : smaller (TSusp k) (TEval (Await f k))
  | s_go k o : smaller (TEval (k o)) (TSusp k)
  | s_store k : smaller (TWait k) (TSusp k)
  | s_take k : smaller (TFire k) (TWait k)
  | s_fire k o : smaller (TEval (k o)) (TFire k)
  | s_ret v : smaller TMark (TEval (Ret v))
  | s_throw e : smaller TMark (TEval (Throw e)).
Lemma smaller_wf : well_founded smaller.
Proof.
  assert (Acc smaller TMark) as M by (constructor; inversion 1).
  assert (forall b, Acc smaller (TEval b)) as E.
  { induction b as [v|e|f k IH].
    - constructor. intros y Y. inversion Y. by subst.
    - constructor. intros y Y. inversion Y. by subst.
    - assert (Acc smaller (TFire k)) as F by (constructor; intros y Y; inversion Y; subst; apply IH).
      assert (Acc smaller (TWait k)) as W by (constructor; intros y Y; inversion Y; subst; apply F).
      assert (Acc smaller (TSusp k)) as S by (constructor; intros y Y; inversion Y; subst; [apply IH|apply W]).
      constructor. intros y Y. inversion Y; subst; [apply IH|apply S]. }
  assert (forall k, Acc smaller (TFire k)) as F by (intros k; constructor; intros y Y; inversion Y; subst; apply E).
  assert (forall k, Acc smaller (TWait k)) as W by (intros k; constructor; intros y Y; inversion Y; subst; apply F).
  intros [b|k|k|k|]; auto. constructor. intros y Y. inversion Y; subst; auto.
Qed.
Definition fires (l : list (nat * kont)) : list todo := map (fun w => TFire (snd w)) l.
Definition of_act (a : act) : list todo :=
  match a with Eval _ b => [TEval b] | Susp _ _ k => [TSusp k] | Fire _ _ l => TMark :: fires l | Free _ => [TMark] end.
Definition waits_for (l : list (nat * (nat * kont))) : list todo := map (fun w => TWait (snd (snd w))) l.
Definition left (s : st) : list todo := flat_map of_act (acts s) ++ waits_for (waiting s).

Definition below := tc (less smaller).
Lemma below_wf l : Acc below l.
Proof.
  induction (less_wf smaller smaller_wf l) as [l _ IH]. constructor. intros k K. unfold below in K.
  remember l as l0 eqn:E in K. revert l0 K E.
  assert (forall k l0, tc (less smaller) k l0 -> l0 = l -> Acc below k) as H; [|eauto].
  clear k. induction 1 as [x y H|x y z H1 H2 IH2]; intros ->; [by apply IH|].
  specialize (IH2 eq_refl). destruct IH2 as [IH2]. apply IH2. by constructor.
Qed.
Lemma below_perm l l' k k' : l ≡ₚ l' -> k ≡ₚ k' -> below k l -> below k' l'.
Proof.
  intros P Q B. revert l' k' P Q. induction B as [x y H|x y z H1 H2 IH]; intros l' k' P Q.
  - destruct H as (a & m & n & H1 & H2 & H3). apply tc_once. exists a, m, n. by rewrite <- P, <- Q.
  - eapply tc_l with (y := y).
    + destruct H1 as (a & m & n & G1 & G2 & G3). exists a, m, n. by rewrite <- Q.
    + by apply IH.
Qed.
Lemma below_one a m n : Forall (fun b => smaller b a) n -> below (n ++ m) (a :: m).
Proof. intros H. apply tc_once. by exists a, m, n. Qed.
(** the functions of a future that becomes ready: from its list into the thread that calls them *)
Definition mine (f : nat) (l : list (nat * (nat * kont))) := map snd (List.filter (fun w => fst w =? f) l).
Definition others (f : nat) (l : list (nat * (nat * kont))) := List.filter (fun w => negb (fst w =? f)) l.
Lemma below_take f l m : exists l', l' ≡ₚ m ++ fires (mine f l) ++ waits_for (others f l) /\ rtc (less smaller) l' (m ++ waits_for l).
Proof.
  revert m. induction l as [|[g [c k]] l IH]; intros m; [eexists; split; [reflexivity|cbn; by constructor]|].
  unfold mine, others. cbn [List.filter fst]. destruct (g =? f).
  - destruct (IH (m ++ [TFire k])) as (l' & P & R). exists l'. split.
    + rewrite P, <- app_assoc. done.
    + eapply rtc_transitive; [exact R|]. apply rtc_once. exists (TWait k), (m ++ waits_for l), [TFire k]. cbn [waits_for map snd].
      split; [by rewrite Permutation_middle|]. split; [rewrite app_assoc; apply Permutation_app_tail, Permutation_app_comm|].
      constructor; [constructor|constructor].
  - destruct (IH (m ++ [TWait k])) as (l' & P & R). exists l'. split.
    + rewrite P, <- app_assoc. apply Permutation_app_head. cbn. by rewrite Permutation_middle.
    + cbn [waits_for map snd]. by rewrite <- app_assoc in R.
Qed.
Lemma below_finish b f l m : smaller TMark (TEval b) -> below ([TMark; TMark] ++ m ++ fires (mine f l) ++ waits_for (others f l)) (TEval b :: m ++ waits_for l).
Proof.
  intros B. destruct (below_take f l ([TMark; TMark] ++ m)) as (l' & P & R). rewrite <- app_assoc in P.
  eapply below_perm; [reflexivity|exact P|]. eapply tc_rtc_l; [exact R|]. rewrite <- app_assoc. apply below_one. constructor; [done|]. constructor; [done|constructor].
Qed.
Lemma left_at s i a : acts s !! i = Some a -> left s ≡ₚ of_act a ++ flat_map of_act (delete i (acts s)) ++ waits_for (waiting s).
Proof.
  intros H. unfold left. rewrite app_assoc. apply Permutation_app_tail.
  revert i H. induction (acts s) as [|x l IH]; intros [|i] H; cbn in H; try done; [by injection H as ->|].
  change (delete (S i) (x :: l)) with (x :: delete i l). cbn [flat_map]. rewrite (IH i H), !app_assoc. apply Permutation_app_tail, Permutation_app_comm.
Qed.
Lemma flat_snoc l a : flat_map of_act (l ++ [a]) ≡ₚ of_act a ++ flat_map of_act l.
Proof. rewrite flat_map_app. cbn [flat_map]. rewrite app_nil_r. apply Permutation_app_comm. Qed.
Lemma step_below prog s i s' ev : step prog s (LAct i) = Some (s', ev) -> below (left s') (left s).
Proof.
  intros H. cbn [step] in H. destruct (acts s !! i) as [a|] eqn:A; [|done]. pose proof (left_at s i a A) as L. cbv zeta in H.
  apply (below_perm _ _ _ (left s') (symmetry L) (reflexivity _)).
  destruct a as [c b|c f k|f o [|[c k] l]|c].
  - destruct b as [v|e|f k].
    + injection H as <- <-. unfold left. cbn [acts waiting set_acts resolve set_outs set_waiting touch set_bad of_act].
      eapply below_perm; [reflexivity| |apply (below_finish (Ret v) c (waiting s)); constructor]. rewrite !flat_snoc. cbn [of_act app].
      constructor. constructor. rewrite app_assoc. apply Permutation_app_tail, Permutation_app_comm.
    + injection H as <- <-. unfold left. cbn [acts waiting set_acts resolve set_outs set_waiting touch set_bad of_act].
      eapply below_perm; [reflexivity| |apply (below_finish (Throw e) c (waiting s)); constructor]. rewrite !flat_snoc. cbn [of_act app].
      constructor. constructor. rewrite app_assoc. apply Permutation_app_tail, Permutation_app_comm.
    + destruct (outs (touch c (set_acts (delete i (acts s)) s)) f) as [o|]; injection H as <- <-; unfold left;
        cbn [acts waiting set_acts set_cst touch set_bad of_act].
      * eapply below_perm; [reflexivity| |apply (below_one (TEval (Await f k)) _ [TEval (k o)]); by repeat constructor]. by rewrite flat_snoc.
      * eapply below_perm; [reflexivity| |apply (below_one (TEval (Await f k)) _ [TSusp k]); by repeat constructor]. by rewrite flat_snoc.
  - destruct (outs (set_acts (delete i (acts s)) s) f) as [o|]; injection H as <- <-; unfold left;
      cbn [acts waiting set_acts set_cst set_waiting set_bad of_act].
    + eapply below_perm; [reflexivity| |apply (below_one (TSusp k) _ [TEval (k o)]); by repeat constructor]. by rewrite flat_snoc.
    + eapply below_perm; [reflexivity| |apply (below_one (TSusp k) _ [TWait k]); by repeat constructor].
      unfold waits_for at 2. rewrite map_app. cbn. rewrite app_assoc. apply Permutation_cons_append.
  - injection H as <- <-. unfold left. cbn [acts waiting set_acts of_act fires map]. apply (below_one TMark _ []). constructor.
  - injection H as <- <-. unfold left. cbn [acts waiting set_acts set_cst set_bad].
    change (of_act (Fire f o ((c, k) :: l))) with (TMark :: TFire k :: fires l).
    eapply below_perm; [| |apply (below_one (TFire k) (TMark :: fires l ++ flat_map of_act (delete i (acts s)) ++ waits_for (waiting s)) [TEval (k o)]); by repeat constructor].
    + cbn. constructor.
    + rewrite (app_comm_cons (delete i (acts s)) [Eval c (k o)] (Fire f o l)), flat_snoc. cbn [flat_map of_act app]. by rewrite <- app_assoc.
  - injection H as <- <-. unfold left. cbn [acts waiting set_acts set_cst touch set_bad of_act]. apply (below_one TMark _ []). constructor.
Qed.
(** ** no endless run, and rest is within reach *)
Lemma ends_always prog s : Acc (fun s' s => exists i ev, step prog s (LAct i) = Some (s', ev)) s.
Proof.
  assert (forall l s, left s = l -> Acc (fun s' s => exists i ev, step prog s (LAct i) = Some (s', ev)) s) as H; [|eauto].
  clear s. intros l. induction (below_wf l) as [l _ IH]. intros s <-. constructor. intros s' (i & ev & H).
  apply (IH (left s')); [|done]. by eapply step_below.
Qed.
Lemma step_act prog s i a : acts s !! i = Some a -> exists s' ev, step prog s (LAct i) = Some (s', ev).
Proof.
  intros H. cbn [step]. rewrite H. cbv zeta. destruct a as [c [v|e|f k]|c f k|f o [|[c k] l]|c]; try (by eauto).
  - destruct (outs _ f); by eauto.
  - destruct (outs _ f); [|by eauto]. destruct (resume c f o k _) as [s1 ev]. by eauto.
Qed.
Definition own (l : label) : Prop := match l with LAct _ => True | _ => False end.
Lemma reach_rest prog s : exists ls s' tr, Forall own ls /\ run prog s ls = Some (s', tr) /\ rest s'.
Proof.
  induction (ends_always prog s) as [s _ IH]. destruct (acts s) as [|a l] eqn:E.
  - exists [], s, []. split; [constructor|]. split; done.
  - destruct (step_act prog s 0 a) as (s1 & ev & H); [by rewrite E|]. destruct (IH s1) as (ls & s' & tr & O & R & Q); [by eauto|].
    exists (LAct 0 :: ls), s', (ev ++ tr). split; [by constructor|]. split; [|done]. cbn [run]. by rewrite H, R.
Qed.
Lemma rest_iff prog s : rest s <-> forall i, step prog s (LAct i) = None.
Proof.
  unfold rest. split; [intros H i; cbn [step]; by rewrite H|]. intros H. destruct (acts s) as [|a l] eqn:E; [done|].
  destruct (step_act prog s 0 a) as (s1 & ev & G); [by rewrite E|]. by rewrite H in G.
Qed.
