(** What follows for a serial queue, its lifetime and its tasks. *)
From Coq Require Import List Bool Arith Lia Permutation.
From stdpp Require Import list.
From Verif.SerialLife Require Import Model Spec Proof.

Lemma safe m ls s tr : run m init ls = Some (s, tr) -> bad s = false.
Proof. intros R. exact (v_bad _ _ _ (reach m ls s tr R)). Qed.
Lemma seq_nodup n : NoDup (seq 0 n).
Proof. apply NoDup_ListNoDup, seq_NoDup. Qed.
Lemma dead_once m ls s tr : run m init ls = Some (s, tr) -> NoDup (dead tr) /\ (forall i, i ∈ dead tr -> i ∈ enqs tr) /\
  (forall i, i ∈ dead tr -> i ∈ starts tr -> i ∈ ends tr).
Proof.
  intros R. pose proof (reach m ls s tr R) as I. pose proof (v_dead _ _ _ I) as D. pose proof (seq_nodup (next s)) as N. rewrite <- D in N.
  apply NoDup_app in N as (N1 & N2 & _). split; [done|]. split.
  - intros i Hi. rewrite (v_enq _ _ _ I), <- D. apply elem_of_app. by left.
  - intros i Hi Hs. rewrite (v_ends _ _ _ I) in Hs. apply elem_of_app in Hs as [Hs|Hs]; [done|]. exfalso. apply (N2 i Hi). apply elem_of_app. left.
    clear -Hs. induction (workers s) as [|p ws IH]; [done|]. cbn in *. apply elem_of_app in Hs as [Hs|Hs]; apply elem_of_app; [left|right; auto].
    destruct p; cbn in Hs; try (by apply elem_of_nil in Hs). cbn. apply elem_of_list_singleton in Hs as ->. left.
Qed.
Lemma fifo m ls s tr : run m init ls = Some (s, tr) -> starts tr `prefix_of` enqs tr /\ NoDup (enqs tr) /\ (starts tr = ends tr \/ exists i, starts tr = ends tr ++ [i]).
Proof.
  intros R. pose proof (reach m ls s tr R) as I. rewrite (v_enq _ _ _ I). split_and!.
  - rewrite <- (v_fifo _ _ _ I). by eexists.
  - apply seq_nodup.
  - rewrite (v_ends _ _ _ I). pose proof (v_token _ _ _ I) as T. pose proof (one_le (running s)). assert (total active (workers s) <= 1) as A by lia. clear -A.
    induction (workers s) as [|p ws IH]; cbn in *; [left; by rewrite app_nil_r|].
    destruct p; cbn in *; try (apply IH; lia). rewrite (quiet exec ws) by (done || lia). right. by eexists.
Qed.
Lemma gone m ls s tr : run m init ls = Some (s, tr) -> frees tr <> [] ->
  handles s = 0 /\ rest s /\ frees tr = [tt] /\ dead tr ≡ₚ enqs tr /\ starts tr = ends tr.
Proof.
  intros R F. pose proof (reach m ls s tr R) as I. pose proof (v_fr _ _ _ I) as Fr. pose proof (v_free _ _ _ I) as Fe. pose proof (v_ref _ _ _ I) as Re.
  assert (freed s = true) as E. { destruct (frees tr); [done|]. by destruct (freed s). }
  rewrite E in *. symmetry in Fe. apply Nat.eqb_eq in Fe.
  assert (workers s = []) as W. { destruct (workers s) as [|p ws]; [done|]. pose proof (weight_pos (p :: ws) ltac:(done)). lia. }
  split; [lia|]. split; [unfold rest; split_and!; [lia|lia|done]|]. split_and!.
  - destruct (frees tr) as [|[] [|? ?]]; cbn in Fr; try lia. done.
  - rewrite (v_enq _ _ _ I), <- (v_dead _ _ _ I), W, E. by rewrite !app_nil_r.
  - rewrite (v_ends _ _ _ I), W. cbn. by rewrite app_nil_r.
Qed.
(** nothing can be done with an instance that is destroyed *)
Lemma stuck m s tr l : inv m s tr -> freed s = true -> step m s l = None.
Proof.
  intros I F. pose proof (v_free _ _ _ I) as Fe. pose proof (v_ref _ _ _ I) as Re. rewrite F in Fe. symmetry in Fe. apply Nat.eqb_eq in Fe.
  assert (workers s = []) as W. { destruct (workers s) as [|p ws]; [done|]. pose proof (weight_pos (p :: ws) ltac:(done)). lia. }
  assert (handles s = 0 /\ calling s = 0 /\ jobs s = 0) as (H & C & J) by lia.
  destruct l; cbn [step]; unfold can_call; rewrite ?W, ?H, ?C, ?J; done.
Qed.
Lemma freed_last m ls s tr tr1 tr2 : run m init ls = Some (s, tr) -> tr = tr1 ++ Freed :: tr2 -> tr2 = [].
Proof.
  assert (forall ls s0 s tr0 tr, inv m s0 tr0 -> run m s0 ls = Some (s, tr) -> (forall a b, tr0 = a ++ Freed :: b -> b = []) -> forall a b, tr0 ++ tr = a ++ Freed :: b -> b = []) as G.
  { clear. induction ls as [|l ls IH]; intros s0 s tr0 tr I R H a b E; cbn [run] in R; [injection R as <- <-; rewrite app_nil_r in E; by eapply H|].
    destruct (step m s0 l) as [[s1 ev]|] eqn:S; [|done]. destruct (run m s1 ls) as [[s2 tr2]|] eqn:R2; [|done]. injection R as <- <-.
    rewrite app_assoc in E. eapply IH; [by eapply step_inv|exact R2| |exact E]. clear a b E R2 IH ls tr2 s2. intros a b E.
    assert (freed s0 = false) as F. { destruct (freed s0) eqn:F; [|done]. by rewrite (stuck m s0 tr0 l I F) in S. }
    assert (frees tr0 = []) as F0. { pose proof (v_fr _ _ _ I) as X. rewrite F in X. by apply nil_length_inv. }
    assert (forall q a b, burn q = a ++ Freed :: b -> b = []) as B.
    { clear. unfold burn. induction q as [|t q IH]; intros [|e a] b H; cbn in H; try done.
      - by injection H as ->.
      - injection H as _ H. by destruct a.
      - injection H as _ H. by apply (IH a b). }
    assert (forall tr0 ev, frees tr0 = [] -> (forall a b, ev = a ++ Freed :: b -> b = []) -> forall a b, tr0 ++ ev = a ++ Freed :: b -> b = []) as K.
    { clear. induction tr0 as [|e tr0 IH]; intros ev F H a b E; [by eapply H|]. destruct a as [|e' a]; cbn in E; injection E as -> E; [done|].
      eapply IH; [|exact H|exact E]. by destruct e'. }
    eapply K; [exact F0| |exact E]. clear K a b E H.
    assert (forall s a b, snd (release s) = a ++ Freed :: b -> b = []) as Rl.
    { intros s a b. unfold release. destruct (refs s) as [|[|n]]; cbn; [by destruct a|apply B|by destruct a]. }
    assert (forall t s a b, snd (kill t s) = a ++ Freed :: b -> b = []) as Ki.
    { intros t s a b. unfold kill. destruct (snd t); [|by destruct a as [|? []]]. pose proof (Rl s) as X. destruct (release s) as [s' e']. cbn in *. destruct a as [|e a]; [done|]. intros Y. injection Y as _ Y. by eapply X. }
    intros a b E. destruct l as [c| | | | | |k]; cbn [step] in S.
    - destruct (negb (can_call s0)); [done|]. injection S as <- <-. by destruct a as [|? []].
    - destruct (negb (can_call s0)); [done|]. injection S as <- <-. by destruct a.
    - destruct (handles s0); [done|]. injection S as S. pose proof (Rl (set_h n s0)) as X. rewrite S in X. by eapply X.
    - destruct (calling s0); [done|]. injection S as S. eapply Rl. rewrite S. exact E.
    - destruct (jobs s0); [done|]. injection S as <- <-. by destruct a.
    - destruct (jobs s0) as [|j]; [done|]. pose proof (Rl (set_c (calling s0) j s0)) as X. destruct (release _) as [s3 e3]. injection S as <- <-.
      destruct a as [|? a]; [done|]. injection E as _ E. by eapply X.
    - destruct (workers s0 !! k) as [p|]; [|done]. injection S as S.
      destruct p as [|[|t q]|t q|t q|t|o|[t|]]; cbn [work] in S.
      + destruct m; [destruct (queue (touch s0))|]; injection S as <- <-; by destruct a as [|? []].
      + injection S as <- <-; by destruct a as [|? []].
      + injection S as <- <-; by destruct a as [|? []].
      + injection S as <- <-; by destruct a as [|? []].
      + eapply Ki. rewrite S. exact E.
      + injection S as <- <-; by destruct a as [|? []].
      + injection S as <- <-; by destruct a as [|? []].
      + eapply Ki. rewrite S. exact E.
      + eapply Rl. rewrite S. exact E. }
  intros R E. eapply (G ls init s [] tr); [apply init_inv|done| |exact E]. by intros [].
Qed.
(** *** at rest *)
Lemma finished m ls s tr : run m init ls = Some (s, tr) -> rest s -> drops tr = [] ->
  starts tr = enqs tr /\ ends tr = enqs tr /\ dead tr ≡ₚ enqs tr /\ (handles s = 0 -> frees tr = [tt]).
Proof.
  intros R (C & J & W) D. pose proof (reach m ls s tr R) as I. pose proof (v_token _ _ _ I) as T. rewrite C, J, W, D in T. cbn in T.
  assert (queue s = []) as Q by (apply (v_idle _ _ _ I); by destruct (running s)).
  pose proof (v_fifo _ _ _ I) as F. pose proof (v_ends _ _ _ I) as E. pose proof (v_dead _ _ _ I) as De. rewrite W, Q in F, De. rewrite W in E. cbn in F, E, De. rewrite app_nil_r in F, E.
  rewrite (v_enq _ _ _ I). split; [done|]. split; [congruence|]. split.
  - destruct (freed s); by rewrite app_nil_r in De.
  - intros H. pose proof (v_ref _ _ _ I) as Re. rewrite H, C, J, W, Q in Re. cbn in Re. rewrite carried_nil in Re.
    pose proof (v_free _ _ _ I) as Fe. rewrite Re in Fe. pose proof (v_fr _ _ _ I) as Fr. rewrite Fe in Fr. cbn in Fr.
    destruct (frees tr) as [|[] [|? ?]]; cbn in Fr; try lia. done.
Qed.
Lemma discarded m ls s tr : run m init ls = Some (s, tr) -> rest s -> handles s = 0 -> Forall (fun t => snd t = false) (queue s) -> frees tr = [tt] /\ dead tr ≡ₚ enqs tr.
Proof.
  intros R (C & J & W) H F. pose proof (reach m ls s tr R) as I. pose proof (v_ref _ _ _ I) as Re. rewrite H, C, J, W in Re. cbn in Re.
  assert (carried (queue s) = 0) as K. { clear -F. induction F as [|t l E F IH]; [done|]. by rewrite carried_cons, E, IH. }
  rewrite K in Re. pose proof (v_free _ _ _ I) as Fe. rewrite Re in Fe. pose proof (v_fr _ _ _ I) as Fr. rewrite Fe in Fr. cbn in Fr.
  assert (frees tr = [tt]) as G by (destruct (frees tr) as [|[] [|? ?]]; cbn in Fr; try lia; done). split; [done|].
  apply (gone m ls s tr R). by rewrite G.
Qed.
(** *** what a step starts *)
Lemma starts_burn q : starts (burn q) = [].
Proof. apply others_map. Qed.
Lemma starts_release s : starts (snd (release s)) = [].
Proof. unfold release. destruct (refs s) as [|[|n]]; cbn; [done|apply starts_burn|done]. Qed.
Lemma starts_kill t s : starts (snd (kill t s)) = [].
Proof. unfold kill. destruct (snd t); [|done]. pose proof (starts_release s) as X. destruct (release s). by cbn in *. Qed.
Lemma step_starts m s l s' ev tr : inv m s tr -> step m s l = Some (s', ev) ->
  starts ev = [] \/ exists j, ev = [Started j] /\ flat_map cur (workers s) = [] /\ 0 < total active (workers s).
Proof.
  intros I S. destruct l as [c| | | | | |k]; cbn [step] in S.
  - left. destruct (negb (can_call s)); [done|]. by injection S as <- <-.
  - left. destruct (negb (can_call s)); [done|]. by injection S as <- <-.
  - left. destruct (handles s) as [|n]; [done|]. injection S as S. pose proof (starts_release (set_h n s)) as X. by rewrite S in X.
  - left. destruct (calling s) as [|n]; [done|]. injection S as S. pose proof (starts_release (set_c n (Datatypes.S (jobs s)) (retain (touch s)))) as X. by rewrite S in X.
  - left. destruct (jobs s); [done|]. by injection S as <- <-.
  - left. destruct (jobs s) as [|j]; [done|]. pose proof (starts_release (set_c (calling s) j s)) as X. destruct (release _) as [s3 e3]. by injection S as <- <-.
  - destruct (workers s !! k) as [p|] eqn:K; [|done]. injection S as S. destruct (at_place k p _ K) as (a & b & E & _).
    pose proof (v_token _ _ _ I) as T. pose proof (one_le (running s)) as Ol.
    assert (active p = 1 -> flat_map cur (workers s) = cur p /\ 0 < total active (workers s)) as Al.
    { intros A. rewrite E in *. split; [apply alone; (done || lia)|]. rewrite total_app. cbn. lia. }
    destruct p as [|[|t q]|t q|t q|t|o|[t|]]; cbn [work] in S.
    + destruct m; [destruct (queue (touch s))|]; injection S as <- <-; [by left| |by left]. right. eexists. split; [done|]. by apply Al.
    + left. by injection S as <- <-.
    + right. injection S as <- <-. eexists. split; [done|]. by apply Al.
    + left. by injection S as <- <-.
    + left. pose proof (starts_kill t (put k (Local q) s)) as X. by rewrite S in X.
    + left. by injection S as <- <-.
    + left. by injection S as <- <-.
    + left. pose proof (starts_kill t (put k (Leave None) s)) as X. by rewrite S in X.
    + left. pose proof (starts_release (set_ws (delete k (workers s)) s)) as X. by rewrite S in X.
Qed.
Lemma starts_split tr0 ev a j b : starts ev = [] -> tr0 ++ ev = a ++ Started j :: b -> exists c, tr0 = a ++ Started j :: c.
Proof.
  intros S. revert a. induction tr0 as [|e tr0 IH]; intros a E; cbn in E.
  - exfalso. rewrite E in S. unfold starts in S. rewrite flat_map_app in S. cbn in S. by apply app_nil in S as [_ S].
  - destruct a as [|e' a]; cbn in E; injection E as -> E; [by exists tr0|]. destruct (IH a E) as [c ->]. by exists c.
Qed.
Lemma starts_split1 tr0 i a j b : tr0 ++ [Started i] = a ++ Started j :: b -> (exists c, tr0 = a ++ Started j :: c) \/ a = tr0.
Proof.
  revert a. induction tr0 as [|e tr0 IH]; intros a E; cbn in E.
  - right. destruct a as [|e' a]; [done|]. injection E as _ E. by destruct a.
  - destruct a as [|e' a]; cbn in E; injection E as -> E; [left; by exists tr0|]. destruct (IH a E) as [[c ->]| ->]; [left; by exists c|by right].
Qed.
Lemma one_at_a_time ls s tr tr1 j tr2 : run all init ls = Some (s, tr) -> tr = tr1 ++ Started j :: tr2 -> starts tr1 = dead tr1.
Proof.
  assert (forall ls s0 s tr0 tr, inv all s0 tr0 -> run all s0 ls = Some (s, tr) -> (forall a j b, tr0 = a ++ Started j :: b -> starts a = dead a) ->
    forall a j b, tr0 ++ tr = a ++ Started j :: b -> starts a = dead a) as G.
  { clear. induction ls as [|l ls IH]; intros s0 s tr0 tr I R H a j b E; cbn [run] in R; [injection R as <- <-; rewrite app_nil_r in E; by eapply H|].
    destruct (step all s0 l) as [[s1 ev]|] eqn:S; [|done]. destruct (run all s1 ls) as [[s2 tr2]|] eqn:R2; [|done]. injection R as <- <-.
    rewrite app_assoc in E. eapply IH; [by eapply step_inv|exact R2| |exact E]. clear a j b E R2 IH ls tr2 s2. intros a j b E.
    destruct (step_starts all s0 l s1 ev tr0 I S) as [N|(i & -> & C & A)].
    - destruct (starts_split tr0 ev a j b N E) as [c Ec]. by eapply H.
    - destruct (starts_split1 tr0 i a j b E) as [[c Ec]| ->]; [by eapply H|]. pose proof (v_cur _ _ _ I eq_refl) as X. rewrite C, app_nil_r in X.
      assert (freed s0 = false) as F. { destruct (freed s0) eqn:F; [|done]. by rewrite (stuck all s0 tr0 l I F) in S. } rewrite F, app_nil_r in X. done. }
  intros R E. eapply (G ls init s [] tr); [apply init_inv|done| |exact E]. by intros [].
Qed.
Lemma after_drop m ls s tr ls' s' tr' : run m init ls = Some (s, tr) -> drops tr <> [] -> run m s ls' = Some (s', tr') -> starts tr' = [].
Proof.
  intros R D. pose proof (reach m ls s tr R) as I. clear R ls. revert s tr s' tr' I D. induction ls' as [|l ls IH]; intros s tr s' tr' I D R; cbn [run] in R; [by injection R as <- <-|].
  destruct (step m s l) as [[s1 ev]|] eqn:S; [|done]. destruct (run m s1 ls) as [[s2 tr2]|] eqn:R2; [|done]. injection R as <- <-.
  rewrite (proj1 (proj2 (app_parts ev tr2))). rewrite (IH s1 (tr ++ ev) s2 tr2); [|by eapply step_inv| |done].
  - destruct (step_starts m s l s1 ev tr I S) as [N|(i & -> & C & A)]; [by rewrite N|]. exfalso. pose proof (v_token _ _ _ I) as T. pose proof (one_le (running s)).
    destruct (drops tr); [done|]. cbn in T. lia.
  - rewrite (proj1 (proj2 (proj2 (proj2 (proj2 (app_parts tr ev)))))). intros X. by apply app_nil in X as [X _].
Qed.
(** *** it comes to rest *)
Definition mw (p : pc) : nat :=
  match p with Begun => 1 | Leave None => 1 | Leave (Some _) => 2 | Resubmit _ => 5 | After _ => 6 | Local l => 7 + 3 * length l | Kill _ l => 8 + 3 * length l | Run _ l => 9 + 3 * length l end.
Definition measure (s : st) : nat := 10 * length (queue s) + 3 * calling s + 2 * jobs s + total mw (workers s).
Lemma measure_release s : measure (fst (release s)) = measure s.
Proof. unfold release. by destruct (refs s) as [|[|n]]. Qed.
Lemma measure_kill t s : measure (fst (kill t s)) = measure s.
Proof. unfold kill. destruct (snd t); [|done]. pose proof (measure_release s) as X. destruct (release s). by cbn in *. Qed.
Lemma step_less m s l s' ev tr : inv m s tr -> inner l = true -> step m s l = Some (s', ev) -> measure s' < measure s.
Proof.
  intros I L S. assert (freed s = false) as F. { destruct (freed s) eqn:F; [|done]. by rewrite (stuck m s tr l I F) in S. }
  destruct l as [c| | | | | |k]; try done; cbn [step] in S.
  - destruct (calling s) as [|n] eqn:C; [done|]. injection S as S. pose proof (measure_release (set_c n (Datatypes.S (jobs s)) (retain (touch s)))) as X. rewrite S in X. cbn [fst] in X. rewrite X.
    rewrite touch_ok by done. unfold measure. norm. rewrite C. lia.
  - destruct (jobs s) as [|n] eqn:J; [done|]. injection S as <- <-. unfold measure. norm. rewrite J, total_app. cbn. lia.
  - destruct (workers s !! k) as [p|] eqn:K; [|done]. injection S as S.
    assert (forall q, total mw (<[k := q]> (workers s)) + mw p = total mw (workers s) + mw q) as Ti by (intros; by apply total_insert).
    pose proof (v_need _ _ _ I) as Nd. pose proof (v_fits _ _ _ I) as Fi. rewrite Forall_lookup in Fi. specialize (Fi k p K).
    destruct (at_place k p _ K) as (a & b & E & _ & D & _).
    assert (total needs (workers s) = total needs a + needs p + total needs b) as TN by (rewrite E, total_app; cbn; lia).
    assert (total mw (workers s) = total mw a + mw p + total mw b) as TM by (rewrite E, total_app; cbn; lia).
    destruct p as [|[|t q]|t q|t q|t|o|[t|]]; cbn [work] in S; rewrite ?touch_ok in S by done.
    + assert (queue s <> []) as Q by (apply Nd; cbn in TN; lia). destruct m; [destruct (queue s) as [|t q] eqn:Eq; [done|]|]; injection S as <- <-; unfold measure; norm.
      * specialize (Ti (Run t [])). rewrite Eq. cbn in *. lia.
      * specialize (Ti (Local (queue s))). destruct (queue s); [done|]. cbn in *. lia.
    + injection S as <- <-. unfold at_end. destruct (queue s) eqn:Eq; unfold measure; norm; rewrite ?Eq; [specialize (Ti (Leave None))|specialize (Ti (Resubmit None))]; cbn in *; lia.
    + injection S as <- <-. unfold measure. norm. specialize (Ti (Run t q)). cbn in *. lia.
    + injection S as <- <-. unfold measure. norm. destruct m; [specialize (Ti (After t))|specialize (Ti (Kill t q))]; cbn in *; lia.
    + pose proof (measure_kill t (put k (Local q) s)) as X. rewrite S in X. cbn [fst] in X. rewrite X. unfold measure. norm. specialize (Ti (Local q)). cbn in *. lia.
    + injection S as <- <-. unfold at_end. destruct (queue s) eqn:Eq; unfold measure; norm; rewrite ?Eq; [specialize (Ti (Leave (Some t)))|specialize (Ti (Resubmit (Some t)))]; cbn in *; lia.
    + injection S as <- <-. unfold measure. norm. specialize (Ti (Leave o)). destruct o; cbn in *; lia.
    + pose proof (measure_kill t (put k (Leave None) s)) as X. rewrite S in X. cbn [fst] in X. rewrite X. unfold measure. norm. specialize (Ti (Leave None)). cbn in *. lia.
    + pose proof (measure_release (set_ws (delete k (workers s)) s)) as X. rewrite S in X. cbn [fst] in X. rewrite X. unfold measure. norm. rewrite D, total_app. cbn in TM. lia.
Qed.
Lemma ends_always m ls s tr : run m init ls = Some (s, tr) -> Acc (fun s' s => exists l ev, inner l = true /\ step m s l = Some (s', ev)) s.
Proof.
  intros R. pose proof (reach m ls s tr R) as I. clear R ls. remember (measure s) as n eqn:E. revert s tr I E. induction n as [n IH] using lt_wf_ind. intros s tr I ->.
  constructor. intros s' (l & ev & L & S). eapply IH; [by eapply step_less|by eapply step_inv|done].
Qed.
Lemma rest_iff m s : rest s <-> forall l, inner l = true -> step m s l = None.
Proof.
  split.
  - intros (C & J & W) [] L; try done; cbn [step]; by rewrite ?C, ?J, ?W.
  - intros H. pose proof (H Submit eq_refl) as H1. pose proof (H Begin eq_refl) as H2. pose proof (H (Work 0) eq_refl) as H3. cbn [step] in *.
    split_and!; [by destruct (calling s)|by destruct (jobs s)|by destruct (workers s)].
Qed.
