From Coq Require Import List Bool NArith Lia.
From stdpp Require Import list.
From Verif.When Require Import Model Spec Proof.

Local Arguments Nat.eqb : simpl never.

Definition attached (n : nat) (s : st) (i : nat) : Prop := match att s with Some (k, _) => i < k | None => i < n end.

Record inv (v : variant) (vd : nat -> bool) (n : nat) (tr : list event) (s : st) : Prop := Inv {
  i_len : length (conts s) = n;
  i_slen : length (slots s) = n;
  i_good : good n (arrivals tr);
  i_done : forall i, conts s !! i = Some Done <-> i ∈ (arrivals tr).*1;
  i_cx : cx s = ctx_of v n (arrivals tr);
  i_trig : length (trig s) + (if tok s then 0 else 1) = match spec v n vd (arrivals tr) with Some _ => 1 | None => 0 end;
  i_body : body s <> None -> tok s = false /\ fn s = true;
  i_tokfn : tok s = true -> fn s = kept_r s;
  i_fnbody : tok s = false -> body s = None -> fn s = false;
  i_resn : tok s = true -> results tr = [];
  i_resd : tok s = false -> exists r, spec v n vd (arrivals tr) = Some r /\ (results tr = [r] \/ results tr = [] /\ kept_r s = false);
  i_kept : kept_r s = false <-> Dropped ∈ tr;
  i_att : match att s with
          | Some (k, b) => k < n /\ kept_r s = true /\ forall i, conts s !! i = Some NotYet <-> i < n /\ (if b : bool then k < i else k <= i)
          | None => forall i, conts s !! i <> Some NotYet
          end;
  i_slots : spec v n vd (arrivals tr) = None -> forall i, attached n s i -> slots s !! i = Some true;
  i_lost : forall i, conts s !! i = Some Lost -> LostCont i ∈ tr;
  i_gone : forall i, conts s !! i = Some Gone -> fn s = false /\ att s = None;
  i_pre : forall t1 r t2, tr = t1 ++ Result r :: t2 -> spec v n vd (arrivals t1) = Some r;
  i_ub : Ub ∉ tr
}.

Lemma arr_app t1 t2 : arrivals (t1 ++ t2) = arrivals t1 ++ arrivals t2.
Proof. apply omap_app. Qed.
Lemma res_app t1 t2 : results (t1 ++ t2) = results t1 ++ results t2.
Proof. apply omap_app. Qed.
Lemma in_app_l {A} (x : A) l k : x ∈ l -> x ∈ l ++ k. Proof. intros. apply elem_of_app. by left. Qed.

Lemma inv_init v vd n : 0 < n -> inv v vd n [] (init n).
Proof.
  intros Hn. assert (spec v n vd [] = None) as HS.
  { destruct n; [lia|by destruct v]. }
  split; simpl; try done; try (by rewrite replicate_length).
  - split; [by apply NoDup_nil|by intros i ?%elem_of_nil].
  - intros i. split; [|by intros ?%elem_of_nil]. intros [? _]%lookup_replicate_1. done.
  - by rewrite HS.
  - split; [done|by intros ?%elem_of_nil].
  - split; [done|]. split; [done|]. intros i. split; [intros [_ ?]%lookup_replicate_1; lia|]. intros [? _]. by apply lookup_replicate_2.
  - intros _ i H. unfold attached in H. simpl in H. lia.
  - by intros i [? _]%lookup_replicate_1.
  - by intros i [? _]%lookup_replicate_1.
  - by intros [] ? ? ?.
  - by intros ?%elem_of_nil.
Qed.

(** events that change neither arrivals nor results *)
Lemma pre_quiet v vd n tr e : (forall r, Result r ∉ e) -> (forall t1 r t2, tr = t1 ++ Result r :: t2 -> spec v n vd (arrivals t1) = Some r) ->
  forall t1 r t2, tr ++ e = t1 ++ Result r :: t2 -> spec v n vd (arrivals t1) = Some r.
Proof.
  intros N H t1 r t2 E. apply app_eq_inv in E as [(k & -> & E)|(k & -> & E)].
  - destruct k as [|x k]; [|by simplify_list_eq; eapply H]. simpl in E. destruct (N r). rewrite <- E. by left.
  - destruct (N r). rewrite E. apply elem_of_app. right. by left.
Qed.
Lemma not_done (l : list cont) i j c : l !! i = Some c -> <[i := c]> l !! j = l !! j.
Proof. intros H. destruct (decide (i = j)) as [->|]; [by rewrite list_lookup_insert by (by eapply lookup_lt_Some); rewrite H|by rewrite list_lookup_insert_ne]. Qed.
Lemma look_ins (l : list cont) i j c c' d : l !! i = Some c -> <[i := c']> l !! j = Some d <-> (i = j /\ c' = d) \/ (i <> j /\ l !! j = Some d).
Proof.
  intros H. destruct (decide (i = j)) as [->|N].
  - rewrite list_lookup_insert by (by eapply lookup_lt_Some). split; [intros [= ->]; auto|]. intros [[_ ->]|[? _]]; done.
  - rewrite list_lookup_insert_ne by done. split; [auto|]. intros [[? _]|[_ ?]]; done.
Qed.

Lemma ny_keep (l : list cont) i j c c' : l !! i = Some c -> c <> NotYet -> c' <> NotYet -> <[i := c']> l !! j = Some NotYet <-> l !! j = Some NotYet.
Proof.
  intros C N N'. rewrite (look_ins _ _ _ _ _ _ C). split; [by intros [[_ ?]|[_ ?]]|]. intros H. right. split; [congruence|done].
Qed.

Lemma inv_step v vd n tr s l s' e : 0 < n -> inv v vd n tr s -> step v vd s l = Some (s', e) -> inv v vd n (tr ++ e) s'.
Proof.
  intros Hn I H. destruct l as [| |i o|i|i| | | |i]; simpl in H.
  - (* LRecover *)
    destruct (att s) as [[k []]|] eqn:A; [done| |done]. simplify_eq. rewrite app_nil_r. destruct I. rewrite A in *. destruct i_att0 as (Hk & Hr & HN).
    assert (conts s !! k = Some NotYet) as HK by (apply HN; lia).
    split; simpl; rewrite ?insert_length; auto.
    + intros i. rewrite (look_ins _ _ _ _ _ _ HK), <- i_done0. split; [intros [[_ ?]|[_ ?]]; done|]. intros Hd. right. split; [congruence|done].
    + split; [done|]. split; [done|]. intros i. split; [intros HH; apply (look_ins _ _ _ _ _ _ HK) in HH as [[_ ?]|[? HH]]; [done|]; apply HN in HH; lia|].
      intros [? ?]. apply (look_ins _ _ _ _ _ _ HK). right. split; [lia|]. apply HN. lia.
    + intros Hs i Hi. unfold attached in *. simpl in *. rewrite A in *. auto.
    + intros i HH. apply (look_ins _ _ _ _ _ _ HK) in HH as [[_ ?]|[? HH]]; [done|auto].
    + intros i HH. apply (look_ins _ _ _ _ _ _ HK) in HH as [[_ ?]|[? HH]]; [done|]. apply i_gone0 in HH as [_ ?]. done.
  - (* LHold *)
    destruct (att s) as [[k []]|] eqn:A; [|done|done]. destruct (locked s); [done|]. simplify_eq. rewrite app_nil_r. destruct I. rewrite A in *. destruct i_att0 as (Hk & Hr & HN).
    split; simpl; rewrite ?insert_length; auto.
    + rewrite i_len0. destruct (Nat.eqb_spec (S k) n) as [E|E].
      * intros i Hi%HN. lia.
      * split; [lia|]. split; [done|]. intros i. rewrite HN. lia.
    + intros Hs i Hi. unfold attached in *. simpl in *. rewrite A in *. rewrite i_len0 in Hi.
      assert (i <= k) as Hik by (destruct (Nat.eqb_spec (S k) n); lia). destruct (decide (i = k)) as [->|].
      * apply list_lookup_insert. lia.
      * rewrite list_lookup_insert_ne by done. apply i_slots0; [done|lia].
    + intros i Hg. apply i_gone0 in Hg as [_ ?]. done.
  - (* LStart *)
    destruct (conts s !! i) as [[]|] eqn:C; try done. destruct (held s i); [|done]. simplify_eq. rewrite app_nil_r. destruct I. unfold upd_conts.
    split; simpl; rewrite ?insert_length; auto.
    + intros j. rewrite (look_ins _ _ _ _ _ _ C), <- i_done0. split; [intros [[_ ?]|[_ ?]]; done|]. intros Hd. right. split; [congruence|done].
    + destruct (att s) as [[k b]|].
      * destruct i_att0 as (Hk & Hr & HN). split; [done|]. split; [done|]. intros j. by rewrite (ny_keep _ _ _ _ _ C), HN.
      * intros j HH. apply (look_ins _ _ _ _ _ _ C) in HH as [[_ ?]|[_ HH]]; [done|by eapply i_att0].
    + intros j HH. apply (look_ins _ _ _ _ _ _ C) in HH as [[_ ?]|[_ HH]]; [done|auto].
    + intros j HH. apply (look_ins _ _ _ _ _ _ C) in HH as [[_ ?]|[_ HH]]; [done|eauto].
  - (* LLock *)
    destruct (conts s !! i) as [[]|] eqn:C; try done. simplify_eq. rewrite app_nil_r. destruct I. unfold upd_conts.
    assert (forall b : bool, (if b then Lock o else Gone) <> Done /\ (if b then Lock o else Gone) <> NotYet /\ (if b then Lock o else Gone) <> Lost) as HB by (by intros []).
    destruct (HB (alive s)) as (B1 & B2 & B3).
    split; simpl; rewrite ?insert_length; auto.
    + intros j. rewrite (look_ins _ _ _ _ _ _ C), <- i_done0. split; [intros [[_ ?]|[_ ?]]; done|]. intros Hd. right. split; [congruence|done].
    + destruct (att s) as [[k b]|].
      * destruct i_att0 as (Hk & Hr & HN). split; [done|]. split; [done|]. intros j. by rewrite (ny_keep _ _ _ _ _ C), HN.
      * intros j HH. apply (look_ins _ _ _ _ _ _ C) in HH as [[_ ?]|[_ HH]]; [done|by eapply i_att0].
    + intros j HH. apply (look_ins _ _ _ _ _ _ C) in HH as [[_ ?]|[_ HH]]; [done|auto].
    + intros j HH. apply (look_ins _ _ _ _ _ _ C) in HH as [[_ HH]|[_ HH]]; [|eauto]. destruct (alive s) eqn:AL; [done|].
      unfold alive in AL. apply orb_false_iff in AL as [AL _]. apply orb_false_iff in AL as [AL _]. apply orb_false_iff in AL as [AL _].
      apply orb_false_iff in AL as [AA AF]. split; [done|]. by destruct (att s).
  - (* LCrit *)
    destruct (conts s !! i) as [[]|] eqn:C; try done. destruct (locked s) eqn:LK; [done|]. injection H as <- <-. destruct I.
    set (e := match body s with Some _ => _ | None => _ end).
    assert (i < n) as Hi by (rewrite <- i_len0; by eapply lookup_lt_Some).
    assert (i ∉ (arrivals tr).*1) as Hni by (rewrite <- i_done0, C; done).
    assert (arrivals (tr ++ Arrived i o :: e) = arrivals tr ++ [(i, o)]) as EA.
    { rewrite arr_app. f_equal. subst e. destruct (body s); [|done]. by case_bool_decide. }
    assert (results (tr ++ Arrived i o :: e) = results tr) as ER.
    { rewrite res_app. subst e. destruct (body s); [case_bool_decide|]; apply app_nil_r. }
    assert (good n (arrivals tr ++ [(i, o)])) as G' by (by apply good_snoc).
    assert (e = []) as He.
    { subst e. destruct (body s) eqn:B; [|done]. rewrite bool_decide_true; [done|]. destruct (i_body0 ltac:(done)) as [T _].
      destruct (i_resd0 T) as (r & Hr & _). rewrite i_cx0, <- ctx_snoc. rewrite (apply_spec v vd n _ r) by (done || by apply spec_stable).
      by rewrite (apply_spec v vd n _ r). }
    split; rewrite ?EA, ?ER; simpl; rewrite ?insert_length, ?imap_length; auto.
    + intros j. rewrite (look_ins _ _ _ _ _ _ C), fmap_app, elem_of_app, <- i_done0. change ([(i, o)].*1) with [i]. rewrite elem_of_list_singleton.
      split; [intros [[-> _]|[_ ?]]; auto|]. intros [Hd| ->]; [right|by left]. split; [congruence|done].
    + by rewrite i_cx0, ctx_snoc.
    + rewrite app_length, i_cx0, (run_spec v vd n) by done. destruct (spec v n vd (arrivals tr)) as [r|] eqn:SP.
      * rewrite (spec_stable _ _ _ _ _ _ _ G' SP). simpl. lia.
      * destruct (spec v n vd (arrivals tr ++ [(i, o)])); simpl; lia.
    + intros T. destruct (i_resd0 T) as (r & Hr & HR). exists r. split; [by apply spec_stable|done].
    + rewrite He. rewrite i_kept0. rewrite elem_of_app, elem_of_list_singleton. split; [auto|]. by intros [?|?].
    + destruct (att s) as [[k b]|].
      * destruct i_att0 as (Hk & Hr & HN). split; [done|]. split; [done|]. intros j. by rewrite (ny_keep _ _ _ _ _ C), HN.
      * intros j HH. apply (look_ins _ _ _ _ _ _ C) in HH as [[_ ?]|[_ HH]]; [done|by eapply i_att0].
    + intros Hs j Hj. assert (spec v n vd (arrivals tr) = None) as SP.
      { destruct (spec v n vd (arrivals tr)) eqn:SP; [|done]. by rewrite (spec_stable _ _ _ _ _ _ _ G' SP) in Hs. }
      rewrite list_lookup_imap. rewrite (i_slots0 SP j) by (by unfold attached in *). simpl. f_equal.
      assert ((arrive v i o (ctx_of v n (arrivals tr))).2 = false) as RF by (by rewrite (run_spec v vd n), SP, Hs).
      rewrite i_cx0. destruct v, o; simpl in *; try done.
      * by destruct (exc (ctx_of PackAll n (arrivals tr))).
      * by destruct (single (ctx_of RangeAll n (arrivals tr))).
      * by destruct (single (ctx_of RangeAny n (arrivals tr))).
    + intros j HH. apply (look_ins _ _ _ _ _ _ C) in HH as [[_ ?]|[_ HH]]; [done|]. by apply in_app_l, i_lost0.
    + intros j HH. apply (look_ins _ _ _ _ _ _ C) in HH as [[_ HH]|[_ HH]]; [done|eauto].
    + apply pre_quiet; [|done]. rewrite He. intros r ?%elem_of_list_singleton. done.
    + rewrite He, elem_of_app, elem_of_list_singleton. by intros [?|?].
  - (* LCall *)
    destruct (trig s) as [|[i b] ts] eqn:T; [done|]. destruct I. rewrite T in *. simpl in i_trig0.
    assert (tok s = true) as TK by (destruct (tok s); [done|]; destruct (spec v n vd (arrivals tr)); lia).
    assert (body s = None) as B by (destruct (body s); [|done]; destruct (i_body0 ltac:(done)); congruence).
    assert (exists r, spec v n vd (arrivals tr) = Some r) as (r & SP) by (destruct (spec v n vd (arrivals tr)); [eauto|lia]).
    rewrite B, TK in *. destruct (fn s) eqn:F; simplify_eq.
    + assert (apply v vd (cx s) = r) as AP by (rewrite i_cx0; by apply apply_spec). rewrite AP.
      assert (arrivals (tr ++ [Result r]) = arrivals tr) as EA by (rewrite arr_app; apply app_nil_r).
      split; rewrite ?EA; simpl; auto.
      * rewrite SP in *. lia.
      * done.
      * done.
      * intros _. exists r. split; [done|]. left. by rewrite res_app, i_resn0.
      * rewrite i_kept0, elem_of_app, elem_of_list_singleton. split; [auto|]. by intros [?|?].
      * intros. by apply in_app_l, i_lost0.
      * intros t1 r' t2 E. apply app_eq_inv in E as [(k & -> & E)|(k & -> & E)].
        -- destruct k as [|x k]; simpl in E; [|by simplify_eq; eapply i_pre0]. rewrite app_nil_r in SP. congruence.
        -- destruct k as [|x k]; simpl in E; [rewrite app_nil_r; congruence|]. injection E as _ E. by destruct k.
      * rewrite elem_of_app, elem_of_list_singleton. by intros [?|?].
    + rewrite app_nil_r. assert (kept_r s = false) as K by (by rewrite <- i_tokfn0).
      split; simpl; auto.
      * rewrite SP in *. lia.
      * intros _. exists r. auto.
  - (* LEnd *)
    destruct (body s) as [p|] eqn:B; [|done]. simplify_eq. rewrite app_nil_r. destruct I. destruct (i_body0 ltac:(congruence)) as [T F].
    split; simpl; auto; try congruence.
    intros j Hj. split; [done|]. by eapply i_gone0.
  - (* LDrop *)
    destruct (att s) eqn:A; [done|]. destruct (kept_r s) eqn:K; [|done]. simplify_eq. destruct I. rewrite A in *.
    assert (arrivals (tr ++ [Dropped]) = arrivals tr) as EA by (rewrite arr_app; apply app_nil_r).
    assert (results (tr ++ [Dropped]) = results tr) as ER by (rewrite res_app; apply app_nil_r).
    split; rewrite ?EA, ?ER; simpl; auto.
    + intros HB. destruct (i_body0 HB). by destruct (body s).
    + intros T. destruct (body s) eqn:B; [|done]. destruct (i_body0 ltac:(done)). congruence.
    + intros _ HB. by rewrite HB.
    + intros T. destruct (i_resd0 T) as (r & ? & [?|[? ?]]); eauto.
    + split; [|done]. intros _. apply elem_of_app. right. by left.
    + intros Hs i Hi. unfold attached in *. simpl in *. apply i_slots0; [done|]. by rewrite A.
    + intros. by apply in_app_l, i_lost0.
    + intros j Hj. destruct (i_gone0 _ Hj) as [G _]. rewrite G. split; [|done]. by destruct (body s).
    + apply pre_quiet; [|done]. by intros r ?%elem_of_list_singleton.
    + rewrite elem_of_app, elem_of_list_singleton. by intros [?|?].
  - (* LLose *)
    destruct (conts s !! i) as [[]|] eqn:C; try done. destruct (held s i); [|done]. simplify_eq. destruct I. unfold upd_conts.
    assert (arrivals (tr ++ [LostCont i]) = arrivals tr) as EA by (rewrite arr_app; apply app_nil_r).
    assert (results (tr ++ [LostCont i]) = results tr) as ER by (rewrite res_app; apply app_nil_r).
    split; rewrite ?EA, ?ER; simpl; rewrite ?insert_length; auto.
    + intros j. rewrite (look_ins _ _ _ _ _ _ C), <- i_done0. split; [intros [[_ ?]|[_ ?]]; done|]. intros Hd. right. split; [congruence|done].
    + rewrite i_kept0, elem_of_app, elem_of_list_singleton. split; [auto|]. by intros [?|?].
    + destruct (att s) as [[k b]|].
      * destruct i_att0 as (Hk & Hr & HN). split; [done|]. split; [done|]. intros j. by rewrite (ny_keep _ _ _ _ _ C), HN.
      * intros j HH. apply (look_ins _ _ _ _ _ _ C) in HH as [[_ ?]|[_ HH]]; [done|by eapply i_att0].
    + intros j HH. apply (look_ins _ _ _ _ _ _ C) in HH as [[-> _]|[_ HH]]; [apply elem_of_app; right; by left|by apply in_app_l, i_lost0].
    + intros j HH. apply (look_ins _ _ _ _ _ _ C) in HH as [[_ ?]|[_ HH]]; [done|eauto].
    + apply pre_quiet; [|done]. by intros r ?%elem_of_list_singleton.
    + rewrite elem_of_app, elem_of_list_singleton. by intros [?|?].
Qed.

Lemma run_inv v vd n ls : 0 < n -> forall s tr s' e, inv v vd n tr s -> run v vd s ls = Some (s', e) -> inv v vd n (tr ++ e) s'.
Proof.
  intros Hn. induction ls as [|l ls IH]; intros s tr s' e I H; simpl in H; [simplify_eq; by rewrite app_nil_r|].
  destruct (step v vd s l) as [[s1 e1]|] eqn:S; [|done]. destruct (run v vd s1 ls) as [[s2 e2]|] eqn:R; [|done]. simplify_eq.
  rewrite app_assoc. eapply IH; [|done]. by eapply inv_step.
Qed.
Lemma reach_inv v vd n ls s tr : 0 < n -> run v vd (init n) ls = Some (s, tr) -> inv v vd n tr s.
Proof. intros Hn R. apply (run_inv v vd n ls Hn _ [] _ _ (inv_init _ _ _ Hn) R). Qed.

(** ** the theorems *)
Section thms.
  Context (v : variant) (vd : nat -> bool) (n : nat) (Hn : 0 < n) (ls : list label) (s : st) (tr : list event).
  Context (R : run v vd (init n) ls = Some (s, tr)).

  Lemma t_prefix t1 r t2 : tr = t1 ++ Result r :: t2 -> spec v n vd (arrivals t1) = Some r.
  Proof. apply (i_pre _ _ _ _ _ (reach_inv _ _ _ _ _ _ Hn R)). Qed.
  Lemma t_once : length (results tr) <= 1.
  Proof.
    pose proof (reach_inv _ _ _ _ _ _ Hn R) as I. destruct (tok s) eqn:T.
    - rewrite (i_resn _ _ _ _ _ I T). simpl. lia.
    - destruct (i_resd _ _ _ _ _ I T) as (r & _ & [-> |[-> _]]); simpl; lia.
  Qed.
  Lemma t_arrivals : NoDup (arrivals tr).*1 /\ forall i, i ∈ (arrivals tr).*1 -> i < n.
  Proof. pose proof (reach_inv _ _ _ _ _ _ Hn R) as I. destruct (i_good _ _ _ _ _ I). done. Qed.
  Lemma t_no_ub : Ub ∉ tr /\ Result RUb ∉ tr.
  Proof.
    pose proof (reach_inv _ _ _ _ _ _ Hn R) as I. split; [apply (i_ub _ _ _ _ _ I)|].
    intros (t1 & t2 & E)%elem_of_list_split. apply t_prefix in E. destruct v; simpl in E; unfold spec_all, spec_any in E; repeat case_match; done.
  Qed.
  Lemma t_settled r : at_rest s -> Dropped ∉ tr -> spec v n vd (arrivals tr) = Some r -> Result r ∈ tr.
  Proof.
    intros (_ & T & _) D SP. pose proof (reach_inv _ _ _ _ _ _ Hn R) as I. pose proof (i_trig _ _ _ _ _ I) as C. rewrite T, SP in C. simpl in C.
    destruct (tok s) eqn:TK; [lia|]. destruct (i_resd _ _ _ _ _ I TK) as (r' & SP' & HR). rewrite SP in SP'. simplify_eq.
    destruct HR as [HR|[_ K]]; [|by apply (i_kept _ _ _ _ _ I) in K].
    assert (r' ∈ results tr) as H by (rewrite HR; by left). unfold results in H. apply elem_of_list_omap in H as (e & He & Hr). destruct e; simplify_eq. done.
  Qed.
  Lemma t_waiting i : Dropped ∉ tr -> att s = None -> spec v n vd (arrivals tr) = None -> i < n -> i ∉ (arrivals tr).*1 ->
    LostCont i ∈ tr \/ (exists o, conts s !! i = Some (Begun o) \/ conts s !! i = Some (Lock o)) \/ forall o, exists s', step v vd s (LStart i o) = Some (s', []).
  Proof.
    intros D A SP Hi Hni. pose proof (reach_inv _ _ _ _ _ _ Hn R) as I. pose proof (i_trig _ _ _ _ _ I) as C. rewrite SP in C.
    destruct (tok s) eqn:TK; [|lia]. assert (kept_r s = true) as K by (destruct (kept_r s) eqn:K; [done|by apply (i_kept _ _ _ _ _ I) in K]).
    pose proof (i_tokfn _ _ _ _ _ I TK) as F. rewrite K in F.
    destruct (lookup_lt_is_Some_2 (conts s) i) as (c & Hc); [by rewrite (i_len _ _ _ _ _ I)|].
    destruct c.
    - pose proof (i_att _ _ _ _ _ I) as HA. rewrite A in HA. by apply HA in Hc.
    - right. right. intros o. eexists. simpl. rewrite Hc. unfold held, alive. rewrite F, orb_true_r. simpl.
      rewrite (i_slots _ _ _ _ _ I SP i); [done|]. unfold attached. by rewrite A.
    - eauto.
    - eauto.
    - by apply (i_done _ _ _ _ _ I) in Hc.
    - apply (i_gone _ _ _ _ _ I) in Hc as [? _]. congruence.
    - left. by apply (i_lost _ _ _ _ _ I).
  Qed.
  Lemma t_released i : at_rest s -> Dropped ∈ tr \/ spec v n vd (arrivals tr) <> None -> held s i = false.
  Proof.
    intros (A & T & B & Q) D. pose proof (reach_inv _ _ _ _ _ _ Hn R) as I. assert (fn s = false) as F.
    { destruct (tok s) eqn:TK; [|by apply (i_fnbody _ _ _ _ _ I)].
      pose proof (i_trig _ _ _ _ _ I) as C. rewrite T, TK in C. simpl in C. destruct D as [D|D]; [|by destruct (spec v n vd (arrivals tr))].
      rewrite (i_tokfn _ _ _ _ _ I TK). by apply (i_kept _ _ _ _ _ I). }
    assert (existsb (fun c => match c with Lock _ => true | _ => false end) (conts s) = false) as L.
    { apply not_true_iff_false. intros (c & Hc & Hl)%existsb_exists. apply elem_of_list_In, Q in Hc. by destruct c. }
    unfold held, alive. rewrite A, T, B, F, L. simpl. destruct (conts s !! i) as [c|] eqn:E; [|done].
    apply elem_of_list_lookup_2, Q in E. by destruct c.
  Qed.
  (** whatever is in progress can go on *)
  Lemma t_progress : ~ at_rest s ->
    exists l s' e, step v vd s l = Some (s', e) /\ match l with LRecover | LHold | LLock _ | LCrit _ | LCall | LEnd => True | _ => False end.
  Proof.
    intros Q. pose proof (reach_inv _ _ _ _ _ _ Hn R) as I. destruct (body s) as [p|] eqn:B; [exists LEnd; simpl; rewrite B; eauto|].
    destruct (trig s) as [|[i b] ts] eqn:T.
    - assert (locked s = false) as LK by (unfold locked; by rewrite T, B).
      destruct (att s) as [[k []]|] eqn:A; [exists LHold; simpl; rewrite A, LK; eauto|exists LRecover; simpl; rewrite A; eauto|].
      destruct (decide (Exists (fun c => match c with Begun _ | Lock _ => true | _ => false end = true) (conts s))) as [E|E].
      + apply Exists_exists in E as (c & Hc & Hb). apply elem_of_list_lookup in Hc as (i & Hi). destruct c; try done.
        * exists (LLock i). simpl. rewrite Hi. eauto.
        * exists (LCrit i). simpl. rewrite Hi, LK. eauto.
      + destruct Q. repeat split; auto. intros c Hc. destruct c; try done; destruct E; apply Exists_exists; eauto.
    - exists LCall. simpl. rewrite T, B. destruct (tok s), (fn s); eauto.
  Qed.
End thms.

(** every execution is finite *)
Definition weight (c : cont) : nat := match c with NotYet => 3 | Wait => 3 | Begun _ => 2 | Lock _ => 1 | _ => 0 end.
Definition wsum (l : list cont) : nat := foldr (fun c k => weight c + k) 0 l.
Definition measure (n : nat) (s : st) : nat :=
  wsum (conts s) + match att s with None => 0 | Some (k, b) => 2 * (n - k) - (if b : bool then 1 else 0) end +
  (if tok s then 1 else 0) + match body s with Some _ => 1 | None => 0 end + (if tok s then 1 else 0) + (if kept_r s then 1 else 0).
Lemma sum_ins l i c c' : l !! i = Some c -> wsum (<[i := c']> l) + weight c = wsum l + weight c'.
Proof.
  revert i. induction l as [|x l IH]; intros [|i] H; simpl in *; [done|done|simplify_eq; lia|]. specialize (IH _ H). lia.
Qed.
Lemma measure_step v vd n tr s l s' e : inv v vd n tr s -> step v vd s l = Some (s', e) -> S (measure n s') <= measure n s.
Proof.
  intros I H. unfold measure. destruct l as [| |i o|i|i| | | |i]; simpl in H.
  - destruct (att s) as [[k []]|] eqn:A; [done| |done]. simplify_eq. simpl. pose proof (i_att _ _ _ _ _ I) as HA. rewrite A in HA. destruct HA as (Hk & _ & HN).
    assert (conts s !! k = Some NotYet) as HK by (apply HN; lia). pose proof (sum_ins _ _ _ Wait HK). simpl in *. lia.
  - destruct (att s) as [[k []]|] eqn:A; [|done|done]. destruct (locked s); [done|]. simplify_eq. simpl. pose proof (i_att _ _ _ _ _ I) as HA. rewrite A in HA. destruct HA as (Hk & _ & HN).
    destruct (S k =? length (conts s)); lia.
  - destruct (conts s !! i) as [[]|] eqn:C; try done. destruct (held s i); [|done]. simplify_eq. simpl. pose proof (sum_ins _ _ _ (Begun o) C). simpl in *. lia.
  - destruct (conts s !! i) as [[]|] eqn:C; try done. simplify_eq. simpl. pose proof (sum_ins _ _ _ (if alive s then Lock o else Gone) C). destruct (alive s); simpl in *; lia.
  - destruct (conts s !! i) as [[]|] eqn:C; try done. destruct (locked s) eqn:LK; [done|]. injection H as <- <-. simpl. pose proof (sum_ins _ _ _ Done C). simpl in *. lia.
  - destruct (trig s) as [|[i b] ts] eqn:T; [done|]. pose proof (i_trig _ _ _ _ _ I) as C. rewrite T in C. simpl in C.
    assert (tok s = true) as TK by (destruct (tok s); [done|]; destruct (spec v n vd (arrivals tr)); lia).
    assert (body s = None) as B by (destruct (body s) eqn:B; [|done]; destruct (i_body _ _ _ _ _ I ltac:(by rewrite B)); congruence).
    rewrite TK, B in *. destruct (fn s); simplify_eq; simpl; lia.
  - destruct (body s) as [p|] eqn:B; [|done]. simplify_eq. simpl. lia.
  - destruct (att s) eqn:A; [done|]. destruct (kept_r s) eqn:K; [|done]. simplify_eq. simpl. lia.
  - destruct (conts s !! i) as [[]|] eqn:C; try done. destruct (held s i); [|done]. simplify_eq. simpl. pose proof (sum_ins _ _ _ Lost C). simpl in *. lia.
Qed.
Lemma t_finite v vd n ls s tr : 0 < n -> run v vd (init n) ls = Some (s, tr) -> length ls <= 5 * n + 3.
Proof.
  intros Hn R. assert (forall ls s0 tr0 s' e, inv v vd n tr0 s0 -> run v vd s0 ls = Some (s', e) -> length ls <= measure n s0) as H.
  { clear - Hn. intros ls. induction ls as [|l ls IH]; intros s0 tr0 s' e I R; simpl in *; [lia|].
    destruct (step v vd s0 l) as [[s1 e1]|] eqn:S; [|done]. destruct (run v vd s1 ls) as [[s2 e2]|] eqn:R2; [|done].
    pose proof (measure_step _ _ _ _ _ _ _ _ I S). pose proof (IH _ _ _ _ (inv_step _ _ _ _ _ _ _ _ Hn I S) R2). lia. }
  apply (H _ _ [] _ _ (inv_init _ _ _ Hn)) in R. unfold measure in R. simpl in R.
  assert (wsum (replicate n NotYet) = 3 * n) as E by (clear; induction n; simpl in *; lia). lia.
Qed.

(** The holds are dropped at once with the first failure (when_all), the first success (when_any over a range). *)
Lemma t_release_now v vd n ls s tr i o s' e : 0 < n -> run v vd (init n) ls = Some (s, tr) -> spec v n vd (arrivals tr) = None ->
  conts s !! i = Some (Lock o) -> step v vd s (LCrit i) = Some (s', e) ->
  match v, o with PackAll, Exc _ | RangeAll, Exc _ | RangeAny, Val _ => True | _, _ => False end ->
  forall j, j <> i -> held s' j = true -> att s = Some (j, true) \/ exists o', conts s !! j = Some (Begun o') \/ conts s !! j = Some (Lock o').
Proof.
  intros Hn R SP C H Hv j Hj Hh. pose proof (reach_inv _ _ _ _ _ _ Hn R) as I. simpl in H. rewrite C in H. destruct (locked s); [done|]. injection H as <- _.
  pose proof (i_good _ _ _ _ _ I) as G. pose proof (i_trig _ _ _ _ _ I) as TR. rewrite SP in TR.
  assert (trig s = []) as T by (destruct (trig s); [done|simpl in TR; lia]).
  assert (body s = None) as B. { destruct (body s) eqn:B; [|done]. destruct (i_body _ _ _ _ _ I ltac:(by rewrite B)) as [TK _]. rewrite TK in TR. lia. }
  assert (kept v i o (cx s) j = false) as K.
  { rewrite (i_cx _ _ _ _ _ I). destruct v, o; try done; simpl in *; unfold spec_all, spec_any in SP.
    - destruct (all_ctx PackAll n _ ltac:(auto) G) as [E _ _ _]. rewrite E. by destruct (first_exc _).
    - destruct (all_ctx RangeAll n _ ltac:(auto) G) as [_ E _ _]. rewrite (E eq_refl). destruct (first_exc _); [done|]. simpl. by apply Nat.eqb_neq.
    - destruct (any_ctx RangeAny n _ Hn ltac:(auto) G) as [_ _ _ E _]. rewrite (E eq_refl). destruct (first_val _) as [[]|]; [done|]. simpl. by apply Nat.eqb_neq. }
  unfold held in Hh. simpl in Hh. rewrite list_lookup_imap, T, B in Hh. rewrite !orb_true_iff in Hh.
  destruct Hh as [[[[Hh|Hh]|Hh]|Hh]|Hh].
  - destruct (slots s !! j) as [b|]; simpl in Hh; [rewrite K, !andb_false_r in Hh; done|by rewrite andb_false_r in Hh].
  - left. destruct (att s) as [[k []]|]; try done. apply Nat.eqb_eq in Hh. by subst.
  - rewrite list_lookup_insert_ne in Hh by done. right. destruct (conts s !! j) as [[]|]; try done; eauto.
  - destruct ((arrive v i o (cx s)).2); simpl in Hh; [|done]. rewrite orb_false_r in Hh. apply Nat.eqb_eq in Hh. congruence.
  - done.
Qed.
