(** Executions of the future model: what the trace says about the state. *)
From Coq Require Import List Bool Lia ZArith.
From stdpp Require Import list.
From Verif.Lib Require Import Perm.
From Verif.Future Require Import Model Spec Step Lin LinInv Loc LocInv.

Inductive reach : list event -> st -> Prop :=
  | reach_init : reach [] init
  | reach_step tr s l s' e : reach tr s -> tstep s l s' e -> reach (tr ++ e) s'.
Lemma run_reach_gen ls : forall tr s s' e, reach tr s -> run s ls = Some (s', e) -> reach (tr ++ e) s'.
Proof.
  induction ls as [|l ls IH]; intros tr s s' e R H; simpl in H.
  - injection H as [= <- <-]. by rewrite app_nil_r.
  - destruct (step s l) as [[s1 e1]|] eqn:E; [|done]. destruct (run s1 ls) as [[s2 e2]|] eqn:E2; [|done]. injection H as [= <- <-].
    rewrite app_assoc. eapply IH; [|done]. econstructor; [done|]. by apply step_t.
Qed.
Lemma run_reach ls s tr : run init ls = Some (s, tr) -> reach tr s.
Proof. apply (run_reach_gen ls [] init). constructor. Qed.
Lemma reach_inv tr s : reach tr s -> inv tr s.
Proof. induction 1; [apply inv_init|by eapply inv_step]. Qed.
Lemma reach_u tr s : reach tr s -> no_ub s /\ futs s.
Proof.
  intros [I V]%reach_inv. split; [by eapply no_ub_ok|]. intros c Hc. eapply ref_alive; eauto using i_ref. by left.
Qed.

(** ** Events of a step *)
Lemma in_got_moved v q y : v ∈ got_moved q y -> v = GotMoved q /\ moved y = true /\ exists w, out y = Some (Val w).
Proof.
  unfold got_moved. destruct (out y) as [[w|]|]; [|by rewrite elem_of_nil..]. destruct (moved y); [|by rewrite elem_of_nil].
  rewrite elem_of_list_singleton. eauto.
Qed.
Ltac evn H :=
  match type of H with
  | _ ∈ [] => apply elem_of_nil in H; destruct H
  | _ ∈ _ :: _ => apply elem_of_cons in H; destruct H as [H|H]; evn H
  | _ ∈ got_moved _ _ ++ _ => apply elem_of_app in H; destruct H as [H|H]; evn H
  | _ ∈ _ ++ _ => apply elem_of_app in H; destruct H as [H|H]; evn H
  | _ ∈ got_moved _ _ => apply in_got_moved in H; destruct H as (H & ? & ? & ?)
  | _ => idtac
  end.

(** [v] happens after [tr] *)
Lemma split_app {A} (l1 l2 a b : list A) (x : A) : l1 ++ l2 = a ++ x :: b ->
  (exists c, l1 = a ++ x :: c) \/ exists c, a = l1 ++ c /\ l2 = c ++ x :: b.
Proof.
  revert a. induction l1 as [|y l1 IH]; intros a H; simpl in *.
  - right. exists a. done.
  - destruct a as [|z a]; injection H as -> H.
    + left. by exists l1.
    + destruct (IH _ H) as [(c & ->)|(c & -> & ->)]; [left; by exists c|right; by exists c].
Qed.
(** a property of every event and what happened before it *)
Lemma reach_prefix (P : list event -> event -> Prop) :
  (forall tr s l s' e, reach tr s -> tstep s l s' e -> forall e1 v e2, e = e1 ++ v :: e2 -> P (tr ++ e1) v) ->
  forall tr s, reach tr s -> forall tr1 v tr2, tr = tr1 ++ v :: tr2 -> P tr1 v.
Proof.
  intros HS tr s R. induction R as [|tr s l s' e R IH T]; intros tr1 v tr2 E; [by destruct tr1|].
  apply split_app in E as [(c & ->)|(c & -> & ->)]; [by eapply IH|]. by eapply HS.
Qed.

Lemma ev_res_step s l s' e dd oo : no_ub s -> futs s -> tstep s l s' e -> Resolved dd oo ∈ e ->
  (exists x, get_cell s dd = Some x /\ out x = None) /\ exists x, get_cell s' dd = Some x /\ out x = Some oo.
Proof.
  intros U F T HE. revert HE. tprep T; intros HE; evn HE; try discriminate HE.
  all: injection HE as [= -> ->]; split; [eauto|].
  all: try (rewrite ?get_add; erewrite get_resolve by eassumption; rewrite Nat.eqb_refl; eexists; split; [reflexivity|reflexivity]).
  eexists; split; [eassumption|]. by destruct (tk q t c0).
Qed.
Lemma out_step s l s' e dd y1 : no_ub s -> futs s -> tstep s l s' e -> get_cell s' dd = Some y1 ->
  (exists y0, get_cell s dd = Some y0 /\ out y1 = out y0) \/ (exists oo, Resolved dd oo ∈ e /\ out y1 = Some oo) \/
  (get_cell s dd = None /\ dd = length (cs s) /\ out y1 = None).
Proof.
  intros U F T HH. revert HH. tprep T; intros HH; csn HH; tkg.
  all: try (left; eexists; split; [first [eassumption|reflexivity]|done]).
  all: try (right; right; split; [by apply get_none_ge|done]).
  all: right; left; eexists; split; [|done]; rewrite ?elem_of_app, ?elem_of_cons; auto 10.
Qed.
Lemma res_once_step s l s' e : no_ub s -> tstep s l s' e -> forall x, cnt x (e ≫= e_res) <= 1.
Proof.
  intros U T xx. tcases T; try (destruct (U r a); [by eapply elem_of_list_lookup_2|exact Hu]).
  all: unfold got_moved; repeat match goal with |- context [match out ?y with _ => _ end] => destruct (out y) as [[]|] | |- context [if moved ?y then _ else _] => destruct (moved y) end.
  all: simpl; unfold cnt; simpl; repeat destruct (Nat.eq_dec _ _); simpl; lia.
Qed.

Record hres (tr : list event) (s : st) : Prop := {
  hr_out c o x : Resolved c o ∈ tr -> get_cell s c = Some x -> out x = Some o;
  hr_ev c o x : get_cell s c = Some x -> out x = Some o -> Resolved c o ∈ tr;
  hr_once c : cnt c (tr ≫= e_res) <= 1;
  hr_len c o : Resolved c o ∈ tr -> c < length (cs s)
}.
Lemma len_mono s l s' e : no_ub s -> tstep s l s' e -> length (cs s) <= length (cs s').
Proof. intros U T. destruct (len_step _ _ _ _ U T); lia. Qed.
Lemma in_res c o tr : Resolved c o ∈ tr -> c ∈ tr ≫= e_res.
Proof. intros H. apply elem_of_list_bind. exists (Resolved c o). split; [by left|done]. Qed.
Lemma in_res_inv c tr : c ∈ tr ≫= e_res -> exists o, Resolved c o ∈ tr.
Proof. intros (v & Hv & H)%elem_of_list_bind. destruct v; simpl in Hv; try by apply elem_of_nil in Hv. apply elem_of_list_singleton in Hv as ->. eauto. Qed.
Lemma reach_hres tr s : reach tr s -> hres tr s.
Proof.
  induction 1 as [|tr s l s' e R IH T].
  - split; simpl; try (by intros ? ? ? ?%elem_of_nil); try (by intros ? ? ?%elem_of_nil); try done. unfold cnt. simpl. lia.
  - destruct (reach_u _ _ R) as [U F]. split.
    + intros c o x [H|H]%elem_of_app Hx.
      * destruct (out_step _ _ _ _ _ _ U F T Hx) as [(y0 & Hy0 & ->)|[(o' & H' & _)|(Hn & -> & _)]].
        -- by eapply (hr_out _ _ IH).
        -- destruct (ev_res_step _ _ _ _ _ _ U F T H') as [(y & Hy & Hyo) _]. pose proof (hr_out _ _ IH _ _ _ H Hy). congruence.
        -- pose proof (hr_len _ _ IH _ _ H). lia.
      * destruct (ev_res_step _ _ _ _ _ _ U F T H) as [_ (y & Hy & Hyo)]. by simplify_eq.
    + intros c o x Hx Ho. rewrite elem_of_app.
      destruct (out_step _ _ _ _ _ _ U F T Hx) as [(y0 & Hy0 & E)|[(o' & H' & E)|(_ & _ & E)]].
      * left. eapply (hr_ev _ _ IH); [done|congruence].
      * right. congruence.
      * congruence.
    + intros c. rewrite bind_app, cnt_app. pose proof (hr_once _ _ IH c). pose proof (res_once_step _ _ _ _ U T c).
      destruct (decide (c ∈ tr ≫= e_res)) as [H1|H1], (decide (c ∈ e ≫= e_res)) as [H2|H2].
      * apply in_res_inv in H1 as (o1 & H1), H2 as (o2 & H2). destruct (ev_res_step _ _ _ _ _ _ U F T H2) as [(y & Hy & Hyo) _].
        pose proof (hr_out _ _ IH _ _ _ H1 Hy). congruence.
      * rewrite cnt_in in H2. lia.
      * rewrite cnt_in in H1. lia.
      * rewrite cnt_in in H1. lia.
    + intros c o [H|H]%elem_of_app.
      * pose proof (hr_len _ _ IH _ _ H). pose proof (len_mono _ _ _ _ U T). lia.
      * destruct (ev_res_step _ _ _ _ _ _ U F T H) as [_ (y & Hy & _)]. by eapply get_lt.
Qed.

(** ** Functions, calls and their results *)
Lemma fn_new s l s' e y1 : no_ub s -> futs s -> tstep s l s' e -> get_cell s' (length (cs s)) = Some y1 ->
  exists k l, fn y1 = Some (k, l) /\ New (length (cs s)) k ∈ e /\ out y1 = None /\
    match k with Forward (Some t) q => Returned t (RFut q) ∈ e /\ Frame t Body ∈ rs s | Forward None _ => False | _ => True end.
Proof.
  intros U F T HH. revert HH. tprep T; intros HH; csn HH; tkg; glen.
  all: eexists _, _; split; [reflexivity|]; split; [by left|].
  all: split; [done|]; try (destruct Hk as [[-> _]|[-> _]]); try done.
  all: split; [by right; left|by eapply elem_of_list_lookup_2].
Qed.
Lemma ev_new_step s l s' e dd kk : no_ub s -> futs s -> tstep s l s' e -> New dd kk ∈ e ->
  dd = length (cs s) /\ length (cs s') = S (length (cs s)) /\ exists y l, get_cell s' dd = Some y /\ fn y = Some (kk, l).
Proof.
  intros U F T HE. assert (length (cs s') = length (cs s) \/ length (cs s') = S (length (cs s))) as HL by (by eapply len_step).
  assert (dd = length (cs s) /\ alive s' (length (cs s)) /\ forall k', New dd k' ∈ e -> k' = kk) as (-> & (y & Hy) & HU).
  { clear HL. revert HE. tprep T; intros HE; evn HE; try discriminate HE; injection HE as [= -> ->]; (split; [done|]).
    all: split; [|intros k' HE; evn HE; congruence].
    all: eexists; rewrite ?get_add; try (erewrite get_put by eassumption; rewrite (proj2 (Nat.eqb_neq _ _)) by done);
      rewrite ?get_add, get_fresh, ?len_incr, ?len_incrs, ?len_put; simpl; rewrite Nat.eqb_refl; reflexivity. }
  split; [done|]. destruct (fn_new _ _ _ _ _ U F T Hy) as (k & l0 & Hf & Hn & _). apply HU in Hn as ->.
  split; [|eauto]. apply get_lt in Hy. lia.
Qed.
Lemma len_new s l s' e : no_ub s -> futs s -> tstep s l s' e -> length (cs s') = S (length (cs s)) -> exists k, New (length (cs s)) k ∈ e.
Proof.
  intros U F T HL. assert (forall s : st, length (cs s) = S (length (cs s)) -> False) as N by (intros; lia).
  revert HL. tcases T; try (eexists; by left).
  all: try (destruct (U r a); [by eapply elem_of_list_lookup_2|exact Hu]).
  all: try (unfold resolve_to; simpl; rewrite ?insert_length; len_eq; rewrite ?insert_length; len_eq; intros; lia).
Qed.
Lemma frame_step s l s' e dd pp : no_ub s -> futs s -> tstep s l s' e -> Frame dd pp ∈ rs s' ->
  Frame dd pp ∈ rs s \/ pp = Enter \/ (pp = Body /\ Frame dd Enter ∈ rs s /\ exists a, Called dd a ∈ e) \/
  (pp = Ret /\ Frame dd Enter ∈ rs s /\ Skipped dd ∈ e /\ exists x t q l, get_cell s dd = Some x /\ fn x = Some (Forward (Some t) q, l)) \/
  pp = Fin /\ (Frame dd Enter ∈ rs s \/ Frame dd Body ∈ rs s \/ Frame dd Ret ∈ rs s).
Proof.
  intros U F T HD. revert HD. tprep T; intros HD; rsn HD; try discriminate HD; auto.
  all: try (match goal with H : _ = cont_drop ?x |- _ => destruct x; discriminate end).
  all: injection HD as [= -> ->]; auto; apply elem_of_list_lookup_2 in Hi; right; right.
  all: try (left; split; [done|]; split; [done|]; eexists; rewrite ?elem_of_app, ?elem_of_cons; eauto; fail).
  all: try (right; right; auto; fail).
  all: right; left; split; [done|]; split; [done|]; split; [rewrite !elem_of_app, ?elem_of_cons; auto|eauto 6].
Qed.
Definition arg_ok (P : nat -> outcome -> Prop) (k : fkind) (arg : option outcome) : Prop :=
  match k with
  | User => arg = None
  | Then a => exists v, arg = Some (Val v) /\ P a (Val v)
  | Recover a => exists o, arg = Some o /\ P a o
  | Forward _ _ => False
  end.
Lemma ev_called_step s l s' e dd arg : no_ub s -> futs s -> tstep s l s' e -> Called dd arg ∈ e ->
  exists x k l, get_cell s dd = Some x /\ fn x = Some (k, l) /\ arg_ok (resolved s) k arg.
Proof.
  intros U F T HE. revert HE. tprep T; intros HE; evn HE; try discriminate HE.
  all: injection HE as [= -> ->]; eexists _, _, _; (split; [eassumption|]); (split; [eassumption|]); simpl; auto.
  - eauto.
  - eexists. split; [done|]. by eexists.
Qed.
Lemma ev_skipped_step s l s' e dd : no_ub s -> futs s -> tstep s l s' e -> Skipped dd ∈ e ->
  exists x k l, get_cell s dd = Some x /\ fn x = Some (k, l) /\
    match k with Then a => exists ex, resolved s a (Exc ex) /\ Resolved dd (Exc ex) ∈ e | Forward (Some _) _ => True | _ => False end.
Proof.
  intros U F T HE. revert HE. tprep T; intros HE; evn HE; try discriminate HE.
  all: injection HE as [= ->]; eexists _, _, _; (split; [eassumption|]); (split; [eassumption|]); simpl; auto.
  eexists. split; [done|]. rewrite !elem_of_cons. auto.
Qed.
Lemma ev_returned_step s l s' e dd rr : no_ub s -> futs s -> tstep s l s' e -> Returned dd rr ∈ e ->
  Frame dd Body ∈ rs s /\ match rr with RVal v => Resolved dd (Val v) ∈ e | RExc x => Resolved dd (Exc (Err x)) ∈ e | RFut q => Fut q ∈ rs s end.
Proof.
  intros U F T HE. revert HE. tprep T; intros HE; evn HE; try discriminate HE.
  all: injection HE as [= -> ->]; apply elem_of_list_lookup_2 in Hi; split; auto.
  destruct Ha as [(v & _ & -> & ->)|(x & _ & -> & ->)]; rewrite !elem_of_cons; auto.
Qed.
(** why a cell is resolved *)
Lemma ev_cause_step s l s' e dd oo : no_ub s -> futs s -> loc s -> tstep s l s' e -> Resolved dd oo ∈ e ->
  (exists x a l ex, Skipped dd ∈ e /\ oo = Exc ex /\ get_cell s dd = Some x /\ fn x = Some (Then a, l) /\ resolved s a (Exc ex)) \/
  (exists x f, Abandoned dd ∈ e /\ get_cell s dd = Some x /\ fn x = f /\ (oo = Exc Broken \/ Tok dd ∈ rs s /\ exists n, oo = Exc (Err n))) \/
  (Frame dd Body ∈ rs s /\ exists v, oo = Val v /\ Returned dd (RVal v) ∈ e) \/
  (Frame dd Body ∈ rs s /\ exists x, oo = Exc (Err x) /\ Returned dd (RExc x) ∈ e) \/
  (exists c x q l, get_cell s c = Some x /\ fn x = Some (Forward (Some dd) q, l) /\ resolved s q oo) \/
  (Frame dd Ret ∈ rs s /\ oo = Val 0).
Proof.
  intros U F V T HE. revert HE. tprep T; intros HE; evn HE; try discriminate HE.
  all: injection HE as [= -> ->]; apply elem_of_list_lookup_2 in Hi.
  - right. left. eexists _, _. split; [by left|]. split; [eassumption|]. split; [done|].
    destruct ex; [by left|right]. destruct Hr as [->|Hr]; [eauto|]. destruct Hr as [->| ->]; discriminate (Hj2 ltac:(discriminate)).
  - left. eexists _, _, _, _. split; [by left|]. eauto.
  - right. right. right. right. left. eexists _, _, _, _. split; [exact Hc|]. split; [eassumption|]. by eexists.
  - destruct Ha as [(v & _ & -> & ->)|(x & _ & -> & ->)].
    + right. right. left. split; [done|]. eexists. split; [done|]. by left.
    + right. right. right. left. split; [done|]. eexists. split; [done|]. by left.
  - auto 10.
  - pose proof (v_promdrop _ V _ Hi). congruence.
Qed.

Definition cause (tr : list event) (c : nat) (o : outcome) : Prop :=
  (exists a e, Skipped c ∈ tr /\ o = Exc e /\ New c (Then a) ∈ tr /\ Resolved a (Exc e) ∈ tr) \/
  (Abandoned c ∈ tr /\ (o = Exc Broken \/ New c User ∈ tr /\ exists n, o = Exc (Err n))) \/
  (exists r arg, Returned c r ∈ tr /\ Called c arg ∈ tr /\
     match r with RVal v => o = Val v | RExc e => o = Exc (Err e) | RFut q => Resolved q o ∈ tr end) \/
  (exists t q, Skipped c ∈ tr /\ New c (Forward (Some t) q) ∈ tr).
Definition skip_ok (tr : list event) (c : nat) : Prop :=
  (exists a e, New c (Then a) ∈ tr /\ Resolved a (Exc e) ∈ tr) \/ (exists t q, New c (Forward (Some t) q) ∈ tr).
Definition new_ok (tr : list event) (c : nat) (k : fkind) : Prop :=
  match k with Forward None q => exists t, New c (Forward (Some t) q) ∈ tr | _ => New c k ∈ tr end.
Definition called_ok (tr : list event) (c : nat) (arg : option outcome) : Prop :=
  exists k, New c k ∈ tr /\ arg_ok (fun a o => Resolved a o ∈ tr) k arg.
Record hfn (tr : list event) (s : st) : Prop := {
  hf_new c x k l : get_cell s c = Some x -> fn x = Some (k, l) -> new_ok tr c k;
  hf_fwd c x t q l : get_cell s c = Some x -> fn x = Some (Forward (Some t) q, l) -> Returned t (RFut q) ∈ tr /\ exists a, Called t a ∈ tr;
  hf_body c : Frame c Body ∈ rs s -> exists a, Called c a ∈ tr;
  hf_ret c : Frame c Ret ∈ rs s -> Skipped c ∈ tr /\ exists t q, New c (Forward (Some t) q) ∈ tr;
  hf_uniq c k k' : New c k ∈ tr -> New c k' ∈ tr -> k = k';
  hf_len c k : New c k ∈ tr -> c < length (cs s);
  hf_made c : c < length (cs s) -> exists k, New c k ∈ tr;
  hf_tok c : Tok c ∈ rs s -> New c User ∈ tr
}.
Lemma new_ok_mono tr e c k : new_ok tr c k -> new_ok (tr ++ e) c k.
Proof. destruct k as [| | |[]]; simpl; rewrite ?elem_of_app; auto. intros (t & H). exists t. rewrite elem_of_app. auto. Qed.
Lemma in_l {A} (v : A) l l' : v ∈ l -> v ∈ l ++ l'.
Proof. rewrite elem_of_app. auto. Qed.
Lemma in_r {A} (v : A) l l' : v ∈ l' -> v ∈ l ++ l'.
Proof. rewrite elem_of_app. auto. Qed.
Lemma tok_step s l s' e dd : no_ub s -> futs s -> tstep s l s' e -> Tok dd ∈ rs s' -> Tok dd ∈ rs s \/ New dd User ∈ e.
Proof.
  intros U F T HD. revert HD. tprep T; intros HD; rsn HD; try discriminate HD; auto.
  all: try (match goal with H : _ = cont_drop ?x |- _ => destruct x; discriminate end).
  injection HD as [= ->]. right. by left.
Qed.
Lemma reach_hfn tr s : reach tr s -> hfn tr s.
Proof.
  induction 1 as [|tr s l s' e R IH T].
  - split; simpl; try (intros; lia); try (by intros ? ? ? ?%elem_of_nil); try (by intros ? ? ?%elem_of_nil); try (by intros ? ?%elem_of_nil).
    all: intros; by rewrite get_init in *.
  - destruct (reach_u _ _ R) as [U F]. destruct (reach_inv _ _ R) as [I V]. split.
    + intros c x k l1 Hx Hf. destruct (alive_step _ _ _ _ c U F T) as [(y0 & Hy0)| ->]; [by eexists| |].
      * destruct (fn_step _ _ _ _ _ _ _ U F T Hy0 Hx) as [E|[(E & _)|(t & q & l0 & Hf1 & Hf2 & _)]]; [| congruence|].
        -- apply new_ok_mono. eapply (hf_new _ _ IH); [exact Hy0|]. rewrite <- E. exact Hf.
        -- rewrite Hf in Hf2. simplify_eq. apply new_ok_mono. exists t. apply (hf_new _ _ IH _ _ _ _ Hy0 Hf1).
      * destruct (fn_new _ _ _ _ _ U F T Hx) as (k' & l' & Hf' & Hn & _ & Hk). simplify_eq. destruct k as [| | |[]]; simpl in *; try done; by apply in_r.
    + intros c x t q l1 Hx Hf. destruct (alive_step _ _ _ _ c U F T) as [(y0 & Hy0)| ->]; [by eexists| |].
      * destruct (fn_step _ _ _ _ _ _ _ U F T Hy0 Hx) as [E|[(E & _)|(t' & q' & l0 & Hf1 & Hf2 & _)]]; [|congruence..].
        rewrite Hf in E. destruct (hf_fwd _ _ IH _ _ _ _ _ Hy0 (eq_sym E)) as (? & a & ?). split; [by apply in_l|exists a; by apply in_l].
      * destruct (fn_new _ _ _ _ _ U F T Hx) as (k' & l' & Hf' & Hn & _ & Hk). simplify_eq. destruct Hk as [Hk Hb].
        destruct (hf_body _ _ IH _ Hb) as (a & Ha). split; [by apply in_r|exists a; by apply in_l].
    + intros c Hb. destruct (frame_step _ _ _ _ _ _ U F T Hb) as [H|[?|[(_ & _ & a & H)|[(? & _)|(? & _)]]]]; try done.
      * destruct (hf_body _ _ IH _ H) as (a & Ha). exists a. by apply in_l.
      * exists a. by apply in_r.
    + intros c Hb. destruct (frame_step _ _ _ _ _ _ U F T Hb) as [H|[?|[(? & _)|[(_ & _ & H & x & t & q & l0 & Hx & Hf)|(? & _)]]]]; try done.
      * destruct (hf_ret _ _ IH _ H) as (H1 & t & q & H2). split; [by apply in_l|]. exists t, q. by apply in_l.
      * split; [by apply in_r|]. exists t, q. apply in_l. apply (hf_new _ _ IH _ _ _ _ Hx Hf).
    + intros c k k' [H|H]%elem_of_app [H'|H']%elem_of_app.
      * by eapply (hf_uniq _ _ IH).
      * apply (ev_new_step _ _ _ _ _ _ U F T) in H' as (-> & _). apply (hf_len _ _ IH) in H. lia.
      * apply (ev_new_step _ _ _ _ _ _ U F T) in H as (-> & _). apply (hf_len _ _ IH) in H'. lia.
      * apply (ev_new_step _ _ _ _ _ _ U F T) in H as (_ & _ & y & l0 & Hy & Hf), H' as (_ & _ & y' & l' & Hy' & Hf'). by simplify_eq.
    + intros c k [H|H]%elem_of_app.
      * apply (hf_len _ _ IH) in H. pose proof (len_mono _ _ _ _ U T). lia.
      * apply (ev_new_step _ _ _ _ _ _ U F T) in H as (-> & -> & _). lia.
    + intros c Hc. destruct (decide (c < length (cs s))) as [H|H].
      * destruct (hf_made _ _ IH _ H) as (k & Hk). exists k. by apply in_l.
      * destruct (len_step _ _ _ _ U T) as [E|E]; [lia|]. assert (c = length (cs s)) as -> by lia.
        destruct (len_new _ _ _ _ U F T E) as (k & Hk). exists k. by apply in_r.
    + intros c Hc. destruct (tok_step _ _ _ _ _ U F T Hc) as [H|H]; [|by apply in_r]. apply in_l. by apply (hf_tok _ _ IH).
Qed.
