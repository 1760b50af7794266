(** What the trace of an execution of the future model satisfies. *)
From Coq Require Import List Bool Lia ZArith.
From stdpp Require Import list.
From Verif.Lib Require Import Perm.
From Verif.Future Require Import Model Spec Step Lin LinInv Loc LocInv Hist Count.

Global Instance exn_eq : EqDecision exn. Proof. solve_decision. Defined.
Global Instance outcome_eq : EqDecision outcome. Proof. solve_decision. Defined.
Global Instance fkind_eq : EqDecision fkind. Proof. solve_decision. Defined.
Global Instance fret_eq : EqDecision fret. Proof. solve_decision. Defined.
Global Instance event_eq : EqDecision event. Proof. solve_decision. Defined.

Lemma resolved_ev tr s c o : reach tr s -> resolved s c o -> Resolved c o ∈ tr.
Proof. intros R (x & Hx & Ho). by eapply (hr_ev _ _ (reach_hres _ _ R)). Qed.
Lemma arg_ok_mono (P Q : nat -> outcome -> Prop) k arg : (forall a o, P a o -> Q a o) -> arg_ok P k arg -> arg_ok Q k arg.
Proof. intros H. destruct k; simpl; naive_solver. Qed.

Ltac isin E e v := let H := fresh in assert (v ∈ e) as H by (rewrite E; apply elem_of_app; right; left); revert H.
Lemma called_prefix tr s : reach tr s -> forall tr1 c arg tr2, tr = tr1 ++ Called c arg :: tr2 -> called_ok tr1 c arg.
Proof.
  intros R tr1 c arg tr2 E.
  refine (reach_prefix (fun tr1 v => match v with Called c arg => called_ok tr1 c arg | _ => True end) _ _ _ R tr1 (Called c arg) tr2 E).
  clear. intros tr s l s' e R T e1 v e2 E. destruct v; try done. destruct (reach_u _ _ R) as [U F].
  destruct (ev_called_step _ _ _ _ c a U F T) as (x & k & l0 & Hx & Hf & Ha).
  { rewrite E. apply elem_of_app. right. left. }
  pose proof (hf_new _ _ (reach_hfn _ _ R) _ _ _ _ Hx Hf) as Hn.
  exists k. split; [apply in_l; by destruct k|]. eapply arg_ok_mono; [|exact Ha]. intros q o Hq. apply in_l. by eapply resolved_ev.
Qed.
Lemma skipped_prefix tr s : reach tr s -> forall tr1 c tr2, tr = tr1 ++ Skipped c :: tr2 -> skip_ok tr1 c.
Proof.
  intros R tr1 c tr2 E.
  refine (reach_prefix (fun tr1 v => match v with Skipped c => skip_ok tr1 c | _ => True end) _ _ _ R tr1 (Skipped c) tr2 E).
  clear. intros tr s l s' e R T e1 v e2 E. destruct v; try done. destruct (reach_u _ _ R) as [U F].
  destruct (ev_skipped_step _ _ _ _ c U F T) as (x & k & l0 & Hx & Hf & Ha).
  { rewrite E. apply elem_of_app. right. left. }
  pose proof (hf_new _ _ (reach_hfn _ _ R) _ _ _ _ Hx Hf) as Hn. destruct k as [|a|a|[t|] q]; try done; simpl in Hn.
  - destruct Ha as (ex & Ha & _). left. exists a, ex. split; apply in_l; [done|]. by eapply resolved_ev.
  - right. exists t, q. by apply in_l.
Qed.
Lemma ev_got_step s l s' e dd r0 : no_ub s -> tstep s l s' e -> Got dd r0 ∈ e -> exists x, get_cell s dd = Some x /\ out x = r0 /\ Fut dd ∈ rs s /\ (forall c o, Resolved c o ∉ e).
Proof.
  intros U T HE. revert HE. tcases T; intros HE; evn HE; try discriminate HE.
  all: try (destruct (U r a); [by eapply elem_of_list_lookup_2|exact Hu]).
  all: injection HE as [= -> ->]; eexists; split; [eassumption|]; split; [done|]; split; [by eapply elem_of_list_lookup_2|].
  all: intros c' o' HE; evn HE; discriminate.
Qed.
Lemma got_prefix tr s : reach tr s -> forall tr1 c r tr2, tr = tr1 ++ Got c r :: tr2 ->
  match r with Some o => Resolved c o ∈ tr1 | None => forall o, Resolved c o ∉ tr1 end.
Proof.
  intros R tr1 c r tr2 E.
  refine (reach_prefix (fun tr1 v => match v with Got c r => match r with Some o => Resolved c o ∈ tr1 | None => forall o, Resolved c o ∉ tr1 end | _ => True end) _ _ _ R tr1 (Got c r) tr2 E).
  clear. intros tr s l s' e R T e1 v e2 E. destruct v; try done. destruct (reach_u _ _ R) as [U F].
  destruct (ev_got_step _ _ _ _ c o U T) as (x & Hx & Ho & Hn).
  { rewrite E. apply elem_of_app. right. left. }
  destruct o as [o|].
  - apply in_l. by eapply (hr_ev _ _ (reach_hres _ _ R)).
  - intros o [H|H]%elem_of_app.
    + pose proof (hr_out _ _ (reach_hres _ _ R) _ _ _ H Hx). congruence.
    + eapply Hn. rewrite E. apply elem_of_app. left. exact H.
Qed.

Lemma reach_cause tr s : reach tr s -> forall c o, Resolved c o ∈ tr -> cause tr c o.
Proof.
  induction 1 as [|tr s l s' e R IH T]; intros c o H; [by apply elem_of_nil in H|].
  destruct (reach_u _ _ R) as [U F]. destruct (reach_inv _ _ R) as [I V]. pose proof (reach_hfn _ _ R) as HF.
  apply elem_of_app in H as [H|H].
  - destruct (IH _ _ H) as [(a & ex & ? & ? & ? & ?)|[(? & Hb)|[(r & arg & ? & ? & Hr)|(t & q & ? & ?)]]].
    + left. exists a, ex. split_and!; auto using in_l.
    + right. left. split; [by apply in_l|]. destruct Hb as [?|[? ?]]; [by left|right; auto using in_l].
    + right. right. left. exists r, arg. split_and!; auto using in_l. destruct r; auto using in_l.
    + right. right. right. exists t, q. split; auto using in_l.
  - destruct (ev_cause_step _ _ _ _ _ _ U F V T H) as [(x & a & l0 & ex & Hs & -> & Hx & Hf & Ha)|[(x & f & Ha & Hx & Hf & Ho)|[(Hb & v & -> & Hr)|[(Hb & v & -> & Hr)|[(h & x & q & l0 & Hx & Hf & Hq)|(Hb & ->)]]]]].
    + left. exists a, ex. split_and!; [by apply in_r|done|apply in_l, (hf_new _ _ HF _ _ _ _ Hx Hf)|apply in_l; by eapply resolved_ev].
    + right. left. split; [by apply in_r|]. destruct Ho as [->|(Ht & n & ->)]; [by left|right]. split; [|eauto]. apply in_l. by apply (hf_tok _ _ HF).
    + right. right. left. destruct (hf_body _ _ HF _ Hb) as (a & Ha). exists (RVal v), a. split_and!; [by apply in_r|by apply in_l|done].
    + right. right. left. destruct (hf_body _ _ HF _ Hb) as (a & Ha). exists (RExc v), a. split_and!; [by apply in_r|by apply in_l|done].
    + right. right. left. destruct (hf_fwd _ _ HF _ _ _ _ _ Hx Hf) as (Hr & a & Ha). exists (RFut q), a.
      split_and!; [by apply in_l..|]. apply in_l. by eapply resolved_ev.
    + right. right. right. destruct (hf_ret _ _ HF _ Hb) as (Hs & t & q & Hn). exists t, q. split; by apply in_l.
Qed.

(** ** Destruction of shared states *)
Lemma ev_freed_step s l s' e dd : no_ub s -> futs s -> tstep s l s' e -> Freed dd ∈ e ->
  e = [Freed dd] /\ alive s dd /\ get_cell s' dd = None.
Proof.
  intros U F T HE. revert HE. tprep T; intros HE; evn HE; try discriminate HE.
  injection HE as [= ->]. split; [done|]. split; [by eexists|]. rewrite get_add, get_rem, get_free by (by eapply get_lt). by rewrite Nat.eqb_refl.
Qed.
Lemma dies_step s l s' e dd : no_ub s -> futs s -> tstep s l s' e -> alive s dd -> get_cell s' dd = None -> Freed dd ∈ e.
Proof.
  intros U F T (x & Hx) HN. revert HN. tprep T; intros HN; csn HN; tkg; try congruence; try by left.
Qed.
Record hfree (tr : list event) (s : st) : Prop := {
  hd_dead c : Freed c ∈ tr -> c < length (cs s) /\ get_cell s c = None;
  hd_ev c : c < length (cs s) -> get_cell s c = None -> Freed c ∈ tr
}.
Lemma reach_hfree tr s : reach tr s -> hfree tr s.
Proof.
  induction 1 as [|tr s l s' e R IH T]; [split; [by intros c ?%elem_of_nil|simpl; lia]|].
  destruct (reach_u _ _ R) as [U F]. pose proof (len_mono _ _ _ _ U T). split.
  - intros c [H1|H1]%elem_of_app.
    + destruct (hd_dead _ _ IH _ H1) as [H2 H3]. split; [lia|]. by eapply dead_step.
    + destruct (ev_freed_step _ _ _ _ _ U F T H1) as (_ & (x & ?%get_lt) & ?). split; [lia|done].
  - intros c Hc Hn. destruct (get_cell s c) as [x|] eqn:Hx.
    + apply in_r. eapply dies_step; eauto. by eexists.
    + destruct (decide (c < length (cs s))) as [|N]; [apply in_l; by apply (hd_ev _ _ IH)|].
      destruct (len_step _ _ _ _ U T) as [E|E]; [lia|]. assert (c = length (cs s)) as -> by lia.
      destruct (len_new _ _ _ _ U F T E) as (k & Hk). destruct (ev_new_step _ _ _ _ _ _ U F T Hk) as (_ & _ & y & ? & Hy & _). congruence.
Qed.
(** nothing happens to a cell after it is gone *)
Definition e_live (e : event) : list nat :=
  match e with Called c _ | Returned c _ | Skipped c | Abandoned c | Resolved c _ | Got c _ | Detached c | DetachedF _ c | Freed c => [c] | _ => [] end.
Lemma ev_live_step s l s' e v dd : no_ub s -> futs s -> refs_ok s -> tstep s l s' e -> v ∈ e -> dd ∈ e_live v -> alive s dd /\ Freed dd ∉ e \/ v = Freed dd /\ e = [Freed dd] /\ alive s dd.
Proof.
  intros U F R T Hv Hdd. 
  destruct (decide (Freed dd ∈ e)) as [Hf|Hf].
  - destruct (ev_freed_step _ _ _ _ _ U F T Hf) as (-> & Ha & _). right. by apply elem_of_list_singleton in Hv as ->.
  - left. split; [|done]. destruct v; simpl in Hdd; try (by apply elem_of_nil in Hdd); apply elem_of_list_singleton in Hdd as <-.
    + destruct (ev_called_step _ _ _ _ _ _ U F T Hv) as (x & ? & ? & ? & _). by exists x.
    + destruct (ev_returned_step _ _ _ _ _ _ U F T Hv) as (Hb & _). by eapply frame_alive.
    + destruct (ev_skipped_step _ _ _ _ _ U F T Hv) as (x & ? & ? & ? & _). by exists x.
    + clear Hf. revert Hv. tprep T; intros HE; evn HE; try discriminate HE. injection HE as [= ->]. by eexists.
    + destruct (ev_res_step _ _ _ _ _ _ U F T Hv) as [(x & ? & _) _]. by exists x.
    + destruct (ev_got_step _ _ _ _ _ _ U T Hv) as (x & ? & _). by exists x.
    + clear Hf. revert Hv. tprep T; intros HE; evn HE; try discriminate HE; injection HE as [= ->]; [by eexists|].
      destruct Hc as (x & ? & _). by exists x.
    + clear Hf. rename k into kk. revert Hv. tprep T; intros HE; evn HE; try discriminate HE; injection HE as [= -> ->]; [by eexists|].
      destruct Hc as (x & ? & _). by exists x.
    + by destruct Hf.
Qed.
Lemma live_prefix tr s : reach tr s -> forall tr1 v c tr2, tr = tr1 ++ v :: tr2 -> c ∈ e_live v -> Freed c ∉ tr1.
Proof.
  intros R tr1 v c tr2 E. revert c.
  refine (reach_prefix (fun tr1 v => forall c, c ∈ e_live v -> Freed c ∉ tr1) _ _ _ R tr1 v tr2 E).
  clear. intros tr s l s' e R T e1 v e2 E c Hc HF. destruct (reach_u _ _ R) as [U F].
  destruct (reach_inv _ _ R) as [I _]. pose proof (reach_hfree _ _ R) as HD.
  assert (v ∈ e) as Hv by (rewrite E; apply elem_of_app; right; left).
  destruct (ev_live_step _ _ _ _ _ _ U F (i_ref _ _ I) T Hv Hc) as [[(x & Hx) Hn]|(-> & -> & (x & Hx))].
  - apply elem_of_app in HF as [H|H]; [destruct (hd_dead _ _ HD _ H); congruence|]. apply Hn. rewrite E. apply elem_of_app. by left.
  - apply elem_of_app in HF as [H|H]; [destruct (hd_dead _ _ HD _ H); congruence|]. destruct e1 as [|? [|]]; simplify_eq/=. by apply elem_of_nil in H.
Qed.
