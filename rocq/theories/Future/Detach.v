(** Where continuations go: handed over, or destroyed with the cell they are attached to. *)
From Coq Require Import List Bool Lia ZArith.
From stdpp Require Import list.
From Verif.Lib Require Import Perm.
From Verif.Future Require Import Model Spec Step Lin LinInv Loc LocInv Hist Count Trace Moved Order.

(** [k] is waiting in a cell, or is being handed over *)
Definition waiting (s : st) (k : cont) : Prop :=
  (exists a x, get_cell s a = Some x /\ k ∈ thens x) \/ (exists o l, Hand o l ∈ rs s /\ k ∈ l).
Lemma thens_keep s l s' e aa xx kk : no_ub s -> futs s -> tstep s l s' e -> get_cell s aa = Some xx -> kk ∈ thens xx ->
  (exists x', get_cell s' aa = Some x' /\ kk ∈ thens x') \/ (exists ks, Hand (Some aa) ks ∈ rs s' /\ kk ∈ ks) \/
  (e = [Freed aa] /\ strong xx = 1 /\ exists i, rs s !! i = Some (Drop aa)).
Proof.
  intros U F T Hx Hkk. destruct (get_cell s' aa) as [x'|] eqn:Hx'.
  - destruct (decide (aa ∈ e ≫= e_res)) as [(oo & HR)%in_res_inv|HR].
    + right. left. exists (thens xx). split; [by eapply res_hand_then|done].
    + left. exists x'. split; [done|]. assert (forall oo, Resolved aa oo ∉ e) as HN by (intros oo Ho; apply HR; by eapply in_res).
      clear HR. revert HN Hx Hx'. tprep T; intros HN Hx H1; csn H1; tkg; simplify_eq; simpl; rewrite ?elem_of_app; auto.
      all: try (match goal with H : get_cell ?s (length (cs ?s)) = Some _ |- _ => apply get_lt in H; lia end).
      all: exfalso; eapply HN; rewrite ?elem_of_app, ?elem_of_cons; auto 10.
  - right. right. revert Hx'. tprep T; intros HN; csn HN; tkg; simplify_eq; eauto 10.
Qed.
Lemma hand_next s l s' e oo ks kk : no_ub s -> tstep s l s' e -> Hand oo ks ∈ rs s -> kk ∈ ks ->
  (exists ks', Hand oo ks' ∈ rs s' /\ kk ∈ ks') \/
  match kk with KTask d => Handed d ∈ e | KSelf c => Drop c ∈ rs s' | KDet k c => Det k c ∈ rs s' end.
Proof.
  intros U T HH HK. destruct (surv _ _ _ _ _ U T HH) as [|(ii & aa & -> & Hii)]; [eauto|].
  inversion T; subst; simplify_eq.
  all: try match goal with H : _ = Tok _ \/ _ |- _ => destruct H as [?|[?|?]]; discriminate end.
  all: try match goal with H : _ = Tok _ \/ _ |- _ => destruct H as [?|?]; discriminate end.
  all: try match goal with H : _ /\ LThen _ _ = _ \/ _ |- _ => destruct H as [[_ ?]|[_ ?]]; discriminate end.
  all: try match goal with H : _ /\ _ = LThen _ _ \/ _ |- _ => destruct H as [[_ ?]|[_ ?]]; discriminate end.
  all: try match goal with Hu : ub_cause _ ?r ?a |- _ => destruct (U r a); [by eapply elem_of_list_lookup_2|exact Hu] end.
  all: try (by apply elem_of_nil in HK).
  all: apply elem_of_cons in HK as [->|HK]; [right|left; eexists; split; [apply in_add_l; by eapply in_set_new|done]].
  all: try (by left). all: rewrite in_add; right; by left.
Qed.
Lemma waiting_next s l s' e kk : no_ub s -> futs s -> tstep s l s' e -> waiting s kk ->
  waiting s' kk \/ match kk with KTask d => Handed d ∈ e | KSelf c => Drop c ∈ rs s' | KDet k c => Det k c ∈ rs s' end \/
  exists a x, e = [Freed a] /\ get_cell s a = Some x /\ strong x = 1 /\ kk ∈ thens x /\ exists i, rs s !! i = Some (Drop a).
Proof.
  intros U F T [(a & x & Hx & Hk)|(o & ks & Hh & Hk)].
  - destruct (thens_keep _ _ _ _ _ _ _ U F T Hx Hk) as [(x' & ? & ?)|[(ks & ? & ?)|(-> & ? & i & Hi)]].
    + left. left. eauto.
    + left. right. eauto.
    + right. right. exists a, x. split_and!; eauto.
  - destruct (hand_next _ _ _ _ _ _ _ U T Hh Hk) as [(ks' & ? & ?)|H].
    + left. right. eauto.
    + right. left. done.
Qed.
(** a cell that keeps itself is not freed *)
Lemma self_kept s a x k i : refs_ok s -> get_cell s a = Some x -> strong x = 1 -> k ∈ thens x -> a ∈ cont_strong k -> rs s !! i = Some (Drop a) -> False.
Proof.
  intros R Hx S Hk Ha Hi. eapply (one_ref _ _ _ _ _ _ R Hx S (elem_of_list_lookup_2 _ _ _ Hi) ltac:(by left) Hx).
  unfold c_strong. rewrite !elem_of_app. right. right. apply elem_of_list_bind. eauto.
Qed.

(** ** Continuations attached by then and recover *)
Lemma new_waits s l s' e dd kk aa : no_ub s -> futs s -> tstep s l s' e -> New dd kk ∈ e -> ante kk = Some aa -> waiting s' (KTask dd).
Proof.
  intros U F T HE. revert HE. tprep T; intros HE; evn HE; try discriminate HE.
  all: injection HE as [= -> ->]; try done; intros _.
  all: try (right; eexists _, _; split; [rewrite in_add; right; by left|by left]).
  all: left; exists a || exists r || exists c; eexists; rewrite ?get_add; erewrite get_put by eassumption; rewrite Nat.eqb_refl; split; [done|]; simpl; rewrite elem_of_app; right; by left.
Qed.
Lemma cont_fate tr s : reach tr s -> forall d k a, New d k ∈ tr -> ante k = Some a -> Handed d ∈ tr \/ waiting s (KTask d) \/ Freed d ∈ tr.
Proof.
  induction 1 as [|tr s l s' e R IH T]; intros d k a Hn Ha; [by apply elem_of_nil in Hn|].
  destruct (reach_u _ _ R) as [U F]. destruct (reach_inv _ _ R) as [I V]. apply elem_of_app in Hn as [Hn|Hn].
  - destruct (IH _ _ _ Hn Ha) as [H|[H|H]]; [left; by apply in_l| |right; right; by apply in_l].
    destruct (waiting_next _ _ _ _ _ U F T H) as [?|[?|(q & x & -> & Hx & S & Hk & i & Hi)]]; [auto|left; by apply in_r|].
    right. right. destruct (get_cell s d) as [y|] eqn:Hy.
    + exfalso. destruct (v_ktask _ V _ _ _ _ Hx Hk Hy) as (k' & l0 & Hf & Hk').
      eapply (one_ref _ _ _ _ _ _ (i_ref _ _ I) Hx S (elem_of_list_lookup_2 _ _ _ Hi) ltac:(by left) Hy).
      unfold c_strong. rewrite Hf. simpl. unfold fn_refs. rewrite !elem_of_app. left. left. destruct k'; simpl in *; simplify_eq; by left.
    + apply in_l. apply (hd_ev _ _ (reach_hfree _ _ R)); [|done]. by eapply (hf_len _ _ (reach_hfn _ _ R)).
  - right. left. by eapply new_waits.
Qed.

(** ** Detached futures *)
Lemma ev_det_step s l s' e cc : no_ub s -> tstep s l s' e -> Detached cc ∈ e ->
  exists x, get_cell s cc = Some x /\ ((exists o, out x = Some o) \/ exists x', get_cell s' cc = Some x' /\ KSelf cc ∈ thens x').
Proof.
  intros U T HE. revert HE. tcases T; intros HE; evn HE; try discriminate HE.
  all: try (destruct (U r a); [by eapply elem_of_list_lookup_2|exact Hu]).
  all: injection HE as [= ->].
  - eexists. split; [exact Hc|]. right. erewrite get_put by eassumption. rewrite Nat.eqb_refl. eexists. split; [done|]. simpl. rewrite elem_of_app. right. by left.
  - destruct Hc as (x & Hx & Ho). eauto.
Qed.
Lemma ev_detf_step s l s' e kk cc : no_ub s -> tstep s l s' e -> DetachedF kk cc ∈ e ->
  kk = nk s /\ nk s' = S (nk s) /\ e = [DetachedF kk cc] /\ exists x, get_cell s cc = Some x /\ ((exists o, out x = Some o) /\ Det kk cc ∈ rs s' \/ exists x', get_cell s' cc = Some x' /\ KDet kk cc ∈ thens x').
Proof.
  intros U T HE. revert HE. tcases T; intros HE; evn HE; try discriminate HE.
  all: try (destruct (U r a); [by eapply elem_of_list_lookup_2|exact Hu]).
  all: injection HE as [= -> ->]; split; [done|]; split; [done|]; split; [done|].
  - eexists. split; [exact Hc|]. right. rewrite get_rem. erewrite get_put by exact Hc. rewrite Nat.eqb_refl. eexists. split; [done|]. simpl. rewrite elem_of_app. right. by left.
  - destruct Hc as (x & Hx & Ho). eexists. split; [exact Hx|]. left. split; [eauto|]. by eapply (in_set_new (St (cs s) (rs s) (S (nk s)))).
Qed.
Lemma det_alive tr s : reach tr s -> forall c, Detached c ∈ tr -> (forall o, Resolved c o ∉ tr) -> exists x, get_cell s c = Some x /\ KSelf c ∈ thens x.
Proof.
  induction 1 as [|tr s l s' e R IH T]; intros c Hd Hn; [by apply elem_of_nil in Hd|].
  assert (forall o, Resolved c o ∉ tr) as H1 by (intros o Ho; eapply Hn, in_l, Ho).
  assert (forall o, Resolved c o ∉ e) as H2 by (intros o Ho; eapply Hn, in_r, Ho).
  destruct (reach_u _ _ R) as [U F]. destruct (reach_inv _ _ R) as [I V]. apply elem_of_app in Hd as [Hd|Hd].
  - destruct (IH _ Hd H1) as (x & Hx & Hk). destruct (thens_keep _ _ _ _ _ _ _ U F T Hx Hk) as [?|[(ks & Hh & _)|(-> & S & i & Hi)]]; [done| |].
    + exfalso. pose proof (reach_step _ _ _ _ _ R T) as R'.
      destruct (hand_step2 _ _ _ _ _ _ U F T Hh) as [(ks' & Hs & Hsub)|[(? & _)|(c' & x' & ov & [= <-] & Hr & _)]]; [|done|by apply H2 in Hr].
      pose proof (n_hand _ _ (reach_counts _ _ R) c) as H. assert (out x = None) as Hxo by (eapply (v_then _ V); [exact Hx|]; intros E; rewrite E in Hk; by apply elem_of_nil in Hk).
      pose proof (meas_ge_rc _ _ (HHr_nn c) (HHc_nn c) _ _ _ _ Hs Hx) as G. fold (MH c) in G. unfold HHr, HHc in G.
      rewrite Hxo, cnt_self in G. unfold z, is in G. rewrite Nat.eqb_refl in G. destruct (_ <? _); lia.
    + exfalso. eapply self_kept; eauto using i_ref. by left.
  - destruct (ev_det_step _ _ _ _ _ U T Hd) as (x & Hx & [(o & Ho)|?]); [|done].
    destruct (H1 o). by eapply (hr_ev _ _ (reach_hres _ _ R)).
Qed.
Record hdet (tr : list event) (s : st) : Prop := {
  hd_lt k c : DetachedF k c ∈ tr -> k < nk s;
  hd_uniq k c c' : DetachedF k c ∈ tr -> DetachedF k c' ∈ tr -> c = c';
  hd_pend k c : DetachedF k c ∈ tr -> waiting s (KDet k c) \/ Det k c ∈ rs s \/ exists o, DetCalled k o ∈ tr;
  hd_wait k c : waiting s (KDet k c) \/ Det k c ∈ rs s -> DetachedF k c ∈ tr
}.
Lemma det_from s l s' e kk cc : no_ub s -> futs s -> tstep s l s' e -> Det kk cc ∈ rs s' ->
  Det kk cc ∈ rs s \/ waiting s (KDet kk cc) \/ DetachedF kk cc ∈ e.
Proof.
  intros U F T HD. revert HD. tprep T; intros HD; rsn HD; try discriminate HD; auto.
  all: try (match goal with H : _ = cont_drop ?x |- _ => destruct x; discriminate end).
  all: try (injection HD as [= -> ->]; right; right; by left).
  all: try (injection HD as [= -> ->]; right; left; right; eexists _, _; split; [by eapply elem_of_list_lookup_2|by left]).
Qed.
Lemma wait_from s l s' e kk cc : no_ub s -> futs s -> tstep s l s' e -> waiting s' (KDet kk cc) -> waiting s (KDet kk cc) \/ DetachedF kk cc ∈ e.
Proof.
  intros U F T [(a & x & Hx & Hk)|(o & ks & Hh & Hk)].
  - clear - U F T Hx Hk. rename a into aa, x into xx. revert Hx Hk. tprep T; intros H1 HK; csn H1; tkg; simplify_eq; simpl in HK.
    all: try (by apply elem_of_nil in HK).
    all: try match type of HK with _ ∈ thens ?x ++ _ => apply elem_of_app in HK as [HK|HK%elem_of_list_singleton]; [|try discriminate HK] end.
    all: try match type of HK with _ ∈ thens ?x => match goal with H : get_cell ?s0 _ = Some x, _ : no_ub ?s0 |- _ => left; left; eexists _, _; split; [exact H|exact HK] end end.
    all: injection HK as [= -> ->]; right; by left.
  - destruct (hand_step2 _ _ _ _ _ _ U F T Hh) as [(ks' & Hs & Hsub)|[(-> & k & a & ov & -> & _)|(c & x & ov & -> & _ & Hx & ->)]].
    + left. right. eauto.
    + by apply elem_of_list_singleton in Hk.
    + left. left. eauto.
Qed.
Lemma ev_detcalled_step s l s' e kk oo : no_ub s -> tstep s l s' e -> DetCalled kk oo ∈ e -> exists c, Det kk c ∈ rs s /\ resolved s c oo.
Proof.
  intros U T HE. revert HE. tcases T; intros HE; evn HE; try discriminate HE.
  all: try (destruct (U r a); [by eapply elem_of_list_lookup_2|exact Hu]).
  injection HE as [= -> ->]. eexists. split; [by eapply elem_of_list_lookup_2|done].
Qed.
Lemma det_next s l s' e kk cc : no_ub s -> tstep s l s' e -> Det kk cc ∈ rs s -> Det kk cc ∈ rs s' \/ exists o, DetCalled kk o ∈ e.
Proof.
  intros U T HH. destruct (surv _ _ _ _ _ U T HH) as [|(ii & aa & -> & Hii)]; [eauto|].
  inversion T; subst; simplify_eq.
  all: try match goal with H : _ = Tok _ \/ _ |- _ => destruct H as [?|[?|?]]; discriminate end.
  all: try match goal with H : _ = Tok _ \/ _ |- _ => destruct H as [?|?]; discriminate end.
  all: try match goal with H : _ /\ _ = LThen _ _ \/ _ |- _ => destruct H as [[_ ?]|[_ ?]]; discriminate end.
  all: try match goal with Hu : ub_cause _ ?r ?a |- _ => destruct (U r a); [by eapply elem_of_list_lookup_2|exact Hu] end.
  right. eexists. by left.
Qed.
Lemma reach_hdet tr s : reach tr s -> hdet tr s.
Proof.
  induction 1 as [|tr s l s' e R IH T].
  - split; try (by intros ? ? ?%elem_of_nil); try (by intros ? ? ? ?%elem_of_nil).
    intros k c [[(a & x & Hx & _)|(o & ks & H%elem_of_nil & _)]|H%elem_of_nil]; [by rewrite get_init in Hx|done..].
  - destruct (reach_u _ _ R) as [U F]. destruct (reach_inv _ _ R) as [I V]. pose proof (nk_mono _ _ _ _ U T) as HK. split.
    + intros k c [H|H]%elem_of_app; [apply (hd_lt _ _ IH) in H; lia|]. destruct (ev_detf_step _ _ _ _ _ _ U T H) as (-> & -> & _). lia.
    + intros k c c' [H|H]%elem_of_app [H'|H']%elem_of_app.
      * by eapply (hd_uniq _ _ IH).
      * apply (hd_lt _ _ IH) in H. destruct (ev_detf_step _ _ _ _ _ _ U T H') as (-> & _). lia.
      * apply (hd_lt _ _ IH) in H'. destruct (ev_detf_step _ _ _ _ _ _ U T H) as (-> & _). lia.
      * destruct (ev_detf_step _ _ _ _ _ _ U T H) as (_ & _ & -> & _). by apply elem_of_list_singleton in H' as [= ->].
    + intros k c [H|H]%elem_of_app.
      * destruct (hd_pend _ _ IH _ _ H) as [W|[D|(o & D)]].
        -- destruct (waiting_next _ _ _ _ _ U F T W) as [?|[?|(q & x & -> & Hx & S & Hk & i & Hi)]]; [auto..|].
           exfalso. pose proof (v_self _ V _ _ _ Hx Hk) as HC. simpl in HC. subst q. eapply self_kept; eauto using i_ref. by left.
        -- destruct (det_next _ _ _ _ _ _ U T D) as [?|(o & ?)]; [auto|]. right. right. exists o. by apply in_r.
        -- right. right. exists o. by apply in_l.
      * destruct (ev_detf_step _ _ _ _ _ _ U T H) as (_ & _ & _ & x & Hx & [[_ ?]|(x' & ? & ?)]); [auto|]. left. left. eauto.
    + intros k c [W|D].
      * destruct (wait_from _ _ _ _ _ _ U F T W) as [?|?]; [|by apply in_r]. apply in_l. apply (hd_wait _ _ IH). auto.
      * destruct (det_from _ _ _ _ _ _ U F T D) as [?|[?|?]]; [| |by apply in_r]; apply in_l; apply (hd_wait _ _ IH); auto.
Qed.
(** a detached function is called with the outcome of its future *)
Lemma detcalled_prefix tr s : reach tr s -> forall tr1 k o tr2, tr = tr1 ++ DetCalled k o :: tr2 ->
  exists c, DetachedF k c ∈ tr1 /\ Resolved c o ∈ tr1.
Proof.
  intros R tr1 k o tr2 E.
  refine (reach_prefix (fun tr1 v => match v with DetCalled k o => exists c, DetachedF k c ∈ tr1 /\ Resolved c o ∈ tr1 | _ => True end) _ _ _ R tr1 (DetCalled k o) tr2 E).
  clear. intros tr s l s' e R T e1 v e2 E. destruct v; try done. destruct (reach_u _ _ R) as [U F].
  destruct (ev_detcalled_step _ _ _ _ k o U T) as (c & Hd & Hr).
  { rewrite E. apply elem_of_app. right. left. }
  exists c. split; apply in_l; [apply (hd_wait _ _ (reach_hdet _ _ R)); auto|by eapply resolved_ev].
Qed.
(** a packaged_task that finds its cell gone *)
Lemma cancelled_prefix tr s : reach tr s -> forall tr1 c tr2, tr = tr1 ++ Cancelled c :: tr2 -> Freed c ∈ tr1.
Proof.
  intros R tr1 c tr2 E.
  refine (reach_prefix (fun tr1 v => match v with Cancelled c => Freed c ∈ tr1 | _ => True end) _ _ _ R tr1 (Cancelled c) tr2 E).
  clear. intros tr s l s' e R T e1 v e2 E. destruct v; try done. destruct (reach_u _ _ R) as [U F]. destruct (reach_inv _ _ R) as [I V].
  assert (get_cell s c = None /\ exists r, r ∈ rs s /\ c ∈ r_pre r) as (HN & r & Hr & Hp).
  { assert (Cancelled c ∈ e) as HE by (rewrite E; apply elem_of_app; right; left). clear E. rename c into cc. revert HE.
    tcases T; intros HE; evn HE; try discriminate HE; try (destruct (U r a); [by eapply elem_of_list_lookup_2|exact Hu]).
    all: injection HE as [= ->]; split; [done|]; eexists; split; [by eapply elem_of_list_lookup_2|].
    - destruct Hr as [->| ->]; by left.
    - destruct Hr as [->|[->| ->]]; by left. }
  apply in_l. apply (hd_ev _ _ (reach_hfree _ _ R)); [|done]. 
  destruct (decide (c < length (cs s))) as [|N]; [done|]. exfalso. pose proof (i_pre _ _ I c) as H.
  pose proof (meas_ge_r _ _ (FPr_nn c) (FPc_nn c) _ _ Hr) as G. fold (MP c) in G. unfold FPr in G. apply cnt_pos in Hp.
  pose proof (ev_nonneg e_done tr c). rewrite (proj2 (Nat.ltb_ge _ _)) in H by lia. unfold z in *. lia.
Qed.
