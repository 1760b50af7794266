(** Continuations are handed over once, after the antecedent is resolved, in the order of attachment. *)
From Coq Require Import List Bool Lia ZArith.
From stdpp Require Import list.
From Verif.Lib Require Import Perm.
From Verif.Future Require Import Model Spec Step Lin LinInv Loc LocInv Hist Count Trace Moved.

Lemma early_app a t1 t2 : (forall o, Resolved a o ∉ t1) -> early a (t1 ++ t2) = early a t1 ++ early a t2.
Proof.
  induction t1 as [|v t1 IH]; intros H; [done|].
  assert (forall o, Resolved a o ∉ t1) as H' by (intros o Ho; eapply H; right; exact Ho).
  destruct v; simpl; rewrite IH by done; try done; [by rewrite app_assoc|].
  destruct (Nat.eqb_spec c a) as [->|]; [|done]. destruct (H o). by left.
Qed.
Lemma early_res a t1 t2 o : Resolved a o ∈ t1 -> early a (t1 ++ t2) = early a t1.
Proof.
  induction t1 as [|v t1 IH]; [by intros ?%elem_of_nil|]. intros [<-|H]%elem_of_cons; simpl; [by rewrite Nat.eqb_refl|].
  destruct v; simpl; rewrite ?IH by done; done.
Qed.
Lemma early_new a tr d : d ∈ early a tr -> exists k, New d k ∈ tr /\ ante k = Some a.
Proof.
  induction tr as [|v tr IH]; simpl; [by intros ?%elem_of_nil|].
  assert (d ∈ early a tr -> exists k, New d k ∈ v :: tr /\ ante k = Some a) as IH'.
  { intros (k & ? & ?)%IH. exists k. split; [by right|done]. }
  destruct v; auto.
  - rewrite elem_of_app. intros [H|H]; [|auto]. destruct (decide _); [|by apply elem_of_nil in H].
    apply elem_of_list_singleton in H as ->. eexists. split; [by left|done].
  - destruct (_ =? _); [by intros ?%elem_of_nil|auto].
Qed.

Lemma hand_step2 s l s' e oo ll : no_ub s -> futs s -> tstep s l s' e -> Hand oo ll ∈ rs s' ->
   (exists ll', Hand oo ll' ∈ rs s /\ forall k, k ∈ ll -> k ∈ ll') \/
   (oo = None /\ exists k a o, ll = [KTask (length (cs s))] /\ New (length (cs s)) k ∈ e /\ ante k = Some a /\ resolved s a o) \/
   exists c x o, oo = Some c /\ Resolved c o ∈ e /\ get_cell s c = Some x /\ ll = thens x.
Proof.
  intros U F T HD. revert HD. tprep T; intros HD; rsn HD; try discriminate HD; try (by left; eauto).
  all: try (match goal with H : _ = cont_drop ?x |- _ => destruct x; discriminate end).
  all: injection HD as [= -> ->]; eauto.
  all: try (apply elem_of_list_lookup_2 in Hi; left; eexists; split; [exact Hi|intros; by right]).
  all: right.
  all: try (right; eexists _, _, _; split; [reflexivity|]; split; [rewrite ?elem_of_app, ?elem_of_cons; auto 10|]; split; [eassumption|by try destruct (tk _ _ _)]).
  all: left; split; [done|]; eexists _, _, _; split; [done|]; split; [by left|].
  all: try (match goal with H : _ \/ _ |- _ => destruct H as [[-> _]|[-> _]] end).
  all: split; [reflexivity|]; eexists; split; eassumption.
Qed.
Record hk (tr : list event) (s : st) : Prop := {
  hk_then a x d : get_cell s a = Some x -> KTask d ∈ thens x -> exists k, New d k ∈ tr /\ ante k = Some a;
  hk_hand o l d : Hand o l ∈ rs s -> KTask d ∈ l ->
    exists k a ov, New d k ∈ tr /\ ante k = Some a /\ Resolved a ov ∈ tr /\ forall c, o = Some c -> c = a;
  hk_lt d k a : New d k ∈ tr -> ante k = Some a -> a < d
}.
Lemma ante_lt s l s' e dd kk aa : no_ub s -> futs s -> tstep s l s' e -> New dd kk ∈ e -> ante kk = Some aa -> aa < dd.
Proof.
  intros U F T HE. revert HE. tprep T; intros HE; evn HE; try discriminate HE.
  all: injection HE as [= -> ->]; try done; try (destruct Hk as [[-> _]|[-> _]]); intros [= ->]; by eapply get_lt.
Qed.
Lemma reach_hk tr s : reach tr s -> hk tr s.
Proof.
  induction 1 as [|tr s l s' e R IH T].
  - split; simpl; try (by intros ? ? ? ?%elem_of_nil); intros ? ? ?; by rewrite get_init.
  - destruct (reach_u _ _ R) as [U F]. split.
    + intros a x d Hx Hd. destruct (thens_step _ _ _ _ _ _ _ U F T Hx Hd) as [(x0 & Hx0 & Hd0)|[(y0 & k & l0 & [= ->] & Hy0 & Hf & Hk & _)|[[=]|(n & [=])]]].
      * destruct (hk_then _ _ IH _ _ _ Hx0 Hd0) as (k & ? & ?). exists k. split; [by apply in_l|done].
      * destruct (fn_new _ _ _ _ _ U F T Hy0) as (k' & l' & Hf' & Hn & _). simplify_eq. exists k. split; [by apply in_r|done].
    + intros o ll d Hh Hd. destruct (hand_step2 _ _ _ _ _ _ U F T Hh) as [(ll' & H1 & H2)|[(-> & k & a & ov & -> & Hn & Hk & Ha)|(c & x & ov & -> & Hr & Hx & ->)]].
      * destruct (hk_hand _ _ IH _ _ _ H1 (H2 _ Hd)) as (k & a & ov & ? & ? & ? & ?). exists k, a, ov. split_and!; auto using in_l.
      * apply elem_of_list_singleton in Hd as [= ->]. exists k, a, ov. split_and!; auto using in_r; [|done]. apply in_l. by eapply resolved_ev.
      * destruct (hk_then _ _ IH _ _ _ Hx Hd) as (k & ? & ?). exists k, c, ov. split_and!; auto using in_l, in_r. by intros ? [= ->].
    + intros d k a [H|H]%elem_of_app Hk; [by eapply (hk_lt _ _ IH)|by eapply ante_lt].
Qed.
Lemma ev_handed_step s l s' e dd : no_ub s -> tstep s l s' e -> Handed dd ∈ e ->
  exists i o ks, l = L i AStep /\ rs s !! i = Some (Hand o (KTask dd :: ks)) /\ e = [Handed dd] /\ s' = add [Job dd] (set i (Hand o ks) s).
Proof.
  intros U T HE. revert HE. tcases T; intros HE; evn HE; try discriminate HE.
  all: try (destruct (U r a); [by eapply elem_of_list_lookup_2|exact Hu]).
  injection HE as [= ->]. eauto 10.
Qed.
Lemma handed_prefix tr s : reach tr s -> forall tr1 d tr2, tr = tr1 ++ Handed d :: tr2 ->
  exists k a o, New d k ∈ tr1 /\ ante k = Some a /\ Resolved a o ∈ tr1.
Proof.
  intros R tr1 d tr2 E.
  refine (reach_prefix (fun tr1 v => match v with Handed d => exists k a o, New d k ∈ tr1 /\ ante k = Some a /\ Resolved a o ∈ tr1 | _ => True end) _ _ _ R tr1 (Handed d) tr2 E).
  clear. intros tr s l s' e R T e1 v e2 E. destruct v; try done. destruct (reach_u _ _ R) as [U F].
  destruct (ev_handed_step _ _ _ _ d U T) as (i & o & ks & _ & Hi & _).
  { rewrite E. apply elem_of_app. right. left. }
  destruct (hk_hand _ _ (reach_hk _ _ R) _ _ d (elem_of_list_lookup_2 _ _ _ Hi) ltac:(by left)) as (k & a & ov & ? & ? & ? & _).
  exists k, a, ov. split_and!; auto using in_l.
Qed.

(** ** Order *)
Lemma early_got aa c y e : early aa (got_moved c y ++ e) = early aa e.
Proof. unfold got_moved. destruct (out y) as [[]|]; [destruct (moved y)|..]; done. Qed.
Lemma thens_exact s l s' e aa z0 z1 : no_ub s -> futs s -> tstep s l s' e -> get_cell s aa = Some z0 -> get_cell s' aa = Some z1 ->
  out z0 = None -> (forall o, Resolved aa o ∉ e) -> thens z1 ≫= cont_pre = (thens z0 ≫= cont_pre) ++ early aa e.
Proof.
  intros U F T H0 H1 HO HN. revert H0 H1 HN. tprep T; intros H0 H1 HN; csn H1; tkg; simplify_eq; rewrite ?early_got; simpl.
  all: try match goal with HN : forall o, Resolved _ o ∉ _ |- _ =>
    exfalso; eapply HN; rewrite ?elem_of_app, ?elem_of_cons; auto 10; fail end.
  all: rewrite ?app_nil_r; try done.
  all: try (match goal with H : get_cell ?s (length (cs ?s)) = Some _ |- _ => apply get_lt in H; lia end).
  all: rewrite ?bind_app; simpl; rewrite ?app_nil_r; try done.
  all: try (destruct (_ =? _); by rewrite app_nil_r).
  all: try match goal with H : ?k = Then ?a /\ _ \/ _ |- _ => assert (ante k = Some a) by (destruct H as [[-> _]|[-> _]]; done); clear H end.
  all: repeat destruct (decide _); rewrite ?app_nil_r; try done; simplify_eq; try congruence.
Qed.
Lemma early_gone s l s' e aa : no_ub s -> tstep s l s' e -> (exists o, Resolved aa o ∈ e) -> early aa e = [] /\ e ≫= e_handed = [].
Proof.
  intros U T (oo & HE). revert HE. tcases T; intros HE; evn HE; try discriminate HE.
  all: try (destruct (U r a); [by eapply elem_of_list_lookup_2|exact Hu]).
  all: injection HE as [= -> ->]; rewrite ?early_got; simpl; rewrite ?Nat.eqb_refl; split; try done.
  unfold got_moved. destruct (out y) as [[]|]; [destruct (moved y)|..]; done.
Qed.
Lemma early_nil tr s a : reach tr s -> length (cs s) <= a -> early a tr = [].
Proof.
  intros R H. destruct (early a tr) as [|d l] eqn:E; [done|]. destruct (early_new a tr d) as (k & Hn & Hk); [rewrite E; by left|].
  pose proof (hk_lt _ _ (reach_hk _ _ R) _ _ _ Hn Hk). pose proof (hf_len _ _ (reach_hfn _ _ R) _ _ Hn). lia.
Qed.
Lemma hand_uniq tr s a l l' : reach tr s -> Hand (Some a) l ∈ rs s -> Hand (Some a) l' ∈ rs s -> l = l'.
Proof.
  intros R (i & Hi)%elem_of_list_lookup (j & Hj)%elem_of_list_lookup. destruct (decide (i = j)) as [->|N]; [congruence|]. exfalso.
  pose proof (n_hand _ _ (reach_counts _ _ R) a) as H.
  pose proof (meas_ge_rr _ _ (HHr_nn a) (HHc_nn a) _ _ _ _ _ Hi Hj N) as G. fold (MH a) in G. unfold HHr in G.
  rewrite !cnt_self in G. unfold z in G. destruct (_ <? _); lia.
Qed.
Lemma pend_uniq tr s d o l o' l' : reach tr s -> Hand o l ∈ rs s -> Hand o' l' ∈ rs s -> KTask d ∈ l -> KTask d ∈ l' -> o = o'.
Proof.
  intros R (i & Hi)%elem_of_list_lookup (j & Hj)%elem_of_list_lookup H1 H2. destruct (decide (i = j)) as [->|N]; [congruence|]. exfalso.
  pose proof (n_handed _ _ (reach_counts _ _ R) d) as H. pose proof (ev_nonneg e_handed tr d).
  pose proof (meas_ge_rr _ _ (KKr_nn d) (KKc_nn d) _ _ _ _ _ Hi Hj N) as G. fold (MK d) in G. unfold KKr in G.
  assert (d ∈ l ≫= cont_pre) as G1 by (apply elem_of_list_bind; eexists; split; [|exact H1]; by left).
  assert (d ∈ l' ≫= cont_pre) as G2 by (apply elem_of_list_bind; eexists; split; [|exact H2]; by left).
  apply cnt_pos in G1. apply cnt_pos in G2. unfold z in *. destruct (_ <? _); lia.
Qed.
Lemma pend_handed tr s d o l : reach tr s -> Hand o l ∈ rs s -> KTask d ∈ l -> Handed d ∉ tr.
Proof.
  intros R Hi H1 HH.
  pose proof (n_handed _ _ (reach_counts _ _ R) d) as H.
  pose proof (meas_ge_r _ _ (KKr_nn d) (KKc_nn d) _ _ Hi) as G. fold (MK d) in G. unfold KKr in G.
  assert (d ∈ l ≫= cont_pre) as G1 by (apply elem_of_list_bind; eexists; split; [|exact H1]; by left).
  assert (d ∈ tr ≫= e_handed) as G2 by (apply elem_of_list_bind; eexists; split; [|exact HH]; by left).
  apply cnt_pos in G1. apply cnt_pos in G2. unfold ev, z in *. destruct (_ <? _); lia.
Qed.
Lemma in_handed d tr : d ∈ tr ≫= e_handed -> Handed d ∈ tr.
Proof. intros (v & Hv & H)%elem_of_list_bind. destruct v; simpl in Hv; try by apply elem_of_nil in Hv. by apply elem_of_list_singleton in Hv as ->. Qed.
Lemma in_ktask d l : d ∈ l ≫= cont_pre -> KTask d ∈ l.
Proof. intros (v & Hv & H)%elem_of_list_bind. destruct v; simpl in Hv; try by apply elem_of_nil in Hv. by apply elem_of_list_singleton in Hv as ->. Qed.
Lemma handed_res tr s a d : reach tr s -> d ∈ early a tr -> Handed d ∈ tr -> exists o, Resolved a o ∈ tr.
Proof.
  intros R He Hh. apply elem_of_list_split in Hh as (t1 & t2 & ->). destruct (handed_prefix _ _ R _ _ _ eq_refl) as (k & a' & o & Hn & Hk & Hr).
  apply early_new in He as (k' & Hn' & Hk'). rewrite (hf_uniq _ _ (reach_hfn _ _ R) _ _ k' (in_l _ _ _ Hn) Hn') in Hk. simplify_eq.
  exists o. by apply in_l.
Qed.
Lemma handed_of_nil tr s a : reach tr s -> (forall o, Resolved a o ∉ tr) -> handed_of a tr = [].
Proof.
  intros R H. unfold handed_of. destruct (filter _ _) as [|d l] eqn:E; [done|]. exfalso.
  assert (d ∈ filter (fun d => d ∈ early a tr) (tr ≫= e_handed)) as [H1 H2]%elem_of_list_filter by (rewrite E; left).
  destruct (handed_res _ _ _ _ R H1 (in_handed _ _ H2)) as (o & Ho). by eapply H.
Qed.

(** the step of a hand-over in progress *)
Lemma in_set_new s i r0 r : rs s !! i = Some r0 -> r ∈ rs (set i r s).
Proof. intros H%lookup_lt_Some. apply elem_of_list_lookup. exists i. unfold set. simpl. by apply list_lookup_insert. Qed.
Lemma hand_act s l s' e ii act aa ks : no_ub s -> tstep s l s' e -> l = L ii act -> rs s !! ii = Some (Hand (Some aa) ks) ->
  match ks with
  | [] => e = []
  | kk :: ks' => Hand (Some aa) ks' ∈ rs s' /\ e = (Handed <$> cont_pre kk)
  end.
Proof.
  intros U T E Hii.
  tcases T; try (destruct (U r a); [by eapply elem_of_list_lookup_2|exact Hu]); try discriminate E; try (injection E as [= -> <-]).
  all: try (destruct Hk as [[_ ->]|[_ ->]]; discriminate E).
  all: try (destruct Hr as [->|[->| ->]]; congruence). all: try (destruct Hr as [->| ->]; congruence). all: simplify_eq; try done.
  all: split; [|done]; rewrite in_add; left; by eapply in_set_new.
Qed.
Record ord (a : nat) (tr : list event) (s : st) : Prop := {
  o_no x : (forall o, Resolved a o ∉ tr) -> get_cell s a = Some x -> thens x ≫= cont_pre = early a tr;
  o_yes o : Resolved a o ∈ tr -> exists l, early a tr = handed_of a tr ++ l /\
    (forall ks, Hand (Some a) ks ∈ rs s -> ks ≫= cont_pre = l) /\ (l <> [] -> exists ks, Hand (Some a) ks ∈ rs s)
}.
Lemma handed_of_app a tr e : (exists o, Resolved a o ∈ tr) -> (forall d, d ∈ early a tr -> Handed d ∉ e) -> handed_of a (tr ++ e) = handed_of a tr.
Proof.
  intros (o & H) N. unfold handed_of. rewrite (early_res _ _ _ _ H), bind_app, filter_app.
  replace (filter (fun d => d ∈ early a tr) (e ≫= e_handed)) with (@nil nat); [by rewrite app_nil_r|].
  symmetry. destruct (filter _ (e ≫= e_handed)) as [|d l] eqn:E; [done|].
  assert (d ∈ filter (fun d => d ∈ early a tr) (e ≫= e_handed)) as [H1 H2]%elem_of_list_filter by (rewrite E; left).
  destruct (N _ H1 (in_handed _ _ H2)).
Qed.
Lemma handed_of_eq a tr e l : (exists o, Resolved a o ∈ tr) -> (forall d, d ∈ l -> d ∈ early a tr) -> e ≫= e_handed = l ->
  handed_of a (tr ++ e) = handed_of a tr ++ l.
Proof.
  intros (o & H) N E. unfold handed_of. rewrite (early_res _ _ _ _ H), bind_app, filter_app, E. f_equal. clear E.
  induction l as [|d l IH]; [done|]. rewrite filter_cons. destruct (decide _) as [|C]; [|destruct C; apply N; left].
  f_equal. apply IH. intros; apply N; by right.
Qed.
Lemma res_hand s l s' e dd oo : no_ub s -> futs s -> tstep s l s' e -> Resolved dd oo ∈ e -> exists ks, Hand (Some dd) ks ∈ rs s'.
Proof.
  intros U F T HE. revert HE. tprep T; intros HE; evn HE; try discriminate HE.
  all: injection HE as [= -> ->]; eexists; first [apply (proj2 (in_resolve _ _ _ _ _)); by right|apply in_add_l; apply (proj2 (in_resolve _ _ _ _ _)); by right|apply in_r; by left].
Qed.
Lemma res_hand_then s l s' e dd oo xx : no_ub s -> futs s -> tstep s l s' e -> Resolved dd oo ∈ e -> get_cell s dd = Some xx -> Hand (Some dd) (thens xx) ∈ rs s'.
Proof.
  intros U F T HE HX. revert HE HX. tprep T; intros HE HX; evn HE; try discriminate HE.
  all: injection HE as [= -> ->]; simplify_eq; first [apply (proj2 (in_resolve _ _ _ _ _)); by right|apply in_add_l; apply (proj2 (in_resolve _ _ _ _ _)); by right|apply in_r; try destruct (tk _ _ _); by left].
Qed.
Definition hand_cell (r : res) : list nat := match r with Hand (Some c) _ => [c] | _ => [] end.
Lemma in_hand_cell a s : a ∈ rs s ≫= hand_cell <-> exists ks, Hand (Some a) ks ∈ rs s.
Proof.
  rewrite elem_of_list_bind. split.
  - intros (r & Hr & H). destruct r as [| | | |[c|] ks| | | |]; simpl in Hr; try by apply elem_of_nil in Hr. apply elem_of_list_singleton in Hr as ->. eauto.
  - intros (ks & H). eexists. split; [|exact H]. by left.
Qed.
Lemma reach_ord a tr s : reach tr s -> ord a tr s.
Proof.
  induction 1 as [|tr s l s' e R IH T]; [split; [intros x _; by rewrite get_init|by intros o ?%elem_of_nil]|].
  pose proof (reach_step _ _ _ _ _ R T) as R'. destruct (reach_u _ _ R) as [U F]. split.
  - intros x H Hx. assert (forall o, Resolved a o ∉ tr) as H1 by (intros o Ho; eapply H, in_l, Ho).
    assert (forall o, Resolved a o ∉ e) as H2 by (intros o Ho; eapply H, in_r, Ho).
    rewrite early_app by done. destruct (alive_step _ _ _ _ a U F T) as [(y & Hy)| ->]; [by eexists| |].
    + rewrite <- (o_no _ _ _ IH _ H1 Hy). eapply thens_exact; eauto. destruct (out y) as [o|] eqn:Ho; [|done].
      destruct (H1 o). by eapply (hr_ev _ _ (reach_hres _ _ R)).
    + pose proof (early_nil _ _ _ R (le_n _)) as E. rewrite E. simpl.
      destruct (thens x ≫= cont_pre) as [|d ds] eqn:Et.
      * destruct (early _ e) as [|d ds] eqn:Ee; [done|]. destruct (early_new (length (cs s)) e d) as (k & Hn & Hk); [rewrite Ee; by left|].
        pose proof (ante_lt _ _ _ _ _ _ _ U F T Hn Hk). apply (ev_new_step _ _ _ _ _ _ U F T) in Hn as (-> & _). lia.
      * assert (KTask d ∈ thens x) as Hd by (apply in_ktask; rewrite Et; left).
        destruct (thens_step _ _ _ _ _ _ _ U F T Hx Hd) as [(z0 & Hz0%get_lt & _)|[(y0 & k & l0 & [= ->] & Hy0 & Hf & Hk & Hal & _)|[[=]|(n & [=])]]]; [lia|].
        destruct (hk_then _ _ (reach_hk _ _ R') _ _ _ Hx Hd) as (k' & Hn & Hk').
        pose proof (hk_lt _ _ (reach_hk _ _ R') _ _ _ Hn Hk'). lia.
  - intros o Ho. destruct (decide (a ∈ tr ≫= e_res)) as [(o1 & HE)%in_res_inv|HE].
    + destruct (o_yes _ _ _ IH _ HE) as (ll & E & H1 & H2). rewrite (early_res _ _ _ _ HE).
      assert (forall o', Resolved a o' ∉ e) as HN.
      { intros o' Ho'. destruct (ev_res_step _ _ _ _ _ _ U F T Ho') as [(y & Hy & Hyo) _].
        pose proof (hr_out _ _ (reach_hres _ _ R) _ _ _ HE Hy). congruence. }
      assert (forall ks, Hand (Some a) ks ∈ rs s' -> exists ks', Hand (Some a) ks' ∈ rs s) as HB.
      { intros ks Hk. destruct (hand_step2 _ _ _ _ _ _ U F T Hk) as [(ks' & ? & _)|[(? & _)|(c & x & ov & [= <-] & Hr & _)]]; [eauto|done|].
        by apply HN in Hr. }
      (* a continuation of [a] is handed over only from its own list *)
      assert (forall d i o' ks, d ∈ early a tr -> rs s !! i = Some (Hand o' (KTask d :: ks)) -> exists ks', rs s !! i = Some (Hand (Some a) ks')) as HO.
      { intros d i o' ks Hd Hi. rewrite E in Hd. pose proof (elem_of_list_lookup_2 _ _ _ Hi) as Hin. apply elem_of_app in Hd as [Hd|Hd].
        - apply elem_of_list_filter in Hd as [_ Hd%in_handed]. destruct (pend_handed _ _ _ _ _ R Hin ltac:(by left) Hd).
        - destruct H2 as (ks' & Hk'); [by intros ->; apply elem_of_nil in Hd|]. rewrite <- (H1 _ Hk') in Hd. apply in_ktask in Hd.
          rewrite (pend_uniq _ _ _ _ _ _ _ R Hin Hk' ltac:(by left) Hd) in Hi. eauto. }
      destruct (decide (a ∈ rs s ≫= hand_cell)) as [(ks & Hin)%in_hand_cell|HX].
      * pose proof (H1 _ Hin) as Hks. destruct (surv _ _ _ _ _ U T Hin) as [Hin'|(i & act & -> & Hi)].
        -- exists ll. split; [|split; [|eauto]].
           ++ rewrite E at 1. f_equal. symmetry. apply handed_of_app; [eauto|]. intros d Hd Hh.
              destruct (ev_handed_step _ _ _ _ _ U T Hh) as (i & o' & ks1 & -> & Hi & -> & ->).
              destruct (HO _ _ _ _ Hd Hi) as (ks2 & Hi'). rewrite Hi in Hi'. injection Hi' as [= -> <-].
              pose proof (hand_uniq _ _ _ _ _ R Hin (elem_of_list_lookup_2 _ _ _ Hi)) as ->.
              assert (Hand (Some a) ks1 ∈ rs (add [Job d] (set i (Hand (Some a) ks1) s))) as Hn by (rewrite in_add; left; by eapply in_set_new).
              pose proof (hand_uniq _ _ _ _ _ R' Hin' Hn) as C. apply (f_equal length) in C. simpl in C. lia.
           ++ intros ks' Hk'. by rewrite (hand_uniq _ _ _ _ _ R' Hk' Hin').
        -- pose proof (hand_act _ _ _ _ _ _ _ _ U T eq_refl Hi) as HA. destruct ks as [|k ks].
           ++ subst e. simpl in Hks. subst ll. exists []. rewrite app_nil_r in *. split; [by rewrite app_nil_r|]. split; [|done].
              intros ks Hk. destruct (hand_step2 _ _ _ _ _ _ U F T Hk) as [(ks' & Hs & Hsub)|[(? & _)|(c & x & ov & [= <-] & Hr & _)]]; [|done|by apply HN in Hr].
              rewrite (hand_uniq _ _ _ _ _ R Hs Hin) in Hsub. destruct ks as [|k ks]; [done|]. specialize (Hsub k ltac:(left)). by apply elem_of_nil in Hsub.
           ++ destruct HA as [Hn He]. rewrite bind_cons in Hks. exists (ks ≫= cont_pre). split; [|split].
              ** rewrite (handed_of_eq _ _ _ (cont_pre k)); [|eauto| |].
                 --- by rewrite <- app_assoc, Hks.
                 --- intros d Hd. rewrite E, <- Hks, !elem_of_app. auto.
                 --- rewrite He. by destruct k.
              ** intros ks' Hk'. by rewrite (hand_uniq _ _ _ _ _ R' Hk' Hn).
              ** eauto.
      * assert (ll = []) as ->. { destruct ll; [done|]. destruct HX. apply in_hand_cell. by apply H2. }
        exists []. split; [|split; [|done]].
        -- rewrite E at 1. f_equal. symmetry. apply handed_of_app; [eauto|]. intros d Hd Hh.
           destruct (ev_handed_step _ _ _ _ _ U T Hh) as (i & o' & ks1 & -> & Hi & _). destruct (HO _ _ _ _ Hd Hi) as (ks2 & Hi').
           destruct HX. apply in_hand_cell. exists ks2. by eapply elem_of_list_lookup_2.
        -- intros ks Hk%HB. destruct HX. by apply in_hand_cell.
    + assert (forall o, Resolved a o ∉ tr) as HN by (intros o' Ho'; apply HE; by eapply in_res).
      apply elem_of_app in Ho as [Ho|Ho]; [by apply HN in Ho|]. destruct (early_gone _ _ _ _ a U T) as [E1 E2]; [eauto|].
      destruct (ev_res_step _ _ _ _ _ _ U F T Ho) as [(x & Hx & Hxo) _]. exists (early a tr).
      assert (handed_of a (tr ++ e) = []) as ->.
      { unfold handed_of. rewrite early_app, E1, app_nil_r, bind_app, E2, app_nil_r by done. by eapply handed_of_nil. }
      split; [by rewrite early_app, E1, app_nil_r|]. split; [|intros _; by eapply res_hand].
      intros ks Hk. destruct (hand_step2 _ _ _ _ _ _ U F T Hk) as [(ks' & Hs & Hsub)|[(? & _)|(c & x' & ov & [= <-] & Hr & Hx' & ->)]]; [|done|].
      * exfalso. pose proof (n_hand _ _ (reach_counts _ _ R) a) as H.
        pose proof (meas_ge_rc _ _ (HHr_nn a) (HHc_nn a) _ _ _ _ Hs Hx) as G. fold (MH a) in G. unfold HHr, HHc in G.
        rewrite Hxo, cnt_self in G. unfold z, is in G. rewrite Nat.eqb_refl in G. destruct (_ <? _); lia.
      * by apply (o_no _ _ _ IH).
Qed.
(** the continuations handed over are the first ones attached, and all of them once the hand-over is over *)
Lemma handed_order tr s a : reach tr s -> exists l, early a tr = handed_of a tr ++ l.
Proof.
  intros R. destruct (decide (a ∈ tr ≫= e_res)) as [(o1 & HE)%in_res_inv|HE].
  - destruct (o_yes _ _ _ (reach_ord a _ _ R) _ HE) as (l & ? & _). eauto.
  - exists (early a tr). rewrite (handed_of_nil _ _ _ R); [done|]. intros o Ho. apply HE. by eapply in_res.
Qed.
Lemma handed_all tr s a o : reach tr s -> Resolved a o ∈ tr -> (forall ks, Hand (Some a) ks ∉ rs s) -> handed_of a tr = early a tr.
Proof.
  intros R Ho HN. destruct (o_yes _ _ _ (reach_ord a _ _ R) _ Ho) as (l & -> & _ & H). destruct l; [by rewrite app_nil_r|].
  destruct H as (ks & Hk); [done|]. by apply HN in Hk.
Qed.
