(** The invariant of the future model is preserved. *)
From Coq Require Import List Bool Lia ZArith.
From stdpp Require Import list.
From Verif.Lib Require Import Perm.
From Verif.Future Require Import Model Spec Step Lin LinInv Loc.

Ltac gn H := repeat first
  [ rewrite get_add in H | rewrite get_set in H | rewrite get_rem in H | rewrite get_nk in H
  | erewrite get_resolve in H by eassumption
  | erewrite get_put in H by eassumption
  | rewrite get_free in H by (eapply get_lt; eassumption)
  | rewrite get_fresh in H | rewrite get_incr in H | rewrite get_incrs in H | rewrite get_take_eq in H
  | rewrite len_incrs in H | rewrite len_incr in H | rewrite len_put in H ].
(** case analysis on a steps, with the facts needed to look up cells *)
Lemma take_cell s q c x : get_cell s c = Some x -> get_cell (take_out q s) c = Some (if tk q c x then set_moved x else x).
Proof. intros H. by rewrite get_take_eq, H. Qed.

Definition futs (s : st) : Prop := forall c, Fut c ∈ rs s -> alive s c.
Lemma fut_len s : futs s -> Fut (length (cs s)) ∈ rs s -> False.
Proof. intros F H. apply F in H as (x & H). apply get_lt in H. lia. Qed.
Ltac cs1 H :=
  gn H; simpl in H;
  repeat match type of H with
  | context [if (?a =? ?b)%nat then _ else _] => destruct (Nat.eqb_spec a b); try subst a; try subst b
  | context [if tk ?a ?b ?c then _ else _] => destruct (tk a b c) eqn:?
  end.
Ltac cs2 H :=
  simpl in H;
  repeat match type of H with
  | context [?f <$> get_cell ?s ?d] => let E := fresh "E" in destruct (get_cell s d) eqn:E; simpl in H
  end; simplify_eq; simpl in *.
Ltac tkg := repeat match goal with
  | |- context [if tk ?a ?b ?c then _ else _] => destruct (tk a b c) eqn:?; simpl
  | H : context [if tk ?a ?b ?c then _ else _] |- _ => destruct (tk a b c) eqn:?; simpl in H
  end.
Ltac csn H := cs1 H; cs2 H.

Ltac tprep T :=
  tcases T;
  try match goal with H : attach _ _ _ = Some _ |- _ =>
    let Hw := fresh "Hw" in let Hwo := fresh "Hwo" in apply attach_cases in H as (w & Hw & [[Hwo ->]|(wo & Hwo & ->)]);
    pose proof Hw as Hw0; csn Hw0 end;
  try match goal with F : futs _, H : Fut (length (cs _)) ∈ rs _ |- _ => destruct (fut_len _ F H) end;
  try match goal with |- context [resolve_to ?c _ (set_fn None ?y) (put ?c (set_fn None ?y) (rem ?i ?s))] =>
    match goal with Hc : get_cell s c = Some y |- _ =>
    pose proof (get_put_eq (rem i s) c y (set_fn None y) Hc) end end;
  try match goal with |- context [take_out ?q ?s] => 
    match goal with Hc : get_cell s ?c = Some ?x0, _ : fn ?x0 = _ |- _ => pose proof (take_cell s q c x0 Hc) end end;
  try match goal with H : get_cell (put _ _ (set _ _ (take_out _ _))) _ = _ |- _ => let Ht0 := fresh "Ht0" in pose proof H as Ht0; csn Ht0 end;
  try match goal with U : no_ub _, Hu : ub_cause _ ?r ?a |- _ => destruct (U r a); [by eapply elem_of_list_lookup_2|exact Hu] end.

Ltac glen := try match goal with H : get_cell ?s (length (cs ?s)) = Some _ |- _ => apply get_lt in H; lia end.
Lemma v_then_step s l s' e : no_ub s -> futs s -> loc s -> tstep s l s' e ->
  forall c x, get_cell s' c = Some x -> thens x <> [] -> out x = None.
Proof.
  intros U F V T dd xx. pose proof (v_then _ V) as VT. tprep T; intros HH; csn HH; tkg.
  all: try done; eauto.
Qed.

Lemma v_self_step s l s' e : no_ub s -> futs s -> loc s -> tstep s l s' e ->
  forall c x k, get_cell s' c = Some x -> k ∈ thens x -> kown c k.
Proof.
  intros U F V T dd xx kk. pose proof (v_self _ V) as VT. tprep T; intros HH; csn HH; tkg; rewrite ?elem_of_nil, ?elem_of_app, ?elem_of_list_singleton.
  all: try done; eauto.
  all: try (intros [?| ->]; [|done]; eauto).
Qed.

(** what may change about another cell *)
Lemma isres_step s l s' e aa : no_ub s -> futs s -> tstep s l s' e -> isres s aa -> alive s' aa -> isres s' aa.
Proof.
  intros U F T (oo & xx & Hxx & Hoo) (yy & HH). exists oo, yy. split; [done|]. revert HH. tprep T; intros HH; csn HH; tkg.
  all: try done; glen.
  all: try congruence.
Qed.
Lemma ktask_step s l s' e aa x dd : no_ub s -> futs s -> tstep s l s' e -> get_cell s aa = Some x -> KTask dd ∈ thens x ->
  alive s' aa -> isres s' aa \/ exists y, get_cell s' aa = Some y /\ KTask dd ∈ thens y.
Proof.
  intros U F T Hxx Hoo (yy & HH).
  assert ((exists o, out yy = Some o) \/ KTask dd ∈ thens yy) as [(o & Ho)|Hd]; [|left; exists o, yy; eauto|right; eauto].
  revert HH. tprep T; intros HH; csn HH; tkg.
  all: try done; glen; eauto.
  all: rewrite ?elem_of_app; eauto.
Qed.

Lemma v_ante_step s l s' e : no_ub s -> refs_ok s' -> futs s -> loc s -> tstep s l s' e ->
  forall c x k l a, get_cell s' c = Some x -> fn x = Some (k, l) -> ante k = Some a ->
    isres s' a \/ exists y, get_cell s' a = Some y /\ KTask c ∈ thens y.
Proof.
  intros U R F V T dd xx kk ll aa HH Hf0 Hk0.
  assert (alive s' aa) as Haa.
  { eapply (cref_alive _ _ _ _ R HH). unfold c_strong. rewrite Hf0. unfold ofn, fn_refs. rewrite !elem_of_app. left. left.
    destruct kk; simpl in *; simplify_eq; by left. }
  assert ((exists y k', get_cell s dd = Some y /\ fn y = Some (k', ll) /\ ante k' = Some aa) \/
     get_cell s dd = None /\ dd = length (cs s)) as [(y & k' & Hy & Hf & Hk')|[Hnone Hlen]].
  { clear Haa R. revert HH Hf0 Hk0. tprep T; intros HH; csn HH; tkg; intros; simplify_eq/=.
    all: try (right; split; [by apply get_none_ge|done]).
    all: left; eauto. }
  - destruct (v_ante _ V _ _ _ _ _ Hy Hf Hk') as [Hr|(w & Hw & Hin)].
    + left. by eapply isres_step.
    + by eapply ktask_step.
  - subst dd. clear Haa. revert HH Hf0 Hk0. tprep T; intros HH; csn HH; tkg; intros; simplify_eq/=.
    all: try (destruct Hk as [[-> _]|[-> _]]; simplify_eq/=).
    all: match goal with
      | Hw : get_cell ?s0 ?a = Some ?w |- context [put ?a _ ?s0] =>
        right; eexists; split; [apply (get_put_eq _ _ _ _ Hw)|]; simpl; rewrite elem_of_app, elem_of_list_singleton; by right
      | Hw : get_cell ?s0 ?a = Some ?w |- context [add [Hand None _] ?s0] =>
        left; eexists _, _; split; [exact Hw|]; simpl; eassumption
      end.
Qed.

Lemma fn_step s l s' e dd y0 y1 : no_ub s -> futs s -> tstep s l s' e -> get_cell s dd = Some y0 -> get_cell s' dd = Some y1 ->
  fn y1 = fn y0 \/ fn y1 = None /\ (exists r, r ∈ rs s /\ (dd ∈ r_pre r \/ dd ∈ r_body r)) \/
  exists t q l, fn y0 = Some (Forward (Some t) q, l) /\ fn y1 = Some (Forward None q, l) /\ Frame dd Enter ∈ rs s.
Proof.
  intros U F T H0 HH. revert HH. tprep T; intros HH; csn HH; tkg.
  all: glen; auto.
  all: try (right; right; eexists _, _, _; split_and!; eauto using elem_of_list_lookup_2; fail).
  all: try (apply elem_of_list_lookup_2 in Hi; right; left; split; [done|]; eexists; split; [exact Hi|]).
  all: try (destruct Hr as [->|[->| ->]]); simpl; rewrite ?elem_of_list_singleton; auto.
Qed.
Lemma thens_step s l s' e a1 x1 kk : no_ub s -> futs s -> tstep s l s' e -> get_cell s' a1 = Some x1 -> kk ∈ thens x1 ->
  (exists x0, get_cell s a1 = Some x0 /\ kk ∈ thens x0) \/
  (exists y k l, kk = KTask (length (cs s)) /\ get_cell s' (length (cs s)) = Some y /\ fn y = Some (k, l) /\ ante k = Some a1 /\
     length (cs s) <> a1 /\ get_cell s (length (cs s)) = None) \/
  kk = KSelf a1 \/ exists n, kk = KDet n a1.
Proof.
  intros U F T HH. 
  assert (get_cell s (length (cs s)) = None) as Hlen by (by apply get_none_ge).
  revert HH. tprep T; intros HH; csn HH; tkg; rewrite ?elem_of_nil, ?elem_of_app, ?elem_of_list_singleton; intros HK; try (match type of HK with _ \/ _ => destruct HK as [HK|HK] end).
  all: glen; try done; eauto 6.
  all: right; left; try destruct Hk as [[-> _]|[-> _]]; eexists (Cell None false [] (Some (_, _)) None 1), _, _; (split; [done|]; split;
    [erewrite get_put by eassumption; rewrite (proj2 (Nat.eqb_neq _ _)) by done;
       rewrite ?get_add, get_fresh, len_incr, ?len_incrs, ?len_put; simpl; rewrite Nat.eqb_refl; reflexivity|done]).
Qed.
Lemma pre_len tr s a x d : lin tr s -> get_cell s a = Some x -> KTask d ∈ thens x -> d < length (cs s).
Proof.
  intros I Hx Hk. pose proof (meas_ge_c _ _ (FPr_nn d) (FPc_nn d) _ _ _ Hx) as G. fold (MP d) in G.
  pose proof (i_pre _ _ I d) as T. pose proof (ev_nonneg e_done tr d).
  assert (d ∈ c_pre x) as Hc'. { unfold c_pre. apply elem_of_list_bind. exists (KTask d). split; [simpl; by left|done]. }
  apply cnt_pos in Hc'. unfold FPc in G. destruct (Nat.ltb_spec d (length (cs s))); lia.
Qed.
Lemma alive_step s l s' e dd : no_ub s -> futs s -> tstep s l s' e -> alive s' dd -> alive s dd \/ dd = length (cs s).
Proof.
  intros U F T (yy & HH). revert HH. tprep T; intros HH; csn HH; tkg.
  all: try (left; eexists; eassumption). all: auto.
Qed.
Lemma body_rc tr s r c d x : lin tr s -> alive s c -> r ∈ rs s -> c ∈ r_body r -> get_cell s d = Some x -> KTask c ∈ thens x -> False.
Proof.
  intros I A Hr Hc Hx Hk. pose proof (meas_ge_rc _ _ (F4r_nn c) (F4c_nn c) _ _ _ _ Hr Hx) as G. fold (M4 c) in G.
  destruct (i_fn _ _ I c) as [T _]. specialize (T A). pose proof (ev_nonneg e_lost tr c).
  assert (c ∈ c_pre x) as Hc'. { unfold c_pre. apply elem_of_list_bind. exists (KTask c). split; [simpl; by left|done]. }
  apply cnt_pos in Hc. apply cnt_pos in Hc'. unfold F4r, F4c in G.
  pose proof (is_nn c d (match fn x with Some _ => 0 | None => 1 end)%Z ltac:(destruct (fn x); lia)).
  unfold z in *. lia.
Qed.
Lemma v_ktask_step tr s l s' e : no_ub s -> futs s -> lin tr s -> loc s -> tstep s l s' e ->
  forall a x d y, get_cell s' a = Some x -> KTask d ∈ thens x -> get_cell s' d = Some y ->
    exists k l, fn y = Some (k, l) /\ ante k = Some a.
Proof.
  intros U F I V T a x d y Hx Hd Hy.
  destruct (thens_step _ _ _ _ _ _ _ U F T Hx Hd) as [(x0 & Hx0 & Hd0)|[(y0 & k & l0 & [= ->] & Hy0 & Hf & Hk & _)|[[=]|(n & [=])]]].
  - pose proof (pre_len _ _ _ _ _ I Hx0 Hd0).
    destruct (alive_step _ _ _ _ d U F T) as [(y0 & Hy0)| ->]; [by eexists| |lia].
    destruct (v_ktask _ V _ _ _ _ Hx0 Hd0 Hy0) as (k & l0 & Hf & Hk).
    destruct (fn_step _ _ _ _ _ _ _ U F T Hy0 Hy) as [E|[(_ & r & Hr & [Hp|Hp])|(t & q & l1 & Hf1 & Hf2 & Hr)]].
    + rewrite E. eauto.
    + destruct (pre_rc _ _ _ _ _ _ I Hr Hp Hx0 Hd0).
    + destruct (body_rc _ _ _ _ _ _ I (ex_intro _ _ Hy0) Hr Hp Hx0 Hd0).
    + simplify_eq/=. eauto.
  - simplify_eq. eauto.
Qed.

Lemma in_fn_drop r f : r ∈ fn_drop f -> (exists c, r = Drop c /\ c ∈ ofn f) \/ exists t, r = PromDrop t /\ t ∈ ofp f.
Proof.
  destruct f as [[k l]|]; simpl; [|by rewrite elem_of_nil]. rewrite elem_of_app, elem_of_list_fmap. intros [(c & -> & H)|H]; [eauto|].
  destruct k as [| | |[]]; simpl in *; rewrite ?elem_of_nil, ?elem_of_list_singleton in H; try done. subst. right. eexists. split; [done|]. by left.
Qed.
Lemma rs_fresh f s : rs (fresh f s) = rs s.
Proof. done. Qed.
Lemma rs_st (c : list (option cell)) (s : st) n : rs (St c (rs s) n) = rs s.
Proof. done. Qed.
Lemma in_ins (r r' : res) (i : nat) (l : list res) : r ∈ <[i := r']> l -> r = r' \/ r ∈ l.
Proof.
  intros (j & H)%elem_of_list_lookup. apply list_lookup_insert_Some in H as [(_ & <- & _)|(_ & H)]; [by left|].
  right. by eapply elem_of_list_lookup_2.
Qed.
Ltac rsn H :=
  match type of H with
  | _ ∈ rs (add _ _) => apply in_add in H; destruct H as [H|H]; rsn H
  | _ ∈ rs (resolve_to _ _ _ _) => apply in_resolve in H; destruct H as [H|H]; rsn H
  | _ ∈ rs (set _ _ _) => apply in_set in H; destruct H as [H|H]; rsn H
  | _ ∈ rs (rem _ _) => apply in_rem in H; rsn H
  | _ ∈ rs (put _ _ _) => rewrite rs_put in H; rsn H
  | _ ∈ rs (fresh _ _) => rewrite rs_fresh in H; rsn H
  | _ ∈ rs (St _ (rs _) _) => rewrite rs_st in H; rsn H
  | _ ∈ rs (incr _ _) => rewrite rs_incr in H; rsn H
  | _ ∈ rs (incrs _ _) => rewrite rs_incrs in H; rsn H
  | _ ∈ rs (take_out _ _) => rewrite rs_take in H; rsn H
  | _ ∈ <[_ := _]> _ => apply in_ins in H; destruct H as [H|H]; rsn H
  | _ ∈ [] => apply elem_of_nil in H; destruct H
  | _ ∈ _ :: _ => apply elem_of_cons in H; destruct H as [H|H]; rsn H
  | _ ∈ _ ++ _ => apply elem_of_app in H; destruct H as [H|H]; rsn H
  | _ ∈ fn_drop _ => apply in_fn_drop in H; destruct H as [(? & H & ?)|(? & H & ?)]
  | _ ∈ cont_drop <$> _ => apply elem_of_list_fmap in H; destruct H as (? & H & ?)
  | _ ∈ match ?h with Some _ => _ | None => _ end => destruct h; rsn H
  | _ => idtac
  end.
Lemma v_det_step s l s' e : no_ub s -> futs s -> refs_ok s' -> loc s -> tstep s l s' e ->
  forall k c, Det k c ∈ rs s' -> isres s' c.
Proof.
  intros U F R V T kk dd HD. 
  assert (alive s' dd) as A by (eapply ref_alive; [done|exact HD|by left]).
  assert (isres s dd) as G; [|eapply isres_step; eauto]. clear R A. revert HD. tprep T; intros HD; rsn HD; try discriminate HD; try (by eapply v_det; eauto).
  - injection HD as [= -> ->]. by eexists.
  - injection HD as [= -> ->]. eapply (v_hand _ V); [by eapply elem_of_list_lookup_2|by left].
  - destruct x; done.
Qed.
Lemma resolve_to_isres s c x o : get_cell s c = Some x -> isres (resolve_to c o x s) c.
Proof. intros H. exists o. eexists. split; [by rewrite (get_resolve _ _ _ _ _ H), Nat.eqb_refl|done]. Qed.
(** where a list of continuations in the course of being handed over comes from *)
Lemma hand_step s l s' e oo ll : no_ub s -> futs s -> tstep s l s' e -> Hand oo ll ∈ rs s' ->
   (exists ll', Hand oo ll' ∈ rs s /\ forall k, k ∈ ll -> k ∈ ll') \/ (oo = None /\ ll = [KTask (length (cs s))]) \/
   exists c x, oo = Some c /\ isres s' c /\ get_cell s c = Some x /\ out x = None /\ ll = thens x.
Proof.
  intros U F T HD. revert HD. tprep T; intros HD; rsn HD; try discriminate HD; try (by left; eauto).
  all: try (match goal with H : _ = cont_drop ?x |- _ => destruct x; discriminate end).
  all: injection HD as [= -> ->]; eauto.
  all: try (apply elem_of_list_lookup_2 in Hi; left; eexists; split; [exact Hi|intros; by right]).
  all: right; right. 
  all: try (eexists c, _; split; [done|]; split; [|done]; by apply resolve_to_isres).
  eexists t, _; split; [done|]; split; [|split; [eassumption|]; by destruct (tk q t c0)]. by apply resolve_to_isres.
Qed.
Lemma v_hand_step s l s' e : no_ub s -> futs s -> refs_ok s' -> loc s -> tstep s l s' e ->
  forall o l k c, Hand o l ∈ rs s' -> KDet k c ∈ l -> isres s' c.
Proof.
  intros U F R V T oo ll kk dd HD Hk.
  destruct (hand_step _ _ _ _ _ _ U F T HD) as [(ll' & H & HS)|[[_ ->]|(c & x & -> & Hc & Hx & Ho & ->)]].
  - eapply isres_step; eauto; [eapply v_hand; eauto|]. eapply ref_alive; [done|exact HD|]. simpl. apply elem_of_app. right.
    apply elem_of_list_bind. exists (KDet kk dd). split; [by left|done].
  - apply elem_of_list_singleton in Hk. done.
  - by rewrite (v_self _ V _ _ _ Hx Hk).
Qed.
Lemma two_frames tr s c p q : lin tr s -> alive s c -> Frame c p ∈ rs s -> Frame c q ∈ rs s -> p = q.
Proof.
  intros I A (i & Hi)%elem_of_list_lookup (j & Hj)%elem_of_list_lookup. destruct (decide (i = j)) as [->|N]; [by simplify_eq|].
  pose proof (meas_ge_rr _ _ (F4r_nn c) (F4c_nn c) _ _ _ _ _ Hi Hj N) as G. fold (M4 c) in G.
  destruct (i_fn _ _ I c) as [T _]. specialize (T A). pose proof (ev_nonneg e_lost tr c).
  unfold F4r in G. destruct p, q; simpl in G; rewrite ?z_self, ?z_nil, ?is_eq in G; lia.
Qed.
Lemma pre_frame tr s c p i j r : lin tr s -> alive s c -> rs s !! i = Some (Frame c p) -> rs s !! j = Some r -> c ∈ r_pre r -> i = j.
Proof.
  intros I A Hi Hj Hp. destruct (decide (i = j)) as [->|N]; [by simplify_eq|].
  pose proof (meas_ge_rr _ _ (F4r_nn c) (F4c_nn c) _ _ _ _ _ Hi Hj N) as G. fold (M4 c) in G.
  destruct (i_fn _ _ I c) as [T _]. specialize (T A). pose proof (ev_nonneg e_lost tr c).
  unfold F4r in G. apply cnt_pos in Hp. destruct p; simpl in G; rewrite ?z_self, ?z_nil, ?is_eq in G; unfold z in *; lia.
Qed.
Lemma one_ref s c x r d y : refs_ok s -> get_cell s c = Some x -> strong x = 1 -> r ∈ rs s -> c ∈ r_strong r ->
  get_cell s d = Some y -> c ∈ c_strong y -> False.
Proof.
  intros R Hx S Hr Hc Hy Hd. specialize (R c). rewrite M1_split in R. unfold sv in R. rewrite Hx, S in R.
  pose proof (meas_ge_rc _ _ (F1r_nn c) (R1c_nn c) _ _ _ _ Hr Hy) as G. fold (R1 c) in G. unfold F1r, R1c in G.
  apply cnt_pos in Hc. apply cnt_pos in Hd. unfold z in *. lia.
Qed.
Lemma v_frame_step tr s l s' e : no_ub s -> futs s -> lin tr s -> loc s -> tstep s l s' e ->
  forall c p x k l, Frame c p ∈ rs s' -> p <> Enter -> get_cell s' c = Some x -> fn x = Some (k, l) -> fok p k.
Proof.
  intros U F I V T dd pp xx kk ll HF Hp HH Hff.
  assert (Frame dd pp ∈ rs s -> fok pp kk) as Hold.
  { clear HF. intros HF. destruct (frame_alive _ _ _ (i_ref _ _ I) HF) as (y0 & Hy0).
    destruct (fn_step _ _ _ _ _ _ _ U F T Hy0 HH) as [E|[(E & _)|(t & q & l1 & Hf1 & Hf2 & Hr)]].
    - rewrite Hff in E. by eapply v_frame.
    - congruence.
    - destruct (Hp (two_frames _ _ _ _ _ I (ex_intro _ _ Hy0) HF Hr)). }
  revert HF HH. tprep T; intros HF; rsn HF; try discriminate HF; try (by intros _; auto).
  all: try (match goal with H : _ = cont_drop ?x |- _ => destruct x; discriminate end).
  all: injection HF as [= -> ->]; try done.
  all: intros HH; csn HH; tkg; simplify_eq/=; try done.
  all: try (match goal with H : get_cell ?s (length (cs ?s)) = Some _ |- _ => apply get_lt in H; lia end).
  all: apply elem_of_list_lookup_2 in Hi; pose proof (v_frame _ V _ _ _ _ _ Hi ltac:(done) Hc Hff); destruct kk as [| | |[]]; done.
Qed.
Lemma v_tok_step s l s' e : no_ub s -> futs s -> refs_ok s -> loc s -> tstep s l s' e -> 
  (forall c, Tok c ∈ rs s -> c < length (cs s)) ->
  forall c x k l, Tok c ∈ rs s' -> get_cell s' c = Some x -> fn x = Some (k, l) -> k = User.
Proof.
  intros U F R V T HL dd xx kk ll HF HH Hff.
  assert (Tok dd ∈ rs s -> kk = User) as Hold.
  { clear HF. intros HF. destruct (alive_step _ _ _ _ dd U F T) as [(y0 & Hy0)| ->]; [by eexists| |apply HL in HF; lia].
    destruct (fn_step _ _ _ _ _ _ _ U F T Hy0 HH) as [E|[(E & _)|(t & q & l1 & Hf1 & Hf2 & Hr)]].
    - rewrite Hff in E. by eapply v_tok.
    - congruence.
    - pose proof (v_tok _ V _ _ _ _ HF Hy0 Hf1). done. }
  revert HF HH. tprep T; intros HF; rsn HF; try discriminate HF; try (by intros _; auto).
  all: try (match goal with H : _ = cont_drop ?x |- _ => destruct x; discriminate end).
  injection HF as [= ->]. intros HH; csn HH; simplify_eq/=; done.
Qed.
Lemma res_len tr s r c : lin tr s -> r ∈ rs s -> c ∈ r_pre r \/ c ∈ r_prom r -> c < length (cs s).
Proof.
  intros I Hr Hc. destruct (i_tok _ _ I c) as [_ T]. destruct (decide (c < length (cs s))) as [|N]; [done|].
  specialize (T ltac:(lia)). pose proof (meas_ge_r _ _ (F3r_nn c) (F3c_nn c) _ _ Hr) as G. fold (M3 c) in G. unfold F3r in G.
  destruct Hc as [Hc|Hc]; apply cnt_pos in Hc; unfold z in *; lia.
Qed.
Lemma prom_len tr s h x c : lin tr s -> get_cell s h = Some x -> c ∈ ofp (fn x) -> c < length (cs s).
Proof.
  intros I Hr Hc. destruct (i_tok _ _ I c) as [_ T]. destruct (decide (c < length (cs s))) as [|N]; [done|].
  specialize (T ltac:(lia)). pose proof (meas_ge_c _ _ (F3r_nn c) (F3c_nn c) _ _ _ Hr) as G. fold (M3 c) in G. unfold F3c, c_prom in G.
  apply cnt_pos in Hc. pose proof (is_nn c h (match out x with Some _ => 1 | None => 0 end)%Z ltac:(destruct (out x); lia)). unfold z in *. lia.
Qed.
Lemma dead_step s l s' e c : no_ub s -> futs s -> tstep s l s' e -> get_cell s c = None -> c < length (cs s) -> get_cell s' c = None.
Proof.
  intros U F T H L. destruct (get_cell s' c) eqn:E; [|done]. destruct (alive_step _ _ _ _ c U F T) as [(? & ?)| ->]; [by eexists|congruence|lia].
Qed.
Lemma v_tokdrop_step tr s l s' e : no_ub s -> futs s -> lin tr s -> loc s -> tstep s l s' e -> 
  forall c, TokDrop c ∈ rs s' -> get_cell s' c = None.
Proof.
  intros U F I V T dd HF.
  assert (TokDrop dd ∈ rs s -> get_cell s' dd = None) as Hold.
  { clear HF. intros HF. eapply dead_step; eauto using v_tokdrop. eapply res_len; eauto. left. by left. }
  revert HF. tprep T; intros HF; rsn HF; try discriminate HF; try (by auto).
  destruct x; simplify_eq/=. apply elem_of_list_lookup_2 in Hi.
  rewrite get_add, get_rem, get_free by (by eapply get_lt). destruct (Nat.eqb_spec d c) as [->|N]; [done|].
  destruct (get_cell s d) as [yd|] eqn:Ed; [|done]. destruct (v_ktask _ V _ _ _ _ Hc H Ed) as (k & l & Hf & Hk).
  destruct (one_ref _ _ _ _ _ _ (i_ref _ _ I) Hc Hs Hi ltac:(by left) Ed).
  unfold c_strong. rewrite Hf. simpl. unfold fn_refs. rewrite !elem_of_app. left. left. destruct k; simplify_eq/=; by left.
Qed.
Lemma hold_step s l s' e dd y0 y1 : no_ub s -> futs s -> tstep s l s' e -> get_cell s dd = Some y0 -> get_cell s' dd = Some y1 ->
  hold y1 = hold y0 \/ Frame dd Body ∈ rs s.
Proof.
  intros U F T H0 HH. revert HH. tprep T; intros HH; csn HH; tkg.
  all: glen; auto.
  all: right; by eapply elem_of_list_lookup_2.
Qed.
Lemma v_prom_step tr s l s' e : no_ub s -> futs s -> lin tr s -> loc s -> tstep s l s' e -> 
  forall c x t r l y, get_cell s' c = Some x -> fn x = Some (Forward (Some t) r, l) -> get_cell s' t = Some y -> hold y = Some c.
Proof.
  intros U F I V T dd xx tt rr ll yy HH Hff HT.
  destruct (alive_step _ _ _ _ dd U F T) as [(x0 & Hx0)| ->]; [by eexists| |].
  - destruct (fn_step _ _ _ _ _ _ _ U F T Hx0 HH) as [E|[(E & _)|(t & q & l1 & Hf1 & Hf2 & Hr)]]; [|congruence|congruence].
    rewrite Hff in E. symmetry in E. pose proof (prom_len _ _ _ _ tt I Hx0 ltac:(rewrite E; by left)).
    destruct (alive_step _ _ _ _ tt U F T) as [(y0 & Hy0)| ->]; [by eexists| |lia].
    destruct (hold_step _ _ _ _ _ _ _ U F T Hy0 HT) as [->|Hb]; [by eapply v_prom|].
    destruct (i_tok _ _ I tt) as [G _]. specialize (G (ex_intro _ _ Hy0)).
    pose proof (meas_ge_rc _ _ (F3r_nn tt) (F3c_nn tt) _ _ _ _ Hb Hx0) as G'. fold (M3 tt) in G'. unfold F3r, F3c, c_prom in G'.
    rewrite E in G'. simpl in G'. rewrite !z_self, !is_eq in G'. pose proof (ev_nonneg e_lost tr tt).
    pose proof (is_nn tt dd (match out x0 with Some _ => 1 | None => 0 end)%Z ltac:(destruct (out x0); lia)). unfold z in *. lia.
  - revert HH HT. tprep T; intros HH; csn HH; glen.
    all: try (by destruct Hk as [[-> _]|[-> _]]); intros HT; simplify_eq/=; try (by destruct Hk as [[? _]|[? _]]).
    all: csn HT; glen; simplify_eq; try done; try (by destruct Hk as [[? _]|[? _]]).
Qed.
Lemma v_promdrop_step tr s l s' e : no_ub s -> futs s -> lin tr s -> loc s -> tstep s l s' e -> 
  forall c, PromDrop c ∈ rs s' -> get_cell s' c = None.
Proof.
  intros U F I V T dd HF.
  assert (PromDrop dd ∈ rs s -> get_cell s' dd = None) as Hold.
  { clear HF. intros HF. eapply dead_step; eauto using v_promdrop. eapply res_len; eauto. right. by left. }
  revert HF. tprep T; intros HF; rsn HF; try discriminate HF; try (by auto).
  all: try (match goal with H : _ = cont_drop ?x |- _ => destruct x; discriminate end).
  - injection HF as [= ->]. match goal with H : _ ∈ ofp _ |- _ => unfold ofp in H; destruct (fn y) as [[[| | |[t|]] ]|] eqn:Hf; try by apply elem_of_nil in H end.
    apply elem_of_list_lookup_2 in Hi. destruct Hr as [->|[->| ->]].
    + pose proof (v_tok _ V _ _ _ _ Hi Hc Hf). done.
    + by destruct (Hj1 eq_refl (Some t) a0 l).
    + pose proof (v_tokdrop _ V _ Hi). congruence.
  - injection HF as [= ->]. match goal with H : _ ∈ ofp _ |- _ => unfold ofp in H; destruct (fn y) as [[[| | |[t|]] ]|] eqn:Hf; try by apply elem_of_nil in H end.
    apply elem_of_list_lookup_2 in Hi. destruct (v_frame _ V _ _ _ _ _ Hi ltac:(done) Hc Hf).
  - injection HF as [= ->]. match goal with H : _ ∈ ofp _ |- _ => unfold ofp in H; destruct (fn y) as [[[| | |[t|]] ]|] eqn:Hf; try by apply elem_of_nil in H end.
    apply elem_of_list_singleton in H as ->. apply elem_of_list_lookup_2 in Hi.
    rewrite get_add, get_rem, get_free by (by eapply get_lt). destruct (Nat.eqb_spec t c) as [->|N]; [done|].
    destruct (get_cell s t) as [yt|] eqn:Et; [|done]. pose proof (v_prom _ V _ _ _ _ _ _ Hc Hf Et) as Hh.
    destruct (one_ref _ _ _ _ _ _ (i_ref _ _ I) Hc Hs Hi ltac:(by left) Et).
    unfold c_strong. rewrite Hh. rewrite !elem_of_app. right. left. by left.
Qed.

Lemma len_step s l s' e : no_ub s -> tstep s l s' e ->
  length (cs s') = length (cs s) \/ length (cs s') = S (length (cs s)).
Proof.
  intros U T. tcases T; try (left; unfold resolve_to; simpl; rewrite ?insert_length; len_eq; rewrite ?insert_length; len_eq; reflexivity).
  4: destruct (U r a); [by eapply elem_of_list_lookup_2|exact Hu].
  all: try (match goal with H : attach _ _ _ = Some _ |- _ => apply attach_cases in H as (w & Hw & [[Hwo ->]|(wo & Hwo & ->)]) end).
  all: right; rewrite ?len_put; simpl; rewrite app_length; len_eq; simpl; rewrite ?insert_length; len_eq; rewrite ?len_put; simpl; lia.
Qed.
Lemma lost_done tr x : (ev e_lost tr x <= ev e_done tr x)%Z.
Proof.
  induction tr as [|e tr IH]; [unfold ev; simpl; lia|]. rewrite !ev_cons. destruct e; simpl; rewrite ?z_nil; unfold z in *; lia.
Qed.
Lemma i_pos_step s l s' e : no_ub s -> futs s -> (forall c x, get_cell s c = Some x -> 0 < strong x) -> tstep s l s' e ->
  forall c x, get_cell s' c = Some x -> 0 < strong x.
Proof.
  intros U F V T dd xx. tprep T; intros HH; csn HH; tkg; try lia; eauto.
  all: try (match goal with H : get_cell _ _ = Some ?c |- 0 < strong ?c => by eapply V end).
  all: try (match goal with H : get_cell _ _ = Some ?c |- context [strong ?c] => pose proof (V _ _ H); lia end).
Qed.
Lemma meas_nonneg fr fc s : (forall r, (0 <= fr r)%Z) -> (forall c x, (0 <= fc c x)%Z) -> (0 <= meas fr fc s)%Z.
Proof. intros H1 H2. unfold meas. pose proof (mr_nonneg fr H1 (rs s)). pose proof (mc_nonneg fc H2 0 (cs s)). lia. Qed.
Lemma lin_step tr s l s' e : lin tr s -> loc s -> tstep s l s' e -> lin (tr ++ e) s'.
Proof.
  intros I V T. pose proof (no_ub_ok _ _ I V) as U.
  assert (futs s) as F by (intros c Hc; eapply ref_alive; eauto using i_ref; by left).
  pose proof (len_step _ _ _ _ U T) as HL.
  assert (forall x, x < length (cs s) -> new s s' x = 0%Z) as N1.
  { intros x Hx. unfold new, is. destruct (Nat.eqb_spec x (length (cs s))); [lia|]. by destruct (_ =? _). }
  assert (forall x, length (cs s') <= x -> new s s' x = 0%Z) as N2.
  { intros x Hx. unfold new, is. destruct (Nat.eqb_spec x (length (cs s))), (Nat.eqb_spec (length (cs s')) (length (cs s))); lia. }
  assert (alive s' (length (cs s)) -> new s s' (length (cs s)) = 1%Z) as N3.
  { intros (y & Hy%get_lt). unfold new. rewrite (proj2 (Nat.eqb_neq _ _)) by lia. apply is_eq. }
  assert (forall x, length (cs s) <= x -> ev e_lost tr x = 0%Z) as E0.
  { intros x Hx. pose proof (i_pre _ _ I x) as H. rewrite (proj2 (Nat.ltb_ge _ _)) in H by lia. pose proof (lost_done tr x).
    pose proof (ev_nonneg e_lost tr x). pose proof (meas_nonneg _ _ s (FPr_nn x) (FPc_nn x)). unfold MP in H. lia. }
  assert (forall x, alive s' x -> old s s' x /\ (alive s x /\ new s s' x = 0%Z \/ x = length (cs s) /\ new s s' x = 1%Z)) as HA.
  { intros x Hx. destruct (alive_step _ _ _ _ x U F T Hx) as [Ha| ->].
    - split; [by left|]. left. split; [done|]. apply N1. destruct Ha as (? & ?%get_lt). done.
    - split; [right|right; auto]. split; [lia|]. split; [by apply (i_tok _ _ I)|by apply (i_fn _ _ I)]. }
  assert (forall x, length (cs s') <= x -> old s s' x /\ length (cs s) <= x /\ new s s' x = 0%Z) as HB.
  { intros x Hx. split; [|split; [lia|auto]]. right. split; [lia|]. split; [apply (i_tok _ _ I)|apply (i_fn _ _ I)]; lia. }
  assert (forall r c y, r ∈ rs s -> c ∈ r_pre r \/ c ∈ r_body r -> get_cell s c = Some y -> fn y <> None) as HN by (intros; by eapply M4_frame).
  split.
  - eapply M1_step; eauto using i_ref. intros c x Hb Hx. destruct (i_hold _ _ I c) as [G _]. specialize (G (ex_intro _ _ Hx)).
    pose proof (meas_ge_rc _ _ (M5r_nn c) (M5c_nn c) _ _ _ _ Hb Hx) as G'. fold (M5 c) in G'. unfold M5r, M5c in G'. simpl in G'.
    rewrite z_self, z_nil, is_eq in G'. destruct (hold x); [|done]. rewrite is_eq in G'. unfold z in *. lia.
  - eapply i_pos_step; eauto. apply (i_pos _ _ I).
  - intros x. rewrite ev_app. pose proof (MP_step _ _ _ _ x U T). pose proof (i_pre _ _ I x).
    unfold new, is in *. destruct (Nat.ltb_spec x (length (cs s))), (Nat.ltb_spec x (length (cs s'))), (Nat.eqb_spec (length (cs s')) (length (cs s))), (Nat.eqb_spec x (length (cs s))); lia.
  - intros x. rewrite ev_app. destruct (i_tok _ _ I x) as [G1 G2]. split; intros Hx.
    + destruct (HA x Hx) as [Ho [[Ha Hn]|[-> Hn]]]; pose proof (M3_step _ _ _ _ _ U T Ho).
      * specialize (G1 Ha). lia.
      * specialize (G2 ltac:(lia)). specialize (E0 (length (cs s)) ltac:(lia)). lia.
    + destruct (HB x Hx) as (Ho & Hl & Hn). pose proof (M3_step _ _ _ _ _ U T Ho). specialize (G2 Hl).
      pose proof (ev_nonneg e_lost e x). pose proof (meas_nonneg _ _ s' (F3r_nn x) (F3c_nn x)) as Hm. fold (M3 x) in Hm. lia.
  - intros x. rewrite ev_app. destruct (i_fn _ _ I x) as [G1 G2]. split; intros Hx.
    + destruct (HA x Hx) as [Ho [[Ha Hn]|[-> Hn]]]; pose proof (M4_step _ _ _ _ _ U HN T Ho).
      * specialize (G1 Ha). lia.
      * specialize (G2 ltac:(lia)). specialize (E0 (length (cs s)) ltac:(lia)). lia.
    + destruct (HB x Hx) as (Ho & Hl & Hn). pose proof (M4_step _ _ _ _ _ U HN T Ho). specialize (G2 Hl).
      pose proof (ev_nonneg e_lost e x). pose proof (meas_nonneg _ _ s' (F4r_nn x) (F4c_nn x)) as Hm. fold (M4 x) in Hm. lia.
  - intros x. destruct (i_hold _ _ I x) as [G1 G2]. split; intros Hx.
    + destruct (HA x Hx) as [Ho [[Ha Hn]|[-> Hn]]]; pose proof (M5_step _ _ _ _ _ U T Ho).
      * specialize (G1 Ha). lia.
      * specialize (G2 ltac:(lia)). lia.
    + destruct (HB x Hx) as (Ho & Hl & Hn). pose proof (M5_step _ _ _ _ _ U T Ho). specialize (G2 Hl). lia.
  - intros x. destruct (i_fwd _ _ I x) as [G1 G2]. split; intros Hx.
    + destruct (HA x Hx) as [Ho [[Ha Hn]|[-> Hn]]]; pose proof (M6_step _ _ _ _ _ U T Ho).
      * specialize (G1 Ha). lia.
      * specialize (G2 ltac:(lia)). lia.
    + destruct (HB x Hx) as (Ho & Hl & Hn). pose proof (M6_step _ _ _ _ _ U T Ho). specialize (G2 Hl). lia.
Qed.

Definition inv (tr : list event) (s : st) : Prop := lin tr s /\ loc s.
Lemma get_init c : get_cell init c = None.
Proof. done. Qed.
Lemma inv_init : inv [] init.
Proof.
  assert (forall c x, get_cell init c = Some x -> False) as N by (intros c x; by rewrite get_init).
  assert (forall r, r ∈ rs init -> False) as M by (intros r H; by apply elem_of_nil in H).
  assert (forall c, alive init c -> False) as A by (intros c (x & H); eauto).
  split; split; try (intros; exfalso; eauto; fail); try done.
  all: intros x; split; [intros H; destruct (A _ H)|done].
Qed.
Lemma inv_step tr s l s' e : inv tr s -> tstep s l s' e -> inv (tr ++ e) s'.
Proof.
  intros [I V] T. pose proof (lin_step _ _ _ _ _ I V T) as I'. pose proof (no_ub_ok _ _ I V) as U.
  assert (futs s) as F by (intros c Hc; eapply ref_alive; eauto using i_ref; by left).
  pose proof (i_ref _ _ I) as R. pose proof (i_ref _ _ I') as R'. split; [done|]. split.
  - eapply v_then_step; eauto.
  - eapply v_self_step; eauto.
  - eapply v_ante_step; eauto.
  - eapply v_ktask_step; eauto.
  - eapply v_det_step; eauto.
  - eapply v_hand_step; eauto.
  - eapply v_frame_step; eauto.
  - eapply v_tok_step; eauto. intros c Hc. eapply res_len; eauto. left. by left.
  - eapply v_tokdrop_step; eauto.
  - eapply v_prom_step; eauto.
  - eapply v_promdrop_step; eauto.
Qed.
