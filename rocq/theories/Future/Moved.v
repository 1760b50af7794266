(** A value is moved out of a shared state only by its last user. *)
From Coq Require Import List Bool Lia ZArith.
From stdpp Require Import list.
From Verif.Lib Require Import Perm.
From Verif.Future Require Import Model Spec Step Lin LinInv Loc LocInv Hist Count Trace.

Global Instance phase_eq : EqDecision phase. Proof. solve_decision. Defined.
Global Instance cont_eq : EqDecision cont. Proof. solve_decision. Defined.
Global Instance res_eq : EqDecision res. Proof. solve_decision. Defined.
Lemma keep_set s i r0 r r' : rs s !! i = Some r0 -> r ∈ rs s -> r <> r0 -> r ∈ rs (set i r' s).
Proof.
  intros Hi (j & Hj)%elem_of_list_lookup N. unfold set. simpl. apply elem_of_list_lookup. exists j.
  rewrite list_lookup_insert_ne; [done|]. intros ->. congruence.
Qed.
Lemma keep_rem s i r0 r : rs s !! i = Some r0 -> r ∈ rs s -> r <> r0 -> r ∈ rs (rem i s).
Proof.
  intros Hi Hr N. unfold rem. simpl. rewrite <- (take_drop_middle _ _ _ Hi) in Hr.
  rewrite elem_of_app, elem_of_cons in *. naive_solver.
Qed.
(** a resource stays unless the step is about it *)
Lemma in_res_l s c o x r : r ∈ rs s -> r ∈ rs (resolve_to c o x s).
Proof. rewrite in_resolve. auto. Qed.
Lemma in_add_l s l r : r ∈ rs s -> r ∈ rs (add l s).
Proof. rewrite in_add. auto. Qed.
Lemma surv s l s' e rr : no_ub s -> tstep s l s' e -> rr ∈ rs s -> rr ∈ rs s' \/ exists i a, l = L i a /\ rs s !! i = Some rr.
Proof.
  intros U T HR. tcases T; try (destruct (U r a); [by eapply elem_of_list_lookup_2|exact Hu]).
  all: try match goal with H : attach _ _ _ = Some _ |- _ => apply attach_cases in H as (w & Hw & [[Hwo ->]|(wo & Hwo & ->)]) end.
  all: try (left; repeat first [exact HR | apply in_add_l | apply in_res_l | rewrite rs_put | rewrite rs_fresh | rewrite rs_incrs | rewrite rs_incr]; fail).
  all: try (left; repeat first [exact HR | apply in_add_l | apply in_res_l | rewrite rs_put | rewrite rs_fresh | rewrite rs_incrs | rewrite rs_incr | change (incrs (a :: caps) s) with (incr a (incrs caps s))]; fail).
  all: match goal with Hi : rs _ !! _ = Some ?r0 |- _ => destruct (decide (rr = r0)) as [->|N]; [right; eexists _, _; split; [reflexivity|exact Hi]|] end.
  all: left; repeat first [exact HR | apply in_add_l | apply in_res_l | rewrite rs_put | rewrite rs_fresh | rewrite rs_incrs | rewrite rs_incr | rewrite rs_take | rewrite rs_st
    | eapply keep_set; [|eassumption..] | eapply keep_rem; [|eassumption..] ].
  all: try exact Hi; eapply keep_set; rewrite ?rs_take; eassumption.
Qed.

Definition moved_ok (s : st) : Prop := forall q x, get_cell s q = Some x -> moved x = true ->
  (exists v, out x = Some (Val v)) /\ strong x = 1 /\
  (Drop q ∈ rs s \/ exists d y k l p, get_cell s d = Some y /\ fn y = Some (k, l) /\ (k = Then q \/ exists t, k = Forward t q) /\
     Frame d p ∈ rs s /\ p <> Enter).

(** facts about the only reference *)
Lemma one_ref_rr s c x i j r r' : refs_ok s -> get_cell s c = Some x -> strong x = 1 -> rs s !! i = Some r -> rs s !! j = Some r' ->
  c ∈ r_strong r -> c ∈ r_strong r' -> i = j.
Proof.
  intros R Hx S Hi Hj Hr Hr'. destruct (decide (i = j)) as [|N]; [done|]. exfalso.
  specialize (R c). rewrite M1_split in R. unfold sv in R. rewrite Hx, S in R.
  pose proof (meas_ge_rr _ _ (F1r_nn c) (R1c_nn c) _ _ _ _ _ Hi Hj N) as G. fold (R1 c) in G. unfold F1r in G.
  apply cnt_pos in Hr. apply cnt_pos in Hr'. unfold z in *. lia.
Qed.
Lemma one_ref_cc s c x d y d' y' : refs_ok s -> get_cell s c = Some x -> strong x = 1 -> get_cell s d = Some y -> get_cell s d' = Some y' ->
  c ∈ c_strong y -> c ∈ c_strong y' -> d = d'.
Proof.
  intros R Hx S Hi Hj Hr Hr'. destruct (decide (d = d')) as [|N]; [done|]. exfalso.
  specialize (R c). rewrite M1_split in R. unfold sv in R. rewrite Hx, S in R.
  pose proof (meas_ge_cc _ _ (F1r_nn c) (R1c_nn c) _ _ _ _ _ Hi Hj N) as G. fold (R1 c) in G. unfold R1c in G.
  apply cnt_pos in Hr. apply cnt_pos in Hr'. unfold z in *. lia.
Qed.
Lemma one_ref_c s c x d y : refs_ok s -> get_cell s c = Some x -> strong x = 1 -> get_cell s d = Some y -> cnt c (c_strong y) <= 1.
Proof.
  intros R Hx S Hi. specialize (R c). rewrite M1_split in R. unfold sv in R. rewrite Hx, S in R.
  pose proof (meas_ge_c _ _ (F1r_nn c) (R1c_nn c) _ _ _ Hi) as G. fold (R1 c) in G. unfold R1c, z in *. lia.
Qed.
Lemma ante_ref y k l q : fn y = Some (k, l) -> k = Then q \/ (exists t, k = Forward t q) -> q ∈ c_strong y.
Proof.
  intros H Hk. unfold c_strong. rewrite H. simpl. unfold fn_refs. rewrite !elem_of_app. left. left.
  destruct Hk as [->|(t & ->)]; by left.
Qed.

(** when the reference count grows *)
Lemma strong_step s l s' e dd y0 y1 : no_ub s -> futs s -> tstep s l s' e -> get_cell s dd = Some y0 -> get_cell s' dd = Some y1 ->
  strong y1 <= strong y0 \/ Fut dd ∈ rs s \/ out y0 = None \/ (exists r, r ∈ rs s /\ dd ∈ r_pre r) \/
  exists c x f, get_cell s c = Some x /\ Frame c Body ∈ rs s /\ fn x = Some f /\ dd ∈ fn_avail f.
Proof.
  intros U F T H0 HH. revert HH. tprep T; intros HH; csn HH; tkg; glen.
  all: try (left; lia).
  all: try (apply elem_of_list_lookup_2 in Hi).
  all: try (right; left; assumption).
  all: try (right; right; left; assumption).
  all: try (destruct (decide (dd ∈ caps)) as [Hin|Hin]; [right; left; by apply Hcaps|left; rewrite cnt_in in Hin; lia]).
  - right. right. right. left. exists r. split; [done|]. destruct Hr as [->| ->]; by left.
  - right. right. right. right. eauto 8.
Qed.
Lemma tk_true q c x : tk q c x = true -> c = q /\ strong x = 1 /\ exists v, out x = Some (Val v).
Proof.
  unfold tk. rewrite !andb_true_iff. intros [[H1%Nat.eqb_eq H2%Nat.eqb_eq] H3]. split_and!; auto. destruct (out x) as [[]|]; eauto; done.
Qed.
Lemma moved_step s l s' e qq y1 : no_ub s -> futs s -> tstep s l s' e -> get_cell s' qq = Some y1 -> moved y1 = true ->
  (exists y0, get_cell s qq = Some y0 /\ moved y0 = true) \/
  (exists v, out y1 = Some (Val v)) /\ strong y1 = 1 /\
    (Drop qq ∈ rs s' \/ exists d y k l p, get_cell s' d = Some y /\ fn y = Some (k, l) /\ (k = Then qq \/ exists t, k = Forward t qq) /\
      Frame d p ∈ rs s' /\ p <> Enter).
Proof.
  intros U F T HH. revert HH. tprep T; intros HH; csn HH; tkg; intros HM.
  all: try (left; eexists; split; [first [eassumption|reflexivity]|assumption]).
  all: try discriminate.
  all: repeat match goal with H : tk _ _ _ = true |- _ => apply tk_true in H as (? & ? & ? & ?) end; simplify_eq/=.
  all: right; split; [eauto|]; split; [done|].
  all: match goal with Hi : rs ?s !! ?i = Some _ |- _ => assert (forall r q, r ∈ <[i := r]> (rs (take_out q s))) as HI by
    (intros r0 q0; apply elem_of_list_lookup; exists i; apply list_lookup_insert; rewrite rs_take; by eapply lookup_lt_Some) end.
  1: by left.
  all: right; match goal with H : rs _ !! _ = Some (Frame ?c Enter) |- _ => exists c end.
  1, 2: eexists _, _, _, Body; rewrite get_set; (split; [by apply take_cell|]); split; [destruct (tk _ _ _); exact Hf|]; auto.
  1: eexists _, _, _, Ret; split; [by apply (get_put_eq (set i (Frame c Ret) (take_out q s)) c _ _ H)|]; split; [reflexivity|]; eauto.
  - eexists _, _, _, Ret. erewrite get_resolve by eassumption. rewrite Nat.eqb_refl. split; [reflexivity|]. split; [reflexivity|].
    split; [eauto|]. split; [apply elem_of_app; by left|done].
  - eexists _, _, _, Ret. erewrite get_resolve by eassumption. rewrite (proj2 (Nat.eqb_neq _ _)) by done.
    erewrite get_put_eq by exact H. split; [reflexivity|]. split; [reflexivity|]. split; [eauto|]. split; [apply elem_of_app; by left|done].
Qed.
Lemma frame_next s l s' e dd pp y0 : no_ub s -> tstep s l s' e -> Frame dd pp ∈ rs s -> pp <> Enter -> get_cell s dd = Some y0 ->
  (exists p, p <> Enter /\ Frame dd p ∈ rs s') \/ (forall q, q ∈ ofn (fn y0) -> Drop q ∈ rs s').
Proof.
  intros U T HF HP Hy. destruct (surv _ _ _ _ _ U T HF) as [H|(ii & aa & -> & Hii)]; [left; eauto|].
  assert (forall r, r ∈ rs (set ii r s)) as HI by
    (intros r0; apply elem_of_list_lookup; exists ii; apply list_lookup_insert; by eapply lookup_lt_Some).
  revert Hii. inversion T as [| | | | | | | | | | | | | | | | | | | | | | |i c x r h s1 Hi Hc Hr Hh Hat| | | | | | | | | | | | | | |]; subst; intros Hii.
  all: try (simplify_eq; done).
  all: try match goal with H : _ \/ _ |- _ => destruct H as [->|[->| ->]]; simplify_eq; done end.
  all: try match goal with H : _ \/ _ |- _ => destruct H as [->| ->]; simplify_eq; done end.
  all: try match goal with Hu : ub_cause _ ?r ?a |- _ => destruct (U r a); [by eapply elem_of_list_lookup_2|exact Hu] end.
  all: simplify_eq.
  - exfalso. match goal with H : _ \/ _ |- _ => destruct H as [[_ ?]|[_ ?]]; discriminate end.
  - left. exists Fin. split; [done|]. by apply in_res_l.
  - left. exists Fin. split; [done|]. apply attach_cases in Hat as (w & Hw & [[Hwo ->]|(wo & Hwo & ->)]).
    + rewrite rs_put, rs_fresh, rs_incr, rs_put. done.
    + apply in_add_l. rewrite rs_fresh, rs_incr, rs_put. done.
  - left. eauto.
  - left. exists Body. split; [done|]. apply in_add_l. by rewrite rs_incr.
  - left. exists Fin. split; [done|]. by apply in_res_l.
  - right. intros q Hq. apply in_add. right. unfold fn_drop. destruct (fn y0) as [f|]; simpl in Hq; [|by apply elem_of_nil in Hq].
    apply elem_of_app. left. apply elem_of_list_fmap. eauto.
Qed.
Lemma avail_refs f q : q ∈ fn_avail f -> q ∈ fn_refs f.
Proof. unfold fn_avail, fn_refs. rewrite !elem_of_app. destruct f as [[] ?]; simpl; rewrite ?elem_of_nil; naive_solver. Qed.
Lemma reach_moved tr s : reach tr s -> moved_ok s.
Proof.
  induction 1 as [|tr s l s' e R IH T]; [intros q x; by rewrite get_init|].
  pose proof (reach_step _ _ _ _ _ R T) as R'. destruct (reach_u _ _ R) as [U F]. destruct (reach_inv _ _ R) as [I V]. destruct (reach_inv _ _ R') as [I' V'].
  intros q x Hx Hm. destruct (moved_step _ _ _ _ _ _ U F T Hx Hm) as [(y0 & Hy0 & Hm0)|?]; [|done].
  destruct (IH _ _ Hy0 Hm0) as ((v & Hv) & Hs & HL). pose proof (i_ref _ _ I) as RR.
  assert (out x = Some (Val v)) as Ho.
  { destruct (out_step _ _ _ _ _ _ U F T Hx) as [(y & Hy & ->)|[(o & Hr & _)|(Hn & _)]]; [by simplify_eq| |congruence].
    destruct (ev_res_step _ _ _ _ _ _ U F T Hr) as [(y & Hy & Hyo) _]. congruence. }
  assert (strong x = 1) as Hs'.
  { pose proof (i_pos _ _ I' _ _ Hx). destruct (strong_step _ _ _ _ _ _ _ U F T Hy0 Hx) as [|[Hf|[|[(r & Hr & Hp)|(c & y & f & Hc & Hfr & Hf & Ha)]]]]; [lia| |congruence| |].
    - exfalso. destruct HL as [HL|(d & y & k & l0 & p & Hd & Hf' & Hk & _)].
      + apply elem_of_list_lookup in HL as (i & Hi), Hf as (j & Hj).
        pose proof (one_ref_rr _ _ _ _ _ _ _ RR Hy0 Hs Hi Hj ltac:(by left) ltac:(by left)). congruence.
      + eapply (one_ref _ _ _ _ _ _ RR Hy0 Hs Hf ltac:(by left) Hd). by eapply ante_ref.
    - exfalso. eapply (M3_frame _ _ _ _ _ _ I Hr); eauto.
    - exfalso. assert (q ∈ c_strong y) as Hq. { unfold c_strong. rewrite Hf. simpl. apply elem_of_app. left. by apply avail_refs. }
      destruct HL as [HL|(d & y' & k & l0 & p & Hd & Hf' & Hk & _)].
      + eapply (one_ref _ _ _ _ _ _ RR Hy0 Hs HL ltac:(by left) Hc Hq).
      + pose proof (one_ref_cc _ _ _ _ _ _ _ RR Hy0 Hs Hc Hd Hq ltac:(by eapply ante_ref)) as ->. simplify_eq.
        pose proof (one_ref_c _ _ _ _ _ RR Hy0 Hs Hd) as G. unfold c_strong in G. rewrite Hf' in G. simpl in G. unfold fn_refs in G.
        rewrite !cnt_app in G. assert (q ∈ l0) as Hl by (destruct Hk as [->|(? & ->)]; exact Ha). apply cnt_in in Hl. simpl in G.
        destruct Hk as [->|(? & ->)]; simpl in G; rewrite cnt_self in G; lia. }
  split; [eauto|]. split; [done|].
  destruct HL as [HL|(d & y & k & l0 & p & Hd & Hf & Hk & Hfr & Hp)].
  - left. destruct (surv _ _ _ _ _ U T HL) as [|(i & a & -> & Hi)]; [done|]. exfalso.
    inversion T; subst; try (simplify_eq; done).
    all: try match goal with H : _ \/ _ |- _ => destruct H as [->|[->| ->]]; simplify_eq; done end.
    all: try match goal with H : _ \/ _ |- _ => destruct H as [->| ->]; simplify_eq; done end.
    all: try match goal with H : _ \/ _ |- _ => destruct H as [[_ ?]|[_ ?]]; discriminate end.
    all: try match goal with Hu : ub_cause _ ?r ?a |- _ => destruct (U r a); [by eapply elem_of_list_lookup_2|exact Hu] end.
    simplify_eq. rewrite get_add, get_rem, get_free in Hx by (by eapply get_lt). rewrite Nat.eqb_refl in Hx. done.
  - destruct (frame_next _ _ _ _ _ _ _ U T Hfr Hp Hd) as [(p' & Hp' & Hfr')|HD].
    + right. destruct (frame_alive _ _ _ (i_ref _ _ I') Hfr') as (y' & Hy').
      destruct (fn_step _ _ _ _ _ _ _ U F T Hd Hy') as [E|[(E & _)|(t & q' & l1 & Hf1 & Hf2 & _)]].
      * exists d, y', k, l0, p'. split_and!; auto. congruence.
      * exfalso. eapply M4_frame; [exact I'|exact Hfr'| |exact Hy'|exact E]. right. destruct p'; [done|by left..].
      * simplify_eq. destruct Hk as [|(? & ?)]; [done|]. simplify_eq. exists d, y', (Forward None q). eexists _, p'. split_and!; eauto.
    + left. apply HD. rewrite Hf. simpl. unfold fn_refs. apply elem_of_app. left. destruct Hk as [->|(? & ->)]; by left.
Qed.
Lemma no_got_moved tr s c : reach tr s -> GotMoved c ∉ tr.
Proof.
  intros R. induction R as [|tr s l s' e R IH T]; [apply not_elem_of_nil|].
  intros [H|H]%elem_of_app; [done|]. destruct (reach_u _ _ R) as [U F]. destruct (reach_inv _ _ R) as [I V].
  pose proof (i_ref _ _ I) as RR. pose proof (reach_moved _ _ R) as M.
  assert (exists y, get_cell s c = Some y /\ moved y = true /\ (Fut c ∈ rs s \/ exists d x k l, get_cell s d = Some x /\ fn x = Some (k, l) /\ (k = Then c \/ exists t, k = Forward t c) /\ Frame d Enter ∈ rs s)) as (y & Hy & Hm & HL).
  { clear IH M V I RR R. rename c into cc. revert H. tprep T; intros HE; evn HE; try discriminate HE.
    all: injection HE as [= ->]; apply elem_of_list_lookup_2 in Hi; eexists; split; [eassumption|]; split; [assumption|].
    all: try (left; assumption).
    all: right; eexists _, _, _, _; split; [exact Hc|]; split; [eassumption|]; eauto. }
  destruct (M _ _ Hy Hm) as (_ & Hs & [HD|(d & y' & k & l0 & p & Hd & Hf & Hk & Hfr & Hp)]).
  - destruct HL as [HF|(d & x & k & l0 & Hd & Hf & Hk & Hfr)].
    + apply elem_of_list_lookup in HD as (i & Hi), HF as (j & Hj).
      pose proof (one_ref_rr _ _ _ _ _ _ _ RR Hy Hs Hi Hj ltac:(by left) ltac:(by left)). congruence.
    + eapply (one_ref _ _ _ _ _ _ RR Hy Hs HD ltac:(by left) Hd). by eapply ante_ref.
  - destruct HL as [HF|(d' & x & k' & l1 & Hd' & Hf' & Hk' & Hfr')].
    + eapply (one_ref _ _ _ _ _ _ RR Hy Hs HF ltac:(by left) Hd). by eapply ante_ref.
    + pose proof (one_ref_cc _ _ _ _ _ _ _ RR Hy Hs Hd Hd' ltac:(by eapply ante_ref) ltac:(by eapply ante_ref)) as ->.
      apply Hp. eapply two_frames; eauto. by eexists.
Qed.
