(** The invariant of the future model. *)
From Coq Require Import List Bool Lia ZArith.
From stdpp Require Import list.
From Verif.Lib Require Import Perm.
From Verif.Future Require Import Model Spec Step Lin LinInv.
Local Open Scope Z_scope.

Definition tk (q d : nat) (x : cell) : bool :=
  (d =? q)%nat && (strong x =? 1)%nat && match out x with Some (Val _) => true | _ => false end.
Lemma get_take_eq s q d : get_cell (take_out q s) d = (fun x => if tk q d x then set_moved x else x) <$> get_cell s d.
Proof.
  unfold take_out, tk. destruct (get_cell s q) as [y|] eqn:E.
  - destruct (Nat.eqb_spec d q) as [->|N]; simpl.
    + rewrite E. simpl. destruct (out y) as [[]|] eqn:Eo; rewrite ?andb_false_r; try by rewrite E.
      rewrite andb_true_r. destruct (Nat.eqb_spec (strong y) 1); [|done]. by rewrite (get_put_eq _ _ _ _ E).
    + destruct (out y) as [[]|]; try (by destruct (get_cell s d)).
      destruct (_ =? _)%nat; [|by destruct (get_cell s d)]. rewrite (get_put _ _ _ _ _ E).
      rewrite (proj2 (Nat.eqb_neq _ _) N). by destruct (get_cell s d).
  - destruct (Nat.eqb_spec d q) as [->|N]; simpl; [by rewrite E|]. by destruct (get_cell s d).
Qed.
Lemma get_resolve s c o x d : get_cell s c = Some x ->
  get_cell (resolve_to c o x s) d = if (d =? c)%nat then Some (set_strong (S (strong x)) (set_out o x)) else get_cell s d.
Proof. intros H. unfold resolve_to. by rewrite get_add, (get_put _ _ _ _ _ H). Qed.
Lemma get_nk s n d : get_cell (St (cs s) (rs s) n) d = get_cell s d.
Proof. done. Qed.

Lemma in_set s i r r' : r ∈ rs (set i r' s) -> r = r' \/ r ∈ rs s.
Proof.
  unfold set. simpl. intros (j & H)%elem_of_list_lookup. apply list_lookup_insert_Some in H as [(_ & <- & _)|(_ & H)]; [by left|].
  right. by eapply elem_of_list_lookup_2.
Qed.
Lemma in_rem s i r : r ∈ rs (rem i s) -> r ∈ rs s.
Proof.
  unfold rem. simpl. rewrite elem_of_app. intros [H|H].
  - apply elem_of_list_lookup in H as (j & H). rewrite lookup_take_Some in H. destruct H as [H _]. by eapply elem_of_list_lookup_2.
  - apply elem_of_list_lookup in H as (j & H). rewrite lookup_drop in H. by eapply elem_of_list_lookup_2.
Qed.
Lemma in_add s l r : r ∈ rs (add l s) <-> r ∈ rs s \/ r ∈ l.
Proof. unfold add. simpl. apply elem_of_app. Qed.
Lemma in_resolve s c o x r : r ∈ rs (resolve_to c o x s) <-> r ∈ rs s \/ r = Hand (Some c) (thens x).
Proof. unfold resolve_to. rewrite in_add. simpl. by rewrite elem_of_list_singleton. Qed.

Definition isres (s : st) (c : nat) : Prop := exists o, resolved s c o.

Definition kown (c : nat) (k : cont) : Prop := match k with KTask _ => True | KSelf c' | KDet _ c' => c' = c end.
Definition fok (p : phase) (k : fkind) : Prop :=
  match k with Forward (Some _) _ => False | Forward None _ => p <> Body | _ => p <> Ret end.
Record loc (s : st) : Prop := {
  v_then c x : get_cell s c = Some x -> thens x <> [] -> out x = None;
  v_self c x k : get_cell s c = Some x -> k ∈ thens x -> kown c k;
  v_ante c x k l a : get_cell s c = Some x -> fn x = Some (k, l) -> ante k = Some a ->
    isres s a \/ exists y, get_cell s a = Some y /\ KTask c ∈ thens y;
  v_ktask a x d y : get_cell s a = Some x -> KTask d ∈ thens x -> get_cell s d = Some y ->
    exists k l, fn y = Some (k, l) /\ ante k = Some a;
  v_det k c : Det k c ∈ rs s -> isres s c;
  v_hand o l k c : Hand o l ∈ rs s -> KDet k c ∈ l -> isres s c;
  v_frame c p x k l : Frame c p ∈ rs s -> p <> Enter -> get_cell s c = Some x -> fn x = Some (k, l) -> fok p k;
  v_tok c x k l : Tok c ∈ rs s -> get_cell s c = Some x -> fn x = Some (k, l) -> k = User;
  v_tokdrop c : TokDrop c ∈ rs s -> get_cell s c = None;
  v_prom c x t r l y : get_cell s c = Some x -> fn x = Some (Forward (Some t) r, l) -> get_cell s t = Some y -> hold y = Some c;
  v_promdrop c : PromDrop c ∈ rs s -> get_cell s c = None
}.

Record lin (tr : list event) (s : st) : Prop := {
  i_ref : refs_ok s;
  i_pos c x : get_cell s c = Some x -> (0 < strong x)%nat;
  i_pre x : MP x s + ev e_done tr x = if (x <? length (cs s))%nat then 1 else 0;
  i_tok x : (alive s x -> M3 x s + ev e_lost tr x = 1) /\ ((length (cs s) <= x)%nat -> M3 x s = 0);
  i_fn x : (alive s x -> M4 x s + ev e_lost tr x = 1) /\ ((length (cs s) <= x)%nat -> M4 x s = 0);
  i_hold x : (alive s x -> M5 x s <= 1) /\ ((length (cs s) <= x)%nat -> M5 x s <= 0);
  i_fwd x : (alive s x -> M6 x s <= 1) /\ ((length (cs s) <= x)%nat -> M6 x s <= 0)
}.

(** *** No undefined behaviour *)
Lemma res_out s c o x : resolved s c o -> get_cell s c = Some x -> out x = Some o.
Proof. intros (y & H & E) H'. simplify_eq. done. Qed.
Lemma is_eq c v : is c c v = v.
Proof. unfold is. by rewrite Nat.eqb_refl. Qed.
Lemma M3_frame tr s r c x o : lin tr s -> r ∈ rs s -> c ∈ r_pre r \/ c ∈ r_prom r -> get_cell s c = Some x -> out x = Some o -> False.
Proof.
  intros I Hr Hc Hx Ho. pose proof (meas_ge_rc _ _ (F3r_nn c) (F3c_nn c) _ _ _ _ Hr Hx) as G. fold (M3 c) in G.
  destruct (i_tok _ _ I c) as [T _]. specialize (T (ex_intro _ _ Hx)). pose proof (ev_nonneg e_lost tr c).
  unfold F3r, F3c in G. rewrite Ho, is_eq in G. destruct Hc as [Hc|Hc]; apply cnt_pos in Hc; unfold z in *; lia.
Qed.
Lemma M4_frame tr s r c x : lin tr s -> r ∈ rs s -> c ∈ r_pre r \/ c ∈ r_body r -> get_cell s c = Some x -> fn x <> None.
Proof.
  intros I Hr Hc Hx Ho. pose proof (meas_ge_rc _ _ (F4r_nn c) (F4c_nn c) _ _ _ _ Hr Hx) as G. fold (M4 c) in G.
  destruct (i_fn _ _ I c) as [T _]. specialize (T (ex_intro _ _ Hx)). pose proof (ev_nonneg e_lost tr c).
  unfold F4r, F4c in G. rewrite Ho, is_eq in G. destruct Hc as [Hc|Hc]; apply cnt_pos in Hc; unfold z in *; lia.
Qed.
Lemma pre_rc tr s r c d x : lin tr s -> r ∈ rs s -> c ∈ r_pre r -> get_cell s d = Some x -> KTask c ∈ thens x -> False.
Proof.
  intros I Hr Hc Hx Hk. pose proof (meas_ge_rc _ _ (FPr_nn c) (FPc_nn c) _ _ _ _ Hr Hx) as G. fold (MP c) in G.
  pose proof (i_pre _ _ I c) as T. pose proof (ev_nonneg e_done tr c).
  assert (c ∈ c_pre x) as Hc'. { unfold c_pre. apply elem_of_list_bind. exists (KTask c). split; [simpl; by left|done]. }
  apply cnt_pos in Hc. apply cnt_pos in Hc'. unfold FPr, FPc in G. destruct (_ <? _)%nat; lia.
Qed.
Lemma frame_alive s c p : refs_ok s -> Frame c p ∈ rs s -> alive s c.
Proof. intros R H. eapply ref_alive; eauto. simpl. by left. Qed.

Lemma no_ub_ok tr s : lin tr s -> loc s -> no_ub s.
Proof.
  intros I V r a Hr U. destruct U as [c x Hx Hf|c x q l Hx Hf|c x k q l Hx Hf Hk Hn|c o p a Hp Ho|c x t q l o Hx Hf Ho|c o Ho|c o r a Hr' Ho|k c x Hx Ho].
  - eapply M4_frame; eauto. simpl. left. by left.
  - pose proof (meas_ge_rc _ _ (M6r_nn c) (M6c_nn c) _ _ _ _ Hr Hx) as G. fold (M6 c) in G.
    destruct (i_fwd _ _ I c) as [T _]. specialize (T (ex_intro _ _ Hx)).
    unfold M6r, M6c in G. rewrite Hf, is_eq in G. simpl in G. rewrite z_self, is_eq in G. unfold z in *. lia.
  - destruct (v_ante _ V _ _ _ _ _ Hx Hf Hk) as [(o & Ho)|(y & Hy & Hin)]; [by eapply Hn|].
    eapply pre_rc; eauto. simpl. by left.
  - destruct Ho as (x & Hx & Ho). eapply M3_frame; eauto. destruct p; simpl; rewrite ?elem_of_cons; auto. done.
  - destruct Ho as (y & Hy & Ho). destruct (i_tok _ _ I t) as [T _]. specialize (T (ex_intro _ _ Hy)). pose proof (ev_nonneg e_lost tr t).
    destruct (decide (c = t)) as [->|N].
    + simplify_eq. pose proof (meas_ge_c _ _ (F3r_nn t) (F3c_nn t) _ _ _ Hx) as G. fold (M3 t) in G.
      unfold F3c, c_prom in G. rewrite Hf, Ho, is_eq in G. simpl in G. rewrite z_self, is_eq in G. unfold z in *. lia.
    + pose proof (meas_ge_cc _ _ (F3r_nn t) (F3c_nn t) _ _ _ _ _ Hx Hy N) as G. fold (M3 t) in G.
      unfold F3c, c_prom in G. rewrite Hf, Ho, is_eq in G. simpl in G. rewrite z_self, is_eq, (is_ne t c) in G by done. unfold z in *. lia.
  - destruct Ho as (x & Hx & Ho). eapply M3_frame; eauto. right. simpl. by left.
  - destruct Ho as (x & Hx & Ho). eapply M3_frame; eauto. left. destruct Hr' as [->|[->| ->]]; simpl; by left.
  - destruct (v_det _ V _ _ Hr) as (o & y & Hy & Ho'). congruence.
Qed.
