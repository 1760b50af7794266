(** Word-level correctness of the modifying operations. *)
From stdpp Require Import gmap list.
From Coq Require Import ZArith.
From Verif.Forest Require Import Model Spec Rep ProofWord ProofHeap.

(** Membership goals without set_solver's search over the whole context. *)
Ltac inl_in H := repeat (rewrite elem_of_app in H || rewrite elem_of_cons in H
  || rewrite elem_of_nil in H).
Ltac inl_hyps := repeat match goal with
  | H : context [_ ∈ _ ++ _] |- _ => rewrite elem_of_app in H
  | H : context [_ ∈ _ :: _] |- _ => rewrite elem_of_cons in H
  | H : context [_ ∈ []] |- _ => rewrite elem_of_nil in H
  end.
Ltac inl := inl_hyps; repeat (rewrite elem_of_app || rewrite elem_of_cons || rewrite elem_of_nil);
  tauto.

Section ops.
Context {V : Type}.
Implicit Types (h : heap V) (f : fobj).


Definition sv f (w : list iter) : bool := bool_decide (f_size f <> 0%Z \/ w = []).

Lemma size_valid_spec h f w : WRep h (f_tail f) w -> size_valid h f = Ok (sv f w).
Proof.
  intros H. unfold size_valid, sv. destruct (decide (f_size f <> 0%Z)) as [Hs|Hs].
  - rewrite bool_decide_true by auto. auto.
  - rewrite (f_empty_spec _ _ _ H). f_equal. apply bool_decide_ext. tauto.
Qed.

Lemma sv_ok f w : SizeOk f w -> sv f w = true -> (2 * f_size f = Z.of_nat (length w))%Z.
Proof.
  intros [H|H] Hv; auto. unfold sv in Hv. apply bool_decide_eq_true in Hv as [?| ->]; [tauto|].
  rewrite H. reflexivity.
Qed.

Lemma nd3 {A} (a s b : list A) : NoDup (a ++ s ++ b) ->
  (forall x, x ∈ a -> x ∉ s) /\ (forall x, x ∈ a -> x ∉ b) /\ (forall x, x ∈ s -> x ∉ b) /\
  NoDup a /\ NoDup s /\ NoDup b.
Proof.
  intros H. apply NoDup_app in H as (Ha & Hab & H). apply NoDup_app in H as (Hs & Hsb & Hb).
  repeat split; auto; intros x Hx Hx'; eapply Hab; eauto; set_solver.
Qed.

Lemma ring3 t a s b : ring t (a ++ s ++ b) = (L t :: a) ++ s ++ (b ++ [T t]).
Proof. unfold ring. simpl. rewrite <- !app_assoc. auto. Qed.

Lemma NoDup_remove_mid {A} (a s b : list A) : NoDup (a ++ s ++ b) -> NoDup (a ++ b).
Proof.
  intros H. apply nd3 in H as (? & ? & ? & ? & ? & ?). apply NoDup_app. auto.
Qed.

(** A sublist keeps the order. *)
Lemma firstp_app t s b : s <> [] -> firstp t (s ++ b) = firstp t s.
Proof. destruct s; simpl; congruence. Qed.
Lemma lastp_app t a s : s <> [] -> lastp t (a ++ s) = lastp t s.
Proof.
  intros Hs. destruct s as [|x s _] using rev_ind; [congruence|].
  rewrite app_assoc, !lastp_snoc. auto.
Qed.
Lemma firstp_ne t t' s : s <> [] -> firstp t s = firstp t' s.
Proof. destruct s; simpl; congruence. Qed.
Lemma lastp_ne t t' s : s <> [] -> lastp t s = lastp t' s.
Proof.
  destruct s as [|x s _] using rev_ind; [congruence|]. intros _. rewrite !lastp_snoc. auto.
Qed.
Lemma firstp_in t s : s <> [] -> firstp t s ∈ s.
Proof. destruct s; simpl; [congruence|set_solver]. Qed.
Lemma lastp_in t s : s <> [] -> lastp t s ∈ s.
Proof.
  destruct s as [|x s _] using rev_ind; [congruence|]. intros _. rewrite lastp_snoc. set_solver.
Qed.
Lemma firstp_cons_ex t s : s <> [] -> exists s', s = firstp t s :: s'.
Proof. destruct s; simpl; [congruence|eauto]. Qed.
Lemma lastp_snoc_ex t s : s <> [] -> exists s', s = s' ++ [lastp t s].
Proof.
  destruct s as [|x s _] using rev_ind; [congruence|]. intros _. rewrite lastp_snoc. eauto.
Qed.

(** ** cutting a balanced segment out *)
Lemma cut_spec h t a s b : WRep h t (a ++ s ++ b) -> bal s ->
  exists h1, set_next h (lastp t a) (firstp t b) = Ok h1 /\
    upd h h1 (lastp t a) (firstp t b) /\ WRep h1 t (a ++ b) /\ chain h1 s.
Proof.
  intros H Hs.
  pose proof (wr_nodup _ _ _ H) as Hd. rewrite ring3 in Hd.
  destruct (lastp_split t a) as (a' & Ea). destruct (firstp_split t b) as (b' & Eb).
  pose proof (wr_chain _ _ _ H) as Hc. rewrite ring3 in Hc.
  assert (HA : is_Some (h !! it_node (lastp t a))).
  { eapply wr_alive_w; eauto. apply lastp_in_ring. }
  assert (HB : is_Some (h !! it_node (firstp t b))).
  { eapply wr_alive_w; eauto. rewrite app_assoc. apply firstp_in_ring. }
  destruct (set_next_spec h (lastp t a) (firstp t b) HA HB) as (h1 & E & U).
  exists h1. split; auto. split; auto.
  pose proof (nd3 _ _ _ Hd) as (N1 & N2 & N3 & N4 & N5 & N6).
  assert (La : lastp t a ∈ L t :: a) by (rewrite Ea; inl).
  assert (Fb : firstp t b ∈ b ++ [T t]) by (rewrite Eb; inl).
  split.
  - destruct U as (Ul & Ud & Uf).
    assert (U : upd h h1 (lastp t a) (firstp t b)) by (split; auto).
    constructor.
    + rewrite ring_app, Ea, Eb. rewrite <- app_assoc. simpl. apply chain_join.
      * eapply chain_upd_front; eauto.
        -- rewrite <- Ea. eapply chain_front; eauto.
        -- rewrite Ea in N4. apply NoDup_app in N4 as (_ & N4 & _). intros Hin. apply (N4 _ Hin). inl.
        -- rewrite <- Ea. intros Hin. eapply N2; eauto.
      * eapply upd_nxt; eauto.
      * eapply chain_upd_back; eauto.
        -- rewrite <- Eb. eapply chain_back, chain_back; eauto.
        -- rewrite <- Eb. auto.
        -- rewrite Eb in N6. apply NoDup_cons in N6 as [N6 _]. auto.
    + eapply upd_nxt_ne; eauto; [| |apply H].
      * intros E1. rewrite <- E1 in La. apply (N2 _ La). inl.
      * intros E1. rewrite <- E1 in Fb. eapply N2; [|exact Fb]. inl.
    + eapply bal_remove; eauto. apply H.
    + rewrite ring_app. eapply NoDup_remove_mid; eauto.
    + intros n Hn. rewrite Ud. apply H. unfold wnodes in *. rewrite !map_app in *. inl_in Hn. inl.
    + rewrite Ud. apply H.
  - eapply chain_upd_none; eauto.
    eapply chain_front, chain_back; eauto.
    intros Hin. eapply N3; eauto.
Qed.

(** ** linking a balanced segment between two parts *)
Lemma relink_spec h t c s d :
  chain h (L t :: c) -> chain h s -> chain h (d ++ [T t]) -> nxt h (T t) (L t) ->
  s <> [] -> bal (c ++ s ++ d) -> NoDup (ring t (c ++ s ++ d)) ->
  (forall n, n ∈ wnodes (c ++ s ++ d) -> exists v, dt h n = Some (Some v)) ->
  dt h t = Some None ->
  exists h2 h3, set_next h (lastp t c) (firstp t s) = Ok h2 /\
    upd h h2 (lastp t c) (firstp t s) /\
    set_next h2 (lastp t s) (firstp t d) = Ok h3 /\
    upd h2 h3 (lastp t s) (firstp t d) /\
    WRep h3 t (c ++ s ++ d) /\ (forall n, dt h3 n = dt h n) /\
    (forall n, n <> t -> n ∉ wnodes (c ++ s ++ d) -> h3 !! n = h !! n).
Proof.
  intros Hc Hs Hdc Hw Hne Hb Hd Hdata Htail.
  destruct (lastp_split t c) as (c' & Ec). destruct (firstp_split t d) as (d' & Ed).
  destruct (firstp_cons_ex t s Hne) as (s1 & Es1). destruct (lastp_snoc_ex t s Hne) as (s2 & Es2).
  pose proof Hd as Hd'. rewrite ring3 in Hd'.
  pose proof (nd3 _ _ _ Hd') as (N1 & N2 & N3 & N4 & N5 & N6).
  set (la := lastp t c) in *. set (fd := firstp t d) in *.
  set (x0 := firstp t s) in *. set (y0 := lastp t s) in *. clearbody la fd x0 y0.
  assert (Lc : la ∈ L t :: c) by (rewrite Ec; inl).
  assert (Fd : fd ∈ d ++ [T t]) by (rewrite Ed; inl).
  assert (Hx0 : x0 ∈ s) by (rewrite Es1; inl).
  assert (Hy0 : y0 ∈ s) by (rewrite Es2; inl).
  assert (Halive : forall x, x ∈ (L t :: c) ++ s ++ (d ++ [T t]) -> is_Some (h !! it_node x)).
  { intros x Hx. assert (Hx' : x = L t \/ x = T t \/ x ∈ c ++ s ++ d) by (inl_in Hx; inl).
    destruct Hx' as [->|[->|Hx']]; simpl; [eapply dt_alive; eauto| eapply dt_alive; eauto|].
    destruct (Hdata (it_node x)) as [v Hv]; [apply elem_wnodes; auto|]. eapply dt_alive; eauto. }
  destruct (set_next_spec h la x0) as (h2 & E2 & U2); [apply Halive; inl..|].
  assert (Halive2 : forall x, x ∈ (L t :: c) ++ s ++ (d ++ [T t]) -> is_Some (h2 !! it_node x)).
  { intros x Hx. apply Halive, alive_dt in Hx as [v Hv]. destruct U2 as (_ & Ud & _).
    rewrite <- Ud in Hv. eapply dt_alive; eauto. }
  destruct (set_next_spec h2 y0 fd) as (h3 & E3 & U3); [apply Halive2; inl..|].
  exists h2, h3. repeat (split; [assumption|]).
  assert (HD : forall n, dt h3 n = dt h n).
  { intros n. destruct U2 as (_ & D2 & _), U3 as (_ & D3 & _). rewrite D3, D2. auto. }
  split; [|split]; auto.
  - constructor.
    + rewrite ring3.
      assert (CA : chain h3 (L t :: c)).
      { rewrite Ec. eapply chain_upd_front; eauto.
        - eapply chain_upd_front; eauto.
          + rewrite <- Ec. auto.
          + rewrite Ec in N4. apply NoDup_app in N4 as (_ & N4 & _). intros Hin. apply (N4 _ Hin). inl.
          + rewrite <- Ec. intros Hin. eapply N1; eauto.
        - intros Hin. eapply N1; [rewrite Ec; apply elem_of_app; left; exact Hin|auto].
        - rewrite <- Ec. intros Hin. eapply N2; eauto. }
      assert (CS : chain h3 s).
      { rewrite Es2. eapply chain_upd_front; eauto.
        - rewrite <- Es2. rewrite Es1. eapply chain_upd_back; eauto.
          + rewrite <- Es1. auto.
          + rewrite <- Es1. intros Hin. eapply N1; eauto.
          + rewrite Es1 in N5. apply NoDup_cons in N5. tauto.
        - rewrite Es2 in N5. apply NoDup_app in N5 as (_ & N5 & _). intros Hin. apply (N5 _ Hin). inl.
        - rewrite <- Es2. intros Hin. eapply N3; eauto. }
      assert (CD : chain h3 (d ++ [T t])).
      { rewrite Ed. eapply chain_upd_back; eauto.
        - eapply chain_upd_none; eauto.
          + rewrite <- Ed. auto.
          + rewrite <- Ed. intros Hin. eapply N2; eauto.
          + rewrite <- Ed. apply N3. auto.
        - rewrite <- Ed. apply N3. auto.
        - rewrite Ed in N6. apply NoDup_cons in N6. tauto. }
      rewrite Ec in CA |- *. rewrite <- app_assoc. simpl.
      assert (CSD : chain h3 (s ++ d ++ [T t])).
      { rewrite Ed in CD |- *. rewrite Es2 in CS |- *. rewrite <- app_assoc. simpl.
        apply chain_join; auto. eapply upd_nxt; eauto. }
      rewrite Es1 in CSD |- *. simpl in CSD |- *. apply chain_join; auto.
      eapply upd_nxt_ne; eauto; [| |eapply upd_nxt; eauto].
      * intros E1. rewrite E1 in Lc. apply (N1 _ Lc Hy0).
      * intros E1. rewrite E1 in Hx0. apply (N3 _ Hx0). auto.
    + assert (Ht1 : T t ∈ d ++ [T t]) by inl.
      assert (Ht2 : L t ∈ L t :: c) by inl.
      eapply upd_nxt_ne; eauto; [| |eapply upd_nxt_ne; eauto].
      * intros E1. rewrite <- E1 in Hy0. apply (N3 _ Hy0). auto.
      * intros E1. rewrite <- E1 in Fd. apply (N2 _ Ht2 Fd).
      * intros E1. rewrite <- E1 in Lc. apply (N2 _ Lc Ht1).
      * intros E1. rewrite <- E1 in Hx0. apply (N1 _ Ht2 Hx0).
    + auto.
    + auto.
    + intros n Hn. rewrite HD. auto.
    + rewrite HD. auto.
  - intros n Hnt Hn. destruct U2 as (_ & _ & F2), U3 as (_ & _ & F3).
    assert (Hn' : forall x, x ∈ (L t :: c) ++ s ++ (d ++ [T t]) -> n <> it_node x).
    { intros x Hx E. assert (Hx' : x = L t \/ x = T t \/ x ∈ c ++ s ++ d) by (inl_in Hx; inl).
      destruct Hx' as [->|[->|Hx']]; simpl in *; [congruence..|].
      apply Hn. rewrite E. apply elem_wnodes; auto. }
    rewrite F3, F2; auto; apply Hn'; inl.
Qed.

Lemma wr_chain_a h t a b : WRep h t (a ++ b) -> chain h (L t :: a).
Proof. intros H. pose proof (wr_chain _ _ _ H) as Hc. rewrite ring_app in Hc. eapply chain_front; eauto. Qed.
Lemma wr_chain_b h t a b : WRep h t (a ++ b) -> chain h (b ++ [T t]).
Proof. intros H. pose proof (wr_chain _ _ _ H) as Hc. rewrite ring_app in Hc. eapply chain_back; eauto. Qed.

(** ** insert *)
Lemma insert_word al h f a b x : WRep h (f_tail f) (a ++ b) -> h !! al h = None ->
  let t := f_tail f in let n := al h in
  exists h' f', insert al h f (firstp t b) x = Ok (h', f', L n) /\
    f' = (if sv f (a ++ b) then with_size f (f_size f + 1)%Z else f) /\
    WRep h' t (a ++ [L n; T n] ++ b) /\
    (forall m, dt h' m = if decide (m = n) then Some (Some x) else dt h m) /\
    (forall m, m <> t -> m <> n -> m ∉ wnodes (a ++ b) -> h' !! m = h !! m).
Proof.
  intros H Hfresh t n. fold n in Hfresh. unfold insert, new_node. fold n.
  set (h0 := <[n := fresh_cell n (Some x)]> h).
  assert (Hn : n <> t /\ n ∉ wnodes (a ++ b)).
  { split.
    - intros ->. destruct (dt_alive _ _ _ (wr_tail _ _ _ H)) as [c E]. fold t in E. congruence.
    - intros Hin. destruct (wr_data _ _ _ H n Hin) as [v Hv]. destruct (dt_alive _ _ _ Hv) as [c E]. congruence. }
  destruct Hn as [Hnt Hnw].
  assert (H0 : WRep h0 t (a ++ b)).
  { eapply WRep_frame; [|exact H]. intros m Hm. unfold h0. rewrite lookup_insert_ne; auto.
    intros <-. tauto. }
  rewrite (size_valid_spec h0 f (a ++ b)) by exact H0. simpl.
  rewrite (decrement_gap h0 t a b H0). simpl.
  assert (Dn : dt h0 n = Some (Some x)).
  { unfold dt, h0. rewrite lookup_insert. auto. }
  assert (Ln : forall e d, lk h0 n e d = Some n).
  { intros e d. unfold lk, h0. rewrite lookup_insert. destruct e, d; auto. }
  assert (Hnp : forall e, Iter n e ∉ a ++ b).
  { intros e Hin. apply Hnw. apply (elem_wnodes _ _ Hin). }
  assert (Hbal : bal (a ++ [L n; T n] ++ b)).
  { apply bal_insert; [apply H|]. apply (bal_wrap n []). constructor. }
  assert (Hring : NoDup (ring t (a ++ [L n; T n] ++ b))).
  { rewrite ring3. pose proof (wr_nodup _ _ _ H0) as Hd. rewrite ring_app in Hd.
    apply NoDup_app in Hd as (Hd1 & Hd2 & Hd3).
    assert (Hnp2 : forall e, Iter n e ∉ L t :: a /\ Iter n e ∉ b ++ [T t]).
    { intros e. specialize (Hnp e). split.
      - intros [E|Hin]%elem_of_cons; [congruence|set_solver].
      - intros [Hin|E%elem_of_list_singleton]%elem_of_app; [set_solver|congruence]. }
    apply NoDup_app. split; [auto|]. split.
    - intros y Hy Hy'. apply elem_of_app in Hy' as [Hy'|Hy'].
      + destruct (Hnp2 leading), (Hnp2 trailing). set_solver.
      + eapply Hd2; eauto.
    - apply NoDup_app. split; [|split; auto].
      + apply NoDup_cons. split; [set_solver|]. apply NoDup_singleton.
      + intros y Hy. destruct (Hnp2 leading), (Hnp2 trailing). set_solver. }
  destruct (relink_spec h0 t a [L n; T n] b) as (h2 & h3 & E2 & U2 & E3 & U3 & W & D & F).
  - eapply wr_chain_a; eauto.
  - simpl. unfold nxt. simpl. rewrite !Ln. auto.
  - eapply wr_chain_b; eauto.
  - apply H0.
  - discriminate.
  - auto.
  - auto.
  - intros m Hm. destruct (decide (m = n)) as [->|Hmn]; [eauto|].
    apply H0. unfold wnodes in *. rewrite !map_app in *. simpl in Hm. set_solver.
  - apply H0.
  - change (lastp t [L n; T n]) with (T n) in E3. simpl in E2. rewrite E2. simpl.
    assert (Einc : increment h2 (L n) = Ok (T n)).
    { unfold increment. simpl. assert (E : lk h2 n leading next_s = Some n).
      { destruct U2 as (U2 & _). rewrite U2. simpl.
        rewrite decide_False by (intros (_ & _ & [=])). rewrite decide_False; [auto|].
        intros (E1 & E4 & _). assert (El : lastp t a = L n) by (destruct (lastp t a); simpl in *; congruence).
        destruct (lastp_split t a) as (a' & Ea).
        assert (Hin : L n ∈ L t :: a) by (rewrite Ea, El; set_solver).
        apply elem_of_cons in Hin as [[=]|Hin]; [auto|]. apply (Hnp leading). set_solver. }
      rewrite (get_link_lk _ _ _ _ _ E). simpl. rewrite decide_True by auto. auto. }
    rewrite Einc. simpl. rewrite E3. simpl.
    eexists _, _. split; [reflexivity|]. split; [reflexivity|]. split; [exact W|]. split.
    + intros m. rewrite D. unfold dt, h0. destruct (decide (m = n)) as [->|Hmn].
      * rewrite lookup_insert. auto.
      * rewrite lookup_insert_ne; auto.
    + intros m Hmt Hmn Hm. rewrite F; auto.
      * unfold h0. rewrite lookup_insert_ne; auto.
      * unfold wnodes in *. rewrite !map_app in *. simpl. set_solver.
Qed.

Lemma insert_sizeok f a b n x : SizeOk f (a ++ b) ->
  SizeOk (if sv f (a ++ b) then with_size f (f_size f + 1)%Z else f) (a ++ [L n; T x] ++ b).
Proof.
  intros H. destruct (sv f (a ++ b)) eqn:E.
  - apply sv_ok in E; auto. right. simpl. rewrite !app_length in *. simpl. lia.
  - left. unfold sv in E. apply bool_decide_eq_false in E.
    destruct (decide (f_size f = 0%Z)); tauto.
Qed.

(** ** erase *)
Lemma erase_word h f a n s b e : WRep h (f_tail f) (a ++ L n :: s ++ T n :: b) -> bal s ->
  let t := f_tail f in let w := a ++ L n :: s ++ T n :: b in
  exists h' f', erase h f (Iter n e) =
      Ok (h', f', match e with leading => firstp t (s ++ b) | trailing => firstp t b end) /\
    f' = (if sv f w then with_size f (f_size f - 1)%Z else f) /\
    WRep h' t (a ++ s ++ b) /\
    (forall m, dt h' m = if decide (m = n) then None else dt h m) /\
    (forall m, m <> t -> m ∉ wnodes w -> h' !! m = h !! m).
Proof.
  intros H Hs t w. unfold erase. rewrite (size_valid_spec h f w) by exact H. simpl.
  unfold leading_of, trailing_of. cbn [it_node it_edge].
  assert (Hw2 : w = (a ++ L n :: s) ++ T n :: b) by (unfold w; rewrite <- app_assoc; auto).
  rewrite (decrement_snoc h t a (L n) (s ++ T n :: b)) by exact H. simpl.
  rewrite (increment_cons h t a (L n) (s ++ T n :: b)) by exact H. simpl.
  rewrite (decrement_snoc h t (a ++ L n :: s) (T n) b) by (rewrite <- Hw2; exact H). simpl.
  rewrite (increment_cons h t (a ++ L n :: s) (T n) b) by (rewrite <- Hw2; exact H). simpl.
  assert (Hhc : has_children h (Iter n e) = Ok (bool_decide (s <> []))).
  { unfold has_children, leading_of. cbn [it_node].
    rewrite (increment_cons h t a (L n) (s ++ T n :: b)) by exact H. simpl. f_equal.
    apply bool_decide_ext. destruct s as [|y s]; simpl; [tauto|]. split; [congruence|]. intros _ E.
    pose proof (wr_nodup _ _ _ H) as Hd.
    unfold ring in Hd. apply NoDup_cons in Hd as [_ Hd]. rewrite <- app_assoc in Hd.
    apply NoDup_app in Hd as (_ & _ & Hd). simpl in Hd. apply NoDup_cons in Hd as [Hd1 Hd2].
    apply NoDup_cons in Hd2 as [Hd2 _].
    destruct y as [m []]; simpl in E; subst m; set_solver. }
  rewrite Hhc. simpl.
  assert (Hnd : NoDup ((L t :: a) ++ [L n] ++ s ++ [T n] ++ (b ++ [T t]))).
  { pose proof (wr_nodup _ _ _ H) as Hd. unfold ring in Hd. fold t in Hd. simpl.
    rewrite <- app_assoc in Hd. simpl in Hd. rewrite <- app_assoc in Hd. simpl in Hd. auto. }
  assert (Hns : forall x, x ∈ a ++ s ++ b -> it_node x <> n).
  { intros x Hx E.
    assert (Hb1 : bal (a ++ b)).
    { eapply (bal_remove a (L n :: s ++ [T n]) b); [|apply bal_wrap; auto].
      simpl. rewrite <- app_assoc. apply H. }
    assert (Hb2 : bal (a ++ s ++ b)) by (apply bal_insert; auto).
    assert (Hin : L n ∈ a ++ s ++ b).
    { destruct x as [m e']. simpl in E. subst m. eapply (bal_both _ n e'); eauto. }
    clear - Hnd Hin. apply NoDup_app in Hnd as (_ & N1 & N2).
    apply NoDup_app in N2 as (_ & N2 & _).
    apply elem_of_app in Hin as [Hin|Hin]; [apply (N1 (L n)); set_solver|].
    apply (N2 (L n)); set_solver. }
  assert (Hbal : bal (a ++ s ++ b)).
  { apply bal_unwrap_in with (n := n); auto. apply H. }
  assert (Hnt : n <> t).
  { intros ->. apply (wr_notin_tail _ _ _ leading H). set_solver. }
  assert (Hnodes : forall m, m ∈ wnodes (a ++ s ++ b) -> m ∈ wnodes w /\ m <> n).
  { intros m Hm. split.
    - unfold w, wnodes in *. rewrite !map_app in *. simpl. rewrite map_app. simpl. set_solver.
    - apply elem_of_list_fmap in Hm as (y & -> & Hy). auto. }
  assert (Hlink : exists h1,
    (if bool_decide (s <> []) then
       rbind (set_next h (lastp t a) (firstp t (s ++ T n :: b)))
         (fun ha => set_next ha (lastp t (a ++ L n :: s)) (firstp t b))
     else set_next h (lastp t a) (firstp t b)) = Ok h1 /\
    WRep h1 t (a ++ s ++ b) /\ (forall m, dt h1 m = dt h m) /\
    (forall m, m <> t -> m ∉ wnodes w -> h1 !! m = h !! m)).
  { destruct (decide (s = [])) as [->|Hne].
    - rewrite bool_decide_false by tauto. simpl in *.
      destruct (cut_spec h t a [L n; T n] b) as (h1 & E1 & U1 & W1 & _).
      { simpl. exact H. } { apply (bal_wrap n []). constructor. }
      rewrite E1. exists h1. split; auto. split; auto. destruct U1 as (_ & UD & UF). split; auto.
      intros m Hmt Hm.
      assert (Hin : forall y, y ∈ ring t (a ++ b) -> m <> it_node y).
      { intros y Hy E. apply Hm. unfold ring in Hy.
        assert (Hy' : y = L t \/ y = T t \/ y ∈ a ++ b) by inl.
        destruct Hy' as [->|[->|Hy']]; simpl in E; [congruence..|].
        subst m. apply (Hnodes (it_node y)). apply elem_wnodes; auto. }
      apply UF; apply Hin; [apply lastp_in_ring|apply firstp_in_ring].
    - rewrite bool_decide_true by auto.
      rewrite firstp_app by auto.
      replace (lastp t (a ++ L n :: s)) with (lastp t s).
      2:{ change (a ++ L n :: s) with (a ++ [L n] ++ s). rewrite app_assoc.
          rewrite (lastp_app t _ s); auto. }
      destruct (relink_spec h t a s b) as (h2 & h3 & E2 & U2 & E3 & U3 & W & D & F); auto.
      + eapply wr_chain_a; eauto.
      + pose proof (wr_chain_b h t (a ++ [L n]) (s ++ T n :: b)) as Hc.
        rewrite <- !app_assoc in Hc. simpl in Hc. eapply chain_front, Hc. exact H.
      + pose proof (wr_chain_b h t (a ++ L n :: s ++ [T n]) b) as Hc. apply Hc.
        rewrite <- app_assoc. simpl. rewrite <- app_assoc. exact H.
      + apply H.
      + rewrite ring3. clear - Hnd.
        apply NoDup_app in Hnd as (? & N1 & N2).
        apply NoDup_app in N2 as (_ & _ & N2). apply NoDup_app in N2 as (? & N3 & N4).
        apply NoDup_app in N4 as (_ & _ & N4).
        apply NoDup_app. split; [auto|]. split.
        { intros x Hx Hx'. apply (N1 x Hx). inl. }
        apply NoDup_app. split; [auto|]. split; [|auto].
        intros x Hx Hx'. apply (N3 x Hx). inl.
      + intros m Hm. apply H. apply Hnodes. auto.
      + apply H.
      + rewrite E2. simpl. rewrite E3. exists h3. split; auto. split; auto. split; auto.
        intros m Hmt Hm. apply F; auto. intros Hm'. apply Hm. apply Hnodes. auto. }
  destruct Hlink as (h1 & E1 & W1 & D1 & F1).
  unfold leading_of, trailing_of in *. cbn [it_node] in *.
  rewrite E1. simpl.
  assert (Hdel : delete_node h1 n = Ok (delete n h1)).
  { unfold delete_node, load.
    destruct (wr_data _ _ _ H n) as [v Hv].
    { unfold w, wnodes. rewrite map_app. simpl. set_solver. }
    rewrite <- D1 in Hv. unfold dt in Hv. destruct (h1 !! n) as [c|] eqn:Ec; simpl in *; [|discriminate].
    injection Hv as ->. auto. }
  rewrite Hdel. simpl.
  assert (W2 : WRep (delete n h1) t (a ++ s ++ b)).
  { eapply WRep_frame; [|exact W1]. intros m Hm. rewrite lookup_delete_ne; auto.
    intros <-. destruct Hm as [->|Hm]; [auto|]. apply Hnodes in Hm as [_ Hm]. auto. }
  eexists (delete n h1), _. split; [|split; [reflexivity|split; [exact W2|split]]].
  - destruct e; simpl; auto.
    rewrite (increment_gap _ t a (s ++ b) W2). simpl. auto.
  - intros m. unfold dt. destruct (decide (m = n)) as [->|Hmn].
    + rewrite lookup_delete. auto.
    + rewrite lookup_delete_ne by auto. apply D1.
  - intros m Hmt Hm. rewrite lookup_delete_ne; auto.
    intros ->. apply Hm. unfold w, wnodes. rewrite map_app. simpl. set_solver.
Qed.

Lemma erase_sizeok f a s b n : let w := a ++ L n :: s ++ T n :: b in SizeOk f w ->
  SizeOk (if sv f w then with_size f (f_size f - 1)%Z else f) (a ++ s ++ b).
Proof.
  intros w H. destruct (sv f w) eqn:E.
  - apply sv_ok in E; auto. right. simpl. subst w. rewrite !app_length in *. simpl in *.
    rewrite app_length in E. simpl in E. lia.
  - left. unfold sv in E. apply bool_decide_eq_false in E.
    destruct (decide (f_size f = 0%Z)); tauto.
Qed.

End ops.
