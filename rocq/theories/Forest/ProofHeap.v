(** The representation invariant: the links of a forest spell a bracket word. *)
From stdpp Require Import gmap list.
From Coq Require Import ZArith.
From Verif.Forest Require Import Model Spec Rep ProofWord.

Section heap.
Context {V : Type}.
Implicit Types (h : heap V).

(** ** chains *)
Lemma chain_app h a x b : chain h (a ++ x :: b) <-> chain h (a ++ [x]) /\ chain h (x :: b).
Proof.
  induction a as [|y a IH]; simpl.
  - tauto.
  - rewrite IH. destruct a as [|z a]; simpl; tauto.
Qed.

Lemma chain_adj h a x y b : chain h (a ++ x :: y :: b) -> nxt h x y.
Proof. intros H. apply chain_app in H as [_ H]. simpl in H. tauto. Qed.

Lemma chain_tail h x l : chain h (x :: l) -> chain h l.
Proof. simpl. tauto. Qed.

Lemma chain_front h a b : chain h (a ++ b) -> chain h a.
Proof.
  destruct a as [|x a _] using rev_ind; [simpl; auto|].
  rewrite <- app_assoc. simpl. intros H. apply chain_app in H. tauto.
Qed.
Lemma chain_back h a b : chain h (a ++ b) -> chain h b.
Proof. destruct b as [|x b]; [simpl; auto|]. intros H. apply chain_app in H. tauto. Qed.

Lemma chain_join h a x y b : chain h (a ++ [x]) -> nxt h x y -> chain h (y :: b) ->
  chain h (a ++ x :: y :: b).
Proof. intros H1 H2 H3. apply chain_app. split; auto. simpl in *. tauto. Qed.

(** ** first / last position around a gap *)
Definition lastp (t : nat) (a : list iter) : iter := List.last (L t :: a) (L t).

Lemma lastp_nil t : lastp t [] = L t.
Proof. reflexivity. Qed.
Lemma lastp_snoc t a x : lastp t (a ++ [x]) = x.
Proof. unfold lastp. change (L t :: a ++ [x]) with ((L t :: a) ++ [x]). apply List.last_last. Qed.

Lemma lastp_split t a : exists a', L t :: a = a' ++ [lastp t a].
Proof.
  destruct a as [|x a _] using rev_ind.
  - exists []. rewrite lastp_nil. auto.
  - exists (L t :: a). rewrite lastp_snoc. auto.
Qed.
Lemma firstp_split t b : exists b', b ++ [T t] = firstp t b :: b'.
Proof. destruct b as [|x b]; simpl; eauto. Qed.

Lemma ring_app t a b : ring t (a ++ b) = (L t :: a) ++ (b ++ [T t]).
Proof. unfold ring. simpl. rewrite <- app_assoc. auto. Qed.

Lemma ring_split t a b : exists a' b', L t :: a = a' ++ [lastp t a] /\
  b ++ [T t] = firstp t b :: b' /\ ring t (a ++ b) = a' ++ lastp t a :: firstp t b :: b'.
Proof.
  destruct (lastp_split t a) as (a' & Ea). destruct (firstp_split t b) as (b' & Eb).
  exists a', b'. split; auto. split; auto. rewrite ring_app, Ea, Eb. rewrite <- app_assoc. auto.
Qed.

Lemma ring_bal t w : bal w -> bal (ring t w).
Proof. apply bal_wrap. Qed.

(** ** links *)
Lemma get_link_lk h n e d a : lk h n e d = Some a -> get_link h n e d = Ok a.
Proof. unfold lk, get_link, load. destruct (h !! n); simpl; congruence. Qed.

Lemma lk_alive h n e d a : lk h n e d = Some a -> is_Some (h !! n).
Proof. unfold lk. destruct (h !! n); simpl; eauto; discriminate. Qed.
Lemma dt_alive h n a : dt h n = Some a -> is_Some (h !! n).
Proof. unfold dt. destruct (h !! n); simpl; eauto; discriminate. Qed.
Lemma alive_dt h n : is_Some (h !! n) -> exists a, dt h n = Some a.
Proof. intros [c E]. unfold dt. rewrite E. simpl. eauto. Qed.

Lemma nxt_ext h h' x y : (forall n e d, n = it_node x \/ n = it_node y -> lk h' n e d = lk h n e d) ->
  nxt h x y -> nxt h' x y.
Proof. unfold nxt. intros E [H1 H2]. rewrite !E by auto. auto. Qed.

Lemma chain_ext h h' l : (forall n e d, n ∈ wnodes l -> lk h' n e d = lk h n e d) ->
  chain h l -> chain h' l.
Proof.
  induction l as [|x l IH]; simpl; auto. intros E [H1 H2]. split.
  - destruct l as [|y l]; auto. eapply nxt_ext; [|exact H1].
    intros n e d [->| ->]; apply E; simpl; set_solver.
  - apply IH; auto. intros. apply E. simpl. set_solver.
Qed.

(** ** set_next *)
Definition upd h h' (x y : iter) : Prop :=
  (forall n e d, lk h' n e d =
     if decide (n = it_node y /\ e = it_edge y /\ d = prior_s) then Some (it_node x)
     else if decide (n = it_node x /\ e = it_edge x /\ d = next_s) then Some (it_node y)
     else lk h n e d) /\
  (forall n, dt h' n = dt h n) /\
  (forall n, n <> it_node x -> n <> it_node y -> h' !! n = h !! n).

Lemma link_upd (c : cell V) e d a e' d' :
  link (upd_link c e d a) e' d' = if decide (e' = e /\ d' = d) then a else link c e' d'.
Proof. destruct e, d, e', d'; simpl; reflexivity. Qed.

Lemma data_upd (c : cell V) e d a : c_data (upd_link c e d a) = c_data c.
Proof. destruct e, d; reflexivity. Qed.

Lemma put_link_spec h n e d a : is_Some (h !! n) ->
  exists h', put_link h n e d a = Ok h' /\
    (forall n' e' d', lk h' n' e' d' =
       if decide (n' = n /\ e' = e /\ d' = d) then Some a else lk h n' e' d') /\
    (forall n', dt h' n' = dt h n') /\ (forall n', n' <> n -> h' !! n' = h !! n').
Proof.
  intros [c Ec]. unfold put_link, load. rewrite Ec. simpl. eexists. split; [reflexivity|].
  split; [|split].
  - intros n' e' d'. unfold lk. destruct (decide (n' = n)) as [->|Hn].
    + rewrite lookup_insert, Ec. simpl. rewrite link_upd.
      destruct (decide (e' = e /\ d' = d)), (decide (n = n /\ e' = e /\ d' = d)); tauto.
    + rewrite lookup_insert_ne by auto. rewrite decide_False by tauto. auto.
  - intros n'. unfold dt. destruct (decide (n' = n)) as [->|Hn].
    + rewrite lookup_insert, Ec. simpl. rewrite data_upd. auto.
    + rewrite lookup_insert_ne by auto. auto.
  - intros n' Hn. rewrite lookup_insert_ne; auto.
Qed.

Lemma set_next_spec h x y : is_Some (h !! it_node x) -> is_Some (h !! it_node y) ->
  exists h', set_next h x y = Ok h' /\ upd h h' x y.
Proof.
  intros Hx Hy. unfold set_next.
  destruct (put_link_spec h (it_node x) (it_edge x) next_s (it_node y) Hx)
    as (h1 & -> & L1 & D1 & F1). simpl.
  destruct (put_link_spec h1 (it_node y) (it_edge y) prior_s (it_node x)) as (h2 & -> & L2 & D2 & F2).
  { apply alive_dt in Hy as [a Ha]. rewrite <- D1 in Ha. eapply dt_alive; eauto. }
  exists h2. split; auto. split; [|split].
  - intros n e d. rewrite L2, L1. auto.
  - intros n. rewrite D2. auto.
  - intros n Hnx Hny. rewrite F2 by auto. auto.
Qed.

Lemma upd_nxt h h' x y : upd h h' x y -> nxt h' x y.
Proof.
  intros (E & _). unfold nxt. rewrite !E. split.
  - rewrite decide_False by (intros (? & ? & ?); discriminate). rewrite decide_True by auto. auto.
  - rewrite decide_True by auto. auto.
Qed.

Lemma iter_neq x y : x <> y -> ~ (it_node x = it_node y /\ it_edge x = it_edge y).
Proof. destruct x, y. simpl. intros H [-> ->]. auto. Qed.

Lemma upd_nxt_ne h h' x y a b : upd h h' x y -> a <> x -> b <> y -> nxt h a b -> nxt h' a b.
Proof.
  intros (E & _) Ha%iter_neq Hb%iter_neq [H1 H2]. unfold nxt. rewrite !E. split.
  - rewrite decide_False by (intros (? & ? & ?); discriminate).
    rewrite decide_False; auto. tauto.
  - rewrite decide_False by tauto. rewrite decide_False by (intros (? & ? & ?); discriminate). auto.
Qed.

Lemma chain_upd_front h h' x y a q : upd h h' x y -> chain h (a ++ [q]) ->
  x ∉ a -> y ∉ a ++ [q] -> chain h' (a ++ [q]).
Proof.
  intros U. induction a as [|z a IH]; simpl; auto.
  intros [H1 H2] Hx Hy. split.
  - destruct a as [|z' a]; simpl in *.
    + eapply upd_nxt_ne; eauto; set_solver.
    + eapply upd_nxt_ne; eauto; set_solver.
  - apply IH; auto; set_solver.
Qed.

Lemma chain_upd_none h h' x y l : upd h h' x y -> chain h l -> x ∉ l -> y ∉ l -> chain h' l.
Proof.
  intros U. induction l as [|z l IH]; simpl; auto.
  intros [H1 H2] Hx Hy. split; [|apply IH; auto; set_solver].
  destruct l as [|z' l]; auto. eapply upd_nxt_ne; eauto; set_solver.
Qed.

Lemma chain_upd_back h h' x y p b : upd h h' x y -> chain h (p :: b) ->
  x ∉ p :: b -> y ∉ b -> chain h' (p :: b).
Proof.
  intros U H Hx Hy. destruct b as [|z b]; [simpl; auto|].
  destruct H as [H1 H2]. split.
  - eapply upd_nxt_ne; eauto; set_solver.
  - eapply chain_upd_none; eauto; set_solver.
Qed.

(** both ends may be touched: [x] only as the last and [y] only as the first position *)
Lemma chain_upd_mid h h' x y s : upd h h' x y -> chain h s ->
  (forall z z' a b, s = a ++ z :: z' :: b -> z <> x /\ z' <> y) -> chain h' s.
Proof.
  intros U H. revert H. induction s as [|z s IH]; simpl; auto.
  intros [H1 H2] Hadj. split.
  - destruct s as [|z' s]; auto. destruct (Hadj z z' [] s eq_refl). eapply upd_nxt_ne; eauto.
  - apply IH; auto. intros z1 z2 a b ->. apply (Hadj z1 z2 (z :: a) b). auto.
Qed.

(** ** increment and decrement on a represented forest *)
Lemma wr_adj h t w a x y b : WRep h t w -> ring t w = a ++ x :: y :: b -> nxt h x y.
Proof. intros H E. apply (chain_adj h a x y b). rewrite <- E. apply H. Qed.

Lemma increment_adj h t w a x y b : WRep h t w -> ring t w = a ++ x :: y :: b ->
  increment h x = Ok y.
Proof.
  intros H E. pose proof (wr_adj _ _ _ _ _ _ _ H E) as [N1 N2].
  pose proof (ring_bal t w (wr_bal _ _ _ H)) as Hb. pose proof (wr_nodup _ _ _ H) as Hd.
  rewrite E in Hb, Hd. unfold increment. rewrite (get_link_lk _ _ _ _ _ N1). simpl.
  destruct x as [n []]; simpl in *.
  - destruct y as [m []]; simpl in *.
    + (* T n, T m *)
      destruct (adj_TT _ _ _ _ Hb Hd) as (a1 & s & -> & Hs).
      assert (Hp : exists z, lk h m leading prior_s = Some z /\ z <> n).
      { destruct a1 as [|z a1 _] using rev_ind.
        - unfold ring in E. simpl in E. injection E as <- E. exists t. split; [apply H|].
          intros ->. simpl in Hd. apply NoDup_cons in Hd as [_ Hd].
          apply NoDup_app in Hd as (_ & _ & Hd). apply NoDup_cons in Hd as [Hd _]. set_solver.
        - rewrite <- !app_assoc in E. simpl in E.
          exists (it_node z). split; [apply (wr_adj _ _ _ _ _ _ _ H E)|].
          intros Hz. assert (Hn : L n ∈ s ++ [T n] /\ T n ∈ s ++ [T n]).
          { apply (bal_both _ n trailing); auto. set_solver. }
          rewrite <- !app_assoc in Hd. simpl in Hd.
          apply NoDup_app in Hd as (_ & _ & Hd). apply NoDup_cons in Hd as [Hz' _].
          destruct z as [zn ze]. simpl in Hz. subst zn. destruct ze; set_solver. }
      destruct Hp as (z & Hp & Hz). rewrite (get_link_lk _ _ _ _ _ Hp). simpl.
      rewrite decide_False by auto. auto.
    + rewrite (get_link_lk _ _ _ _ _ N2). simpl. rewrite decide_True by auto. auto.
  - destruct (adj_leading _ _ _ _ Hb Hd) as [->|(m & -> & Hm)]; simpl.
    + rewrite decide_True by auto. auto.
    + rewrite decide_False by auto. auto.
Qed.

Lemma decrement_adj h t w a x y b : WRep h t w -> ring t w = a ++ x :: y :: b ->
  decrement h y = Ok x.
Proof.
  intros H E. pose proof (wr_adj _ _ _ _ _ _ _ H E) as [N1 N2].
  pose proof (ring_bal t w (wr_bal _ _ _ H)) as Hb. pose proof (wr_nodup _ _ _ H) as Hd.
  rewrite E in Hb, Hd. unfold decrement. rewrite (get_link_lk _ _ _ _ _ N2). simpl.
  destruct y as [m []]; simpl in *.
  - destruct x as [n []]; simpl in *.
    + rewrite decide_False; auto. intros ->.
      apply NoDup_app in Hd as (_ & _ & Hd). apply NoDup_cons in Hd as [Hd _]. set_solver.
    + destruct (adj_leading _ _ _ _ Hb Hd) as [[= ->]|(? & [=] & _)].
      rewrite decide_True by auto. auto.
  - destruct x as [n []]; simpl in *.
    + rewrite (get_link_lk _ _ _ _ _ N1). simpl. rewrite decide_True by auto. auto.
    + destruct (adj_LL _ _ _ _ Hb Hd) as (s & b1 & -> & Hs).
      assert (Hp : exists z, lk h n trailing next_s = Some z /\ z <> m).
      { destruct b1 as [|z b1].
        - assert (En : n = t).
          { unfold ring in E.
            assert (E' : (L t :: w) ++ [T t] = (a ++ L n :: L m :: s) ++ [T n]).
            { simpl. rewrite E. rewrite <- app_assoc. simpl. auto. }
            apply app_inj_tail in E' as [_ E']. congruence. }
          subst n. exists t. split; [apply H|]. intros ->.
          apply NoDup_app in Hd as (_ & _ & Hd). apply NoDup_cons in Hd as [Hd _]. set_solver.
        - exists (it_node z). split.
          { assert (E' : ring t w = (a ++ L n :: L m :: s) ++ T n :: z :: b1).
            { rewrite E. rewrite <- app_assoc. auto. }
            apply (wr_adj _ _ _ _ _ _ _ H E'). }
          intros Hz. assert (Hm : L m ∈ L m :: s /\ T m ∈ L m :: s).
          { apply (bal_both _ m leading); auto. set_solver. }
          assert (E' : a ++ L n :: L m :: s ++ T n :: z :: b1 = (a ++ [L n]) ++ (L m :: s) ++ T n :: z :: b1).
          { rewrite <- app_assoc. auto. }
          rewrite E' in Hd. apply NoDup_app in Hd as (_ & _ & Hd).
          apply NoDup_app in Hd as (_ & Hd & _).
          destruct z as [zn ze]. simpl in Hz. subst zn.
          destruct ze; [apply (Hd (T m))|apply (Hd (L m))]; set_solver. }
      destruct Hp as (z & Hp & Hz). rewrite (get_link_lk _ _ _ _ _ Hp). simpl.
      rewrite decide_False by auto. auto.
Qed.

Lemma increment_wrap h t w : WRep h t w -> increment h (T t) = Ok (L t).
Proof.
  intros H. destruct (wr_wrap _ _ _ H) as [N1 N2]. simpl in N1, N2. unfold increment. simpl.
  rewrite (get_link_lk _ _ _ _ _ N1). simpl. rewrite (get_link_lk _ _ _ _ _ N2). simpl.
  rewrite decide_True by auto. auto.
Qed.
Lemma decrement_wrap h t w : WRep h t w -> decrement h (L t) = Ok (T t).
Proof.
  intros H. destruct (wr_wrap _ _ _ H) as [N1 N2]. simpl in N1, N2. unfold decrement. simpl.
  rewrite (get_link_lk _ _ _ _ _ N2). simpl. rewrite (get_link_lk _ _ _ _ _ N1). simpl.
  rewrite decide_True by auto. auto.
Qed.

(** at a gap *)
Lemma increment_gap h t a b : WRep h t (a ++ b) -> increment h (lastp t a) = Ok (firstp t b).
Proof.
  intros H. destruct (ring_split t a b) as (a' & b' & _ & _ & E).
  eapply increment_adj; eauto.
Qed.
Lemma decrement_gap h t a b : WRep h t (a ++ b) -> decrement h (firstp t b) = Ok (lastp t a).
Proof.
  intros H. destruct (ring_split t a b) as (a' & b' & _ & _ & E).
  eapply decrement_adj; eauto.
Qed.
Lemma increment_cons h t a x b : WRep h t (a ++ x :: b) -> increment h x = Ok (firstp t b).
Proof.
  intros H. rewrite <- (lastp_snoc t a x). apply increment_gap.
  rewrite <- app_assoc. auto.
Qed.
Lemma decrement_snoc h t a x b : WRep h t (a ++ x :: b) -> decrement h x = Ok (lastp t a).
Proof. intros H. change x with (firstp t (x :: b)). apply decrement_gap. auto. Qed.
Lemma f_begin_spec h f w : WRep h (f_tail f) w -> f_begin h f = Ok (firstp (f_tail f) w).
Proof. intros H. unfold f_begin, f_root. rewrite <- (lastp_nil (f_tail f)). apply increment_gap. auto. Qed.

Lemma wr_notin_tail h t w e : WRep h t w -> Iter t e ∉ w.
Proof.
  intros H Hin. assert (HL : L t ∈ w).
  { eapply (bal_both _ t e); eauto. apply H. }
  pose proof (wr_nodup _ _ _ H) as Hd. unfold ring in Hd. apply NoDup_cons in Hd as [Hd _]. set_solver.
Qed.

Lemma wr_tail_nodes h t w : WRep h t w -> t ∉ wnodes w.
Proof.
  intros H ([n e] & -> & Hin)%elem_of_list_fmap. simpl in *. eapply wr_notin_tail; eauto.
Qed.

Lemma f_empty_spec h f w : WRep h (f_tail f) w -> f_empty h f = Ok (bool_decide (w = [])).
Proof.
  intros H. unfold f_empty. rewrite (f_begin_spec _ _ _ H). simpl. f_equal.
  apply bool_decide_ext. unfold f_end. destruct w as [|x w]; simpl.
  - tauto.
  - split; [|discriminate]. intros ->. exfalso. apply (wr_notin_tail _ _ _ trailing H). set_solver.
Qed.

Lemma wr_alive_w h t w x : WRep h t w -> x ∈ ring t w -> is_Some (h !! it_node x).
Proof.
  intros H Hx. unfold ring in Hx. rewrite elem_of_cons, elem_of_app, elem_of_list_singleton in Hx.
  destruct Hx as [->|[Hx| ->]]; simpl.
  - eapply dt_alive, H.
  - destruct (wr_data _ _ _ H (it_node x)) as [v Hv]; [apply elem_wnodes; auto|]. eapply dt_alive; eauto.
  - eapply dt_alive, H.
Qed.

Lemma lastp_in_ring t a b : lastp t a ∈ ring t (a ++ b).
Proof. destruct (ring_split t a b) as (a' & b' & _ & _ & ->). set_solver. Qed.
Lemma firstp_in_ring t a b : firstp t b ∈ ring t (a ++ b).
Proof. destruct (ring_split t a b) as (a' & b' & _ & _ & ->). set_solver. Qed.

(** The representation only depends on the footprint. *)
Lemma WRep_frame h h' t w : (forall n, n = t \/ n ∈ wnodes w -> h' !! n = h !! n) ->
  WRep h t w -> WRep h' t w.
Proof.
  intros E H.
  assert (El : forall n e d, n ∈ wnodes (ring t w) -> lk h' n e d = lk h n e d).
  { intros n e d Hn. unfold lk. rewrite E; auto. unfold ring, wnodes in Hn. simpl in Hn.
    rewrite map_app in Hn. simpl in Hn. unfold wnodes. set_solver. }
  constructor.
  - eapply chain_ext; [|apply H]. auto.
  - eapply nxt_ext; [|apply H]. simpl. intros n e d Hn. apply El. unfold ring. simpl. set_solver.
  - apply H.
  - apply H.
  - intros n Hn. unfold dt. rewrite E by auto. apply H. auto.
  - unfold dt. rewrite E by auto. apply H.
Qed.

End heap.
