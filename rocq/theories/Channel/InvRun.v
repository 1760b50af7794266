(** The invariant of Inv.v holds in all states reachable. *)
From Coq Require Import List Bool ZArith Lia Arith.
From stdpp Require Import list.
From Verif.Channel Require Import Queue QueueProof Model Sum Inv InvStep InvStep2 InvStep3.

(** ** the function returns *)
Lemma fold_min_le l s : forall v, (fold_left (fun v e => match free_buffer e s with Some f => Z.min v f | None => v end) l v <= v)%Z.
Proof.
  induction l as [|e l IH]; intros v; simpl; [lia|]. specialize (IH (match free_buffer e s with Some f => Z.min v f | None => v end)).
  destruct (free_buffer e s); lia.
Qed.
Lemma fold_min_in l s e f : e ∈ l -> free_buffer e s = Some f -> forall v, (fold_left (fun v e => match free_buffer e s with Some f => Z.min v f | None => v end) l v <= f)%Z.
Proof.
  induction 1 as [e l|e x l H IH]; intros F v; simpl.
  - rewrite F. pose proof (fold_min_le l s (Z.min v f)). lia.
  - by apply IH.
Qed.
Lemma free_le n p : bsize n = 1 -> plen (que n) p <= 1 -> (free_of n p <= 1)%Z.
Proof.
  intros B L. unfold free_of. rewrite B. simpl Nat.eqb. cbn match. unfold plen in L.
  destruct (qs (que n) !! p) as [c|]; [destruct (length c) as [|[|]]; [done|done|lia]|done].
Qed.
Lemma free_range n p : bsize n = 1 -> plen (que n) p <= 1 -> free_of n p = Z.of_nat (1 - plen (que n) p).
Proof.
  intros B L. unfold free_of. rewrite B. simpl Nat.eqb. cbn match. unfold plen in *.
  destruct (qs (que n) !! p) as [c|]; [destruct (length c) as [|[|]]; [done|done|lia]|done].
Qed.
Lemma min_free_false s i n : inv s -> nodes s !! i = Some n -> (min_free (down n) s <=? 1)%Z = false -> down n <> [] /\ sumf (alive (dead s)) (down n) = 0.
Proof.
  intros I Hn M. apply Z.leb_gt in M. unfold min_free in M. destruct (down n) as [|e l] eqn:E; [lia|]. rewrite <- E in *. split; [by rewrite E|].
  apply sumf_0. intros [d p] He. unfold alive. simpl. destruct (existsb (Nat.eqb d) (dead s)) eqn:De; [done|]. exfalso.
  destruct (n_down _ _ _ (i_node s I i n Hn) d p He) as (nd & Hd & Hu). pose proof (i_node s I d nd Hd) as Nd.
  assert (free_buffer (d, p) s = Some (free_of nd p)) as F. { unfold free_buffer, deadb. simpl. by rewrite De, Hd. }
  pose proof (fold_min_in _ s _ _ He F size_max) as X. assert (free_of nd p <= 1)%Z; [|lia]. apply free_le; [apply Nd|].
  unfold plen. destruct (qs (que nd) !! p) as [c|] eqn:Hc; [|lia]. by apply (n_port _ _ _ Nd p i c).
Qed.
Lemma st_ret s t i n ms o : inv s -> nodes s !! i = Some n -> jobs s !! t = Some (i, JInvoke ms) ->
  inv (set_job t i (JSusp o (down n) (min_free (down n) s <=? 1)%Z) s).
Proof.
  intros I Hn Ht. apply (st_move s t i (JInvoke ms)); try done. intros (n0 & Hn0 & J). replace n0 with n in * by congruence.
  exists n. split; [done|]. split; [done|]. split; [apply (i_node s I i n Hn)|]. split; [done|]. by apply (min_free_false s i n).
Qed.

(** ** a process is destroyed *)
Lemma existsb_snoc {A} (f : A -> bool) l x : existsb f (l ++ [x]) = existsb f l || f x.
Proof. rewrite existsb_app. simpl. by rewrite orb_false_r. Qed.
Lemma alive_snoc D i e : alive (D ++ [i]) e <= alive D e.
Proof. unfold alive. rewrite existsb_snoc. destruct (existsb _ D); simpl; [lia|]. destruct (_ =? i); simpl; lia. Qed.
Lemma st_destroy s i : inv s -> inv (St (nodes s) (dead s ++ [i]) (jobs s) (pends s) (snd_h s) (rcv_h s)).
Proof.
  intros I. set (s' := St _ _ _ _ _ _).
  assert (forall k, credit s' k <= credit s k) as Cr.
  { intros k. unfold credit. simpl. assert (sumf (cjob (dead s ++ [i]) k) (jobs s) <= sumf (cjob (dead s) k) (jobs s)); [|lia].
    apply sumf_le. intros [x p] _. unfold cjob. simpl. destruct p; try lia. destruct (x =? k); [|lia]. apply sumf_le. intros e _. apply alive_snoc. }
  assert (forall k, deadb k s' = deadb k s || (k =? i)) as Db. { intros k. unfold deadb. simpl. apply existsb_snoc. }
  constructor.
  - intros k n Hn. destruct (i_node s I k n Hn). constructor; try done.
    + change (bc s' k) with (bc s k). specialize (Cr k). lia.
    + simpl. intros H. by destruct (dead s).
    + rewrite Db. intros A. apply orb_false_iff in A as [A _]. by apply n_snd.
  - intros t k p H. destruct (i_job s I t k p H) as (n & Hn & J). exists n. split; [done|]. destruct p; try done.
    destruct J as (J1 & J2 & J3 & J4). repeat split; try done; try (by apply J4). destruct (J4 ltac:(done)) as [_ J5].
    simpl. assert (sumf (alive (dead s ++ [i])) rest <= sumf (alive (dead s)) rest) by (apply sumf_le; intros e _; apply alive_snoc). lia.
  - apply I.
  - apply I.
  - apply I.
Qed.

(** ** new processes *)
Fixpoint extra (d p : nat) (us : list nat) (k : nat) : list (nat * nat) :=
  match us with [] => [] | u :: us => (if u =? k then [(d, p)] else []) ++ extra d (S p) us k end.
Lemma with_down_down n : with_down (down n) n = n.
Proof. by destruct n. Qed.
Lemma map_senders_ok d us : forall p s s' ev, map_senders d p us s = Some (s', ev) ->
  dead s' = dead s /\ jobs s' = jobs s /\ pends s' = pends s /\ snd_h s' = snd_h s /\ rcv_h s' = rcv_h s /\ Ub ∉ ev /\
  (forall k, nodes s' !! k = (fun n => with_down (down n ++ extra d p us k) n) <$> nodes s !! k) /\
  (forall k, sumf (cnode k) (nodes s') = sumf (cnode k) (nodes s)) /\
  (forall k, sumf (downf k) (nodes s') = sumf (downf k) (nodes s) + (if k =? d then length us else 0)).
Proof.
  induction us as [|u us IH]; intros p s s' ev H; simpl in H.
  - injection H as <- <-. repeat split; try done.
    + by intros H%elem_of_nil.
    + intros k. simpl. destruct (nodes s !! k) as [n|]; [|done]. simpl. by rewrite app_nil_r, with_down_down.
    + intros k. simpl. destruct (k =? d); lia.
  - unfold map_sender in H. destruct (nodes s !! u) as [n|] eqn:Hn; [|done]. destruct (map_senders d (S p) us _) as [[s2 e2]|] eqn:R; [|done]. injection H as <- <-.
    apply IH in R as (H1 & H2 & H3 & H4 & H5 & H6 & H7 & H8 & H9). simpl in *. repeat split; try done.
    + intros [H|H]%elem_of_cons; done.
    + intros k. rewrite H7. destruct (decide (u = k)) as [->|N].
      * rewrite (lookup_set _ _ _ _ Hn), Hn. simpl. rewrite Nat.eqb_refl. by rewrite <- app_assoc.
      * rewrite list_lookup_insert_ne by done. rewrite (proj2 (Nat.eqb_neq u k)) by done. done.
    + intros k. rewrite H8. pose proof (sumf_insert (cnode k) _ _ _ (with_down (down n ++ [(d, p)]) n) Hn) as X.
      change (cnode k (with_down (down n ++ [(d, p)]) n)) with (cnode k n) in X. lia.
    + intros k. rewrite H9. pose proof (sumf_insert (downf k) _ _ _ (with_down (down n ++ [(d, p)]) n) Hn) as X.
      unfold downf at 2 4 in X. cbn [down with_down] in X. rewrite map_app, cnt_app in X. unfold cnt at 3 in X. simpl in X.
      unfold downf in *. rewrite (Nat.eqb_sym d k) in X. destruct (k =? d); simpl in *; lia.
Qed.
Lemma extra_in d us : forall p k e, e ∈ extra d p us k -> exists j, e = (d, p + j) /\ us !! j = Some k.
Proof.
  induction us as [|u us IH]; intros p k e H; simpl in H; [by apply elem_of_nil in H|]. apply elem_of_app in H as [H|H].
  - destruct (Nat.eqb_spec u k) as [->|]; [|by apply elem_of_nil in H]. apply elem_of_list_singleton in H as ->. exists 0. by rewrite Nat.add_0_r.
  - apply IH in H as (j & -> & H). exists (S j). split; [f_equal; lia|done].
Qed.
Lemma extra_nodup d us : forall p k, NoDup (extra d p us k).
Proof.
  induction us as [|u us IH]; intros p k; simpl; [constructor|]. apply NoDup_app. split; [destruct (u =? k); [apply NoDup_singleton|constructor]|].
  split; [|apply IH]. intros e He H. apply extra_in in H as (j & -> & _). destruct (u =? k); [|by apply elem_of_nil in He].
  apply elem_of_list_singleton in He. injection He as He. lia.
Qed.
Lemma cnode_new k st us v b : cnode k (new_node st us v b) = 0.
Proof.
  unfold cnode. apply sumf_0. intros p _. unfold isup, plen. simpl. destruct (us !! p) as [[u|]|]; try done. destruct (u =? k); [|done].
  destruct (replicate (length us) [] !! p) as [c|] eqn:H; [|done]. apply lookup_replicate in H as [-> _]. done.
Qed.
Lemma empty_new st n : 0 < n -> q_empty st (q_new n) = true.
Proof.
  intros Hn. destruct n as [|n]; [lia|]. destruct st; try done. apply empty_unordered. simpl. constructor; [done|].
  apply Forall_forall. intros c H. by apply elem_of_replicate in H as [-> _].
Qed.
Lemma inv_new s s' ev st us v sn : inv s -> (st = Default -> length us = 1) -> us <> [] ->
  (forall p u, us !! p = Some (Some u) -> u < length (nodes s)) ->
  (sn = [] \/ us = [None] /\ sn = [length (nodes s)]) ->
  map_senders (length (nodes s)) 0 (omap id us) (St (nodes s ++ [new_node st us v 1]) (dead s) (jobs s) (pends s) (snd_h s ++ sn) (rcv_h s ++ [(length (nodes s), false)])) = Some (s', ev) ->
  (sn = [] -> us = map Some (omap id us)) -> inv s' /\ Ub ∉ ev.
Proof.
  intros I Df Ne Hu Hsn M Hus. apply map_senders_ok in M as (D & J & P & S & R & Eub & N & Cn & Dn). simpl in *. split; [|done].
  set (d := length (nodes s)) in *. set (nn := new_node st us v 1) in *.
  assert (forall k n, nodes s !! k = Some n -> nodes s' !! k = Some (with_down (down n ++ extra d 0 (omap id us) k) n)) as No.
  { intros k n Hk. rewrite N, lookup_app_l, Hk; [done|]. by eapply lookup_lt_Some. }
  assert (extra d 0 (omap id us) d = []) as Ex.
  { destruct (extra d 0 (omap id us) d) as [|e l] eqn:E; [done|]. destruct (extra_in d (omap id us) 0 d e) as (j & _ & Hj); [rewrite E; left|].
    apply elem_of_list_lookup_2, elem_of_list_omap in Hj as (x & Hx & Eq). simpl in Eq. subst x. apply elem_of_list_lookup in Hx as [p Hp]. apply Hu in Hp. lia. }
  assert (nodes s' !! d = Some nn) as Nd. { rewrite N, lookup_app_r, Nat.sub_diag by done. simpl. rewrite Ex. done. }
  assert (forall k, nodes s !! k = None -> k <> d -> nodes s' !! k = None) as Nn.
  { intros k Hk Hd. apply lookup_ge_None in Hk. rewrite N, (proj2 (lookup_ge_None _ _)); [done|]. rewrite app_length. simpl. unfold d in Hd. lia. }
  assert (forall k, is_Some (nodes s !! k) -> k <> d) as Lt. { intros k H. apply lookup_lt_is_Some in H. unfold d. lia. }
  assert (upsp s s') as U. { intros k n Hk. exists (with_down (down n ++ extra d 0 (omap id us) k) n). auto. }
  assert (forall k, own s' k = own s k /\ bc s' k = bc s k /\ credit s' k = credit s k /\ npend s' k = npend s k) as Q1.
  { intros k. unfold own, bc, credit, npend. rewrite D, J, P, Cn, sumf_app. simpl. unfold nn. rewrite cnode_new. repeat split; lia. }
  assert (forall k, k <> d -> sndc s' k = sndc s k /\ nrcv s' k = nrcv s k) as Q2.
  { intros k Hk. unfold sndc, nrcv. rewrite J, S, R, Dn, !sumf_app, cnt_app. cbn [sumf]. rewrite (proj2 (Nat.eqb_neq k d)) by done.
    assert (downf k nn = 0) by done. assert (rcvf k (d, false) = 0) by (unfold rcvf; simpl; by rewrite (proj2 (Nat.eqb_neq d k))).
    assert (cnt k sn = 0); [|lia]. destruct Hsn as [-> | [_ ->]]; [done|]. unfold cnt. simpl. by rewrite (proj2 (Nat.eqb_neq d k)). }
  assert (own s d = 0 /\ bc s d = 0) as [O0 B0].
  { split; apply sumf_0; intros [k p] H; apply elem_of_list_lookup in H as [t H]; destruct (i_job s I _ _ _ H) as (n & Hn & _);
    unfold ownf, bcf; simpl; rewrite (proj2 (Nat.eqb_neq k d)); try done; by apply Lt. }
  assert (sumf (cnode d) (nodes s) = 0) as C0.
  { apply sumf_0. intros n H. apply elem_of_list_lookup in H as [k H]. unfold cnode. apply sumf_0. intros p _. unfold isup.
    destruct (ups n !! p) as [[u|]|] eqn:E; try done. destruct (Nat.eqb_spec u d) as [->|]; [|done].
    pose proof (n_ups _ _ _ (i_node s I k n H) p d E). apply lookup_lt_Some in H. unfold d in *. lia. }
  assert (sumf (cjob (dead s) d) (jobs s) = 0) as C1.
  { apply sumf_0. intros [k p] H. apply elem_of_list_lookup in H as [t H]. destruct (i_job s I _ _ _ H) as (n & Hn & Jn). unfold cjob. simpl. destruct p; try done.
    - destruct Jn as [F _]. destruct (cnt d todo) as [|x0] eqn:E; [done|]. assert (d ∈ todo) as X by (apply cnt_pos; lia). rewrite Forall_forall in F. apply F, Lt in X. done.
    - rewrite (proj2 (Nat.eqb_neq k d)); [done|]. by apply Lt. }
  assert (npend s d = 0) as P0.
  { apply sumf_0. intros [k|k] H; [done|]. simpl. rewrite (proj2 (Nat.eqb_neq k d)); [done|]. apply Lt, (i_pend s I). auto. }
  assert (cnt d (snd_h s) = 0) as S0.
  { destruct (cnt d (snd_h s)) as [|x0] eqn:E; [done|]. assert (d ∈ snd_h s) as X by (apply cnt_pos; lia). apply (i_snd s I) in X as (n & X & _). by destruct (Lt d). }
  assert (sumf (downf d) (nodes s) = 0) as S1.
  { apply sumf_0. intros n H. apply elem_of_list_lookup in H as [k H]. unfold downf. destruct (cnt d (map fst (down n))) as [|x0] eqn:E; [done|].
    assert (d ∈ map fst (down n)) as X by (apply cnt_pos; lia). apply elem_of_list_fmap in X as ([d' p] & Eq & X). simpl in Eq. subst d'.
    apply (n_down _ _ _ (i_node s I k n H)) in X as (nd & X & _). by destruct (Lt d). }
  assert (sumf (clrf d) (jobs s) = 0) as S2.
  { apply sumf_0. intros [k p] H. apply elem_of_list_lookup in H as [t H]. destruct (i_job s I _ _ _ H) as (n & Hn & Jn). unfold clrf. simpl. destruct p; try done.
    destruct (cnt d (map fst rest)) as [|x0] eqn:E; [done|]. assert (d ∈ map fst rest) as X by (apply cnt_pos; lia). apply elem_of_list_fmap in X as ([d' p] & Eq & X). simpl in Eq. subst d'.
    apply Jn in X. by destruct (Lt d). }
  assert (nrcv s d = 0) as R0.
  { apply sumf_0. intros [k b] H. unfold rcvf. simpl. rewrite (proj2 (Nat.eqb_neq k d)); [done|]. apply Lt. by eapply (i_rcv s I). }
  assert (sndc s' d = length us) as Sd.
  { unfold sndc. rewrite J, S, Dn, sumf_app, cnt_app, S0, S1, S2, Nat.eqb_refl. cbn [sumf]. assert (downf d nn = 0) as -> by done.
    destruct Hsn as [-> | [-> ->]]; simpl; [rewrite (Hus eq_refl) at 2; rewrite map_length; simpl; lia|unfold cnt; simpl; rewrite Nat.eqb_refl; simpl; lia]. }
  assert (nrcv s' d = 1) as Rd. { unfold nrcv in *. rewrite R, sumf_app, R0. unfold rcvf. simpl. by rewrite Nat.eqb_refl. }
  constructor.
  - intros k n Hk. destruct (decide (k = d)) as [->|Nk].
    + rewrite Nd in Hk. injection Hk as <-. destruct (Q1 d) as (H1 & H2 & H3 & H4). rewrite ?O0, ?B0, ?P0 in *. unfold credit in H3 at 2. rewrite C0, C1 in H3.
      constructor; simpl; rewrite ?H1, ?H2, ?H3, ?H4; try done; try lia.
      * by rewrite replicate_length.
      * intros d' p H. by apply elem_of_nil in H.
      * constructor.
      * intros p u c _ H. apply lookup_replicate in H as [-> _]. simpl. lia.
      * by destruct us.
      * intros _ _ [H|H]; [|done]. exfalso. unfold empty_q in H. simpl strat in H. simpl que in H. rewrite empty_new in H; [done|]. destruct us; simpl; [done|lia].
      * intros ->. lia.
      * by intros ->.
    + destruct (nodes s !! k) as [n0|] eqn:Hk0; [|by rewrite Nn in Hk]. rewrite (No k n0 Hk0) in Hk. injection Hk as <-.
      destruct (i_node s I k n0 Hk0). destruct (Q1 k) as (H1 & H2 & H3 & H4). destruct (Q2 k Nk) as (H5 & H6).
      assert (deadb k s' = deadb k s) as D' by (unfold deadb; by rewrite D).
      constructor; simpl; rewrite ?D, ?D', ?H1, ?H2, ?H3, ?H4, ?H5, ?H6, ?P; try done.
      * intros d' p [H|H]%elem_of_app.
        -- destruct (n_down d' p H) as (nd & X & Y). destruct (U _ _ X) as (nd' & X' & Y'). exists nd'. by rewrite Y'.
        -- apply extra_in in H as (j & [= -> ->] & H). exists nn. split; [done|]. simpl.
           destruct Hsn as [-> | [-> _]]; [|done]. rewrite (Hus eq_refl), list_lookup_fmap, H. done.
      * apply NoDup_app. split; [done|]. split; [|apply extra_nodup]. intros [d' p] H H'. apply extra_in in H' as (j & [= -> ->] & _).
        apply n_down in H as (nd & H & _). by destruct (Lt d).
  - intros t k p H. rewrite J in H. pose proof (i_job s I t k p H) as Jk. apply (jinv_keep s); try done.
    + intros j n Hj. exists (with_down (down n ++ extra d 0 (omap id us) j) n). split; [by apply No|]. intros _. split; [done|]. split; [|done]. simpl. intros e He; apply elem_of_app; by left.
    + intros e He. unfold port. destruct (nodes s !! e.1) as [n|] eqn:Hn; [by rewrite (No _ _ Hn)|]. intros _.
      destruct p as [| | | |o r| | | |]; simpl in He; try by apply elem_of_nil in He. destruct Jk as (nk & Hk & _ & _ & Sk & _). destruct e as [d' p'].
      destruct (n_down _ _ _ (i_node s I k nk Hk) d' p') as (nd & X & _); [by apply Sk|]. simpl in *. congruence.
  - intros j. rewrite S. intros [H|H]%elem_of_app.
    + apply (i_snd s I) in H as (n & X & Y). destruct (U _ _ X) as (n' & X' & Y'). exists n'. split; [done|congruence].
    + destruct Hsn as [-> | [-> ->]]; [by apply elem_of_nil in H|]. apply elem_of_list_singleton in H as ->. by exists nn.
  - intros j b. rewrite R. intros [H|H]%elem_of_app.
    + apply (i_rcv s I) in H as (n & X). destruct (U _ _ X) as (n' & X' & Y'). by exists n'.
    + apply elem_of_list_singleton in H. injection H as -> ->. by exists nn.
  - intros j. rewrite P. intros H. apply (i_pend s I) in H as (n & X). destruct (U _ _ X) as (n' & X' & Y'). by exists n'.
Qed.

(** ** every step *)
Definition buf1 (l : label) : Prop := match l with LPipe _ _ b => b = 1 | _ => True end.
Lemma no_ub_nil : Ub ∉ ([] : list event).
Proof. by intros ?%elem_of_nil. Qed.
Lemma no_ub_one e : e <> Ub -> Ub ∉ [e].
Proof. intros N ?%elem_of_list_singleton. congruence. Qed.
Lemma enqueue_eq i p m s s' ev : enqueue i p m s = Some (s', ev) ->
  deadb i s = true /\ s' = s /\ ev = [] \/
  deadb i s = false /\ exists n, nodes s !! i = Some n /\ s' = run_if (en_run n) i (set_node i (enq p m n) s) /\ ev = [Appended i p m].
Proof.
  unfold enqueue. destruct (deadb i s); [intros [= <- <-]; auto|]. destruct (nodes s !! i) as [n|]; [|done]. intros [= <- <-]. right. split; [done|]. by exists n.
Qed.
Lemma remove_sender_eq i s s' ev : remove_sender i s = Some (s', ev) ->
  deadb i s = true /\ s' = s /\ ev = [] \/
  deadb i s = false /\ exists n, nodes s !! i = Some n /\ (scount n = 0 /\ s' = s /\ ev = [Ub] \/ exists k, scount n = S k /\ s' = rms i k n s /\ ev = []).
Proof.
  unfold remove_sender. destruct (deadb i s); [intros [= <- <-]; auto|]. destruct (nodes s !! i) as [n|]; [|done]. intros H. right. split; [done|]. exists n. split; [done|].
  destruct (scount n) as [|[|k]]; injection H as <- <-; [by left|right; by exists 0|right; by exists (S k)].
Qed.
Lemma sndc_down s i n d p : nodes s !! i = Some n -> (d, p) ∈ down n -> 0 < sndc s d.
Proof.
  intros Hn Hd. unfold sndc. pose proof (sumf_lookup (downf d) _ _ _ Hn). assert (0 < downf d n); [|lia].
  apply cnt_pos, elem_of_list_fmap. by exists (d, p).
Qed.
Lemma inv_job_step s t i p s' ev : inv s -> jobs s !! t = Some (i, p) -> job_step t i p s = Some (s', ev) -> inv s' /\ Ub ∉ ev.
Proof.
  intros I Ht H. pose proof (i_job s I _ _ _ Ht) as (n & Hn & J). pose proof (i_node s I i n Hn) as Ni. unfold job_step in H. rewrite Hn in H.
  destruct p as [|[|u todo] ok1 m|ms|o rest b|o [|e rest]|ok1| | |[|e rest]].
  - destruct (deadb i s) eqn:De.
    { injection H as <- <-. split; [|apply no_ub_nil]. by apply (st_end s t i JPend). }
    unfold pop_from_queue in H. destruct (empty_q n) eqn:Em.
    { injection H as <- <-. split; [|apply no_ub_nil]. by apply st_done. }
    destruct (take_ok _ _ Em) as (ms & q' & T & _). unfold q_take in T. unfold empty_q in Em. rewrite Em in T.
    destruct (q_front (strat n) (que n)) as [[ms1 q1]|] eqn:F; [|done]. injection T as -> <-. injection H as <- <-. split; [|by apply no_ub_one].
    apply (st_take s t i n ms); try done. unfold q_take. by rewrite Em, F.
  - destruct J as [_ J]. destruct m as [ms|].
    + destruct (has_error ms).
      { injection H as <- <-. split; [|by apply no_ub_one]. by apply (st_end s t i (JCts [] ok1 (Some ms))). }
      destruct (proc n) eqn:Pr; [|by rewrite (n_proc _ _ _ Ni Pr) in J]. injection H as <- <-. split; [|by apply no_ub_one].
      apply (st_move s t i (JCts [] ok1 (Some ms))); try done. intros _. by exists n.
    + injection H as <- <-. split; [|apply no_ub_nil]. apply (st_move s t i (JCts [] ok1 None)); try done. intros _. by exists n.
  - destruct J as [Fu J]. apply Forall_cons in Fu as Fu'. destruct Fu' as [[nu Hu] Fu']. destruct ok1.
    + unfold clear2 in H. rewrite Hu in H. injection H as <- <-. split; [|apply no_ub_nil]. by apply st_cts.
    + rewrite Hu in H. injection H as <- <-. split; [|apply no_ub_nil]. destruct (final nu) eqn:F.
      * exfalso. pose proof (i_node s I u nu Hu) as Nu. destruct (n_final _ _ _ Nu F) as [_ Z]. pose proof (n_credit _ _ _ Nu) as C.
        unfold credit in C. pose proof (sumf_lookup (cjob (dead s) u) _ _ _ Ht) as X. unfold cjob in X at 1. unfold cnt in X. simpl in X. rewrite Nat.eqb_refl in X. simpl in X. lia.
      * apply (st_move s t i (JCts (u :: todo) false m)); try done.
  - done.
  - injection H as <- <-. split; [|apply no_ub_nil]. by apply st_susp.
  - injection H as <- <-. split; [|apply no_ub_nil]. apply (st_move s t i (JSend o [])); try done.
    + intros k. unfold cjob. simpl. by destruct (i =? k).
    + intros _. exists n. split; [done|]. by destruct J.
  - destruct (enqueue _ _ _ _) as [[s1 e1]|] eqn:E; [|done]. injection H as <- <-. apply enqueue_eq in E as [(De & -> & ->)|(De & nd & Hd & -> & ->)].
    + split; [|apply no_ub_nil]. apply (st_move s t i (JSend o (e :: rest))); try done.
      * intros k. unfold cjob. simpl. destruct (i =? k); [|done]. unfold alive at 2. unfold deadb in De. rewrite De. done.
      * intros _. destruct J as (J1 & J2 & J3 & J4). apply NoDup_cons in J2 as [_ J2]. exists n. split; [done|]. split; [done|]. split; [done|]. split.
        { intros x Hx. apply J3. by right. } intros x Hx. apply J4. by right.
    + split; [|by apply no_ub_one]. destruct e as [d p]. by apply st_send.
  - destruct ok1.
    + unfold clear2 in H. rewrite Hn in H. injection H as <- <-. split; [|apply no_ub_nil]. by apply st_self.
    + rewrite J in H. injection H as <- <-. split; [|apply no_ub_nil]. apply (st_move s t i (JSelf false)); try done.
  - injection H as <- <-. split; [|apply no_ub_nil]. destruct (final n) eqn:F.
    + assert (negb (empty_q n) || closeq n = false) as Z.
      { destruct (negb (empty_q n) || closeq n) eqn:Z; [|done]. rewrite (nonfinal s i n) in F; [done|done|].
        apply orb_true_iff in Z as [Z|Z]; [left; by apply negb_true_iff|by right]. }
      rewrite Z. by apply st_jdone.
    + by apply st_jdone2.
  - injection H as <- <-. split; [|by apply no_ub_one]. by apply st_final.
  - injection H as <- <-. split; [|apply no_ub_nil]. by apply st_clear_end.
  - destruct (remove_sender _ _) as [[s1 e1]|] eqn:E; [|done]. injection H as <- <-. destruct e as [d p].
    apply remove_sender_eq in E as [(De & -> & ->)|(De & nd & Hd & [(Z & _)|(k & Z & -> & ->)])]; simpl in *.
    + split; [|apply no_ub_nil]. by eapply st_clear_dead.
    + exfalso. pose proof (n_snd _ _ _ (i_node s I d nd Hd) De) as X. unfold sndc in X. pose proof (sumf_lookup (clrf d) _ _ _ Ht) as Y.
      unfold clrf in Y at 1. unfold cnt in Y. simpl in Y. rewrite Nat.eqb_refl in Y. simpl in Y. lia.
    + split; [|apply no_ub_nil]. by eapply st_clear.
Qed.
Lemma set_pends_id s : set_pends (pends s) s = s.
Proof. by destruct s. Qed.
Lemma remove_receiver_inv s h i n hs : inv s -> rcv_h s !! h = Some (i, false) -> nodes s !! i = Some n ->
  (forall j b, (j, b) ∈ hs -> exists b', (j, b') ∈ rcv_h s) -> (forall k, sumf (rcvf k) hs + b2n (i =? k) = nrcv s k) ->
  forall s' ev, remove_receiver i (set_rcv hs s) = Some (s', ev) -> inv s' /\ Ub ∉ ev.
Proof.
  intros I Hh Hn Hs Hc s' ev H. unfold remove_receiver in H. simpl in H. rewrite Hn in H. pose proof (i_node s I i n Hn) as Ni.
  assert (1 <= nrcv s i) as G. { specialize (Hc i). rewrite Nat.eqb_refl in Hc. simpl in Hc. lia. }
  destruct (rvoid n) eqn:V.
  - injection H as <- <-. split; [|apply no_ub_nil]. apply (inv_frame0 s); try done; try (intros; by eauto); [|by apply (jobs_same s)].
    intros k. unfold same. change (nrcv (set_rcv hs s) k) with (sumf (rcvf k) hs). specialize (Hc k). repeat split; try done. lia.
  - pose proof (n_rcv _ _ _ Ni V) as L. destruct (rcount n) as [|[|c]] eqn:Rc; [lia| |]; injection H as <- <-; (split; [|apply no_ub_nil]).
    + change (add_pend (PRecv i) (set_node i (with_rcount 0 n) (set_rcv hs s))) with (set_node i (with_rcount 0 n) (set_rcv hs (set_pends (pends s ++ [PRecv i]) s))).
      apply st_rcv; try done; [|by right|].
      * intros k. specialize (Hc k). rewrite Nat.eqb_sym in Hc. destruct (Nat.eqb_spec k i) as [Ek|Ek]; simpl in Hc; [subst k|]; lia.
      * intros _. apply elem_of_app. right. by left.
    + rewrite <- (set_pends_id s) at 1. apply st_rcv; try done; [|by left].
      intros k. specialize (Hc k). rewrite Nat.eqb_sym in Hc. destruct (Nat.eqb_spec k i) as [Ek|Ek]; simpl in Hc; [subst k|]; lia.
Qed.
Lemma omap_some (us : list nat) : omap id (map Some us) = us.
Proof. induction us as [|u us IH]; [done|]. cbn. f_equal. exact IH. Qed.
Theorem inv_step s l s' ev : inv s -> buf1 l -> step s l = Some (s', ev) -> inv s' /\ Ub ∉ ev.
Proof.
  intros I B H. destruct l as [|h v b|k hs v|h m|h|h|h|h|h|h|h|k|t|t o|i]; simpl in H.
  - injection H as <- <-. apply (inv_new s _ [] Default [None] false [length (nodes s)]); try done; [|auto].
    intros [|p] u; simpl; done.
  - destruct (rcv_h s !! h) as [[u r]|] eqn:Hh; [|done]. destruct r.
    { injection H as <- <-. split; [done|]. by apply no_ub_one. }
    simpl in B. subst b. apply (inv_new s _ ev Default [Some u] v []); try done; [|auto|by rewrite app_nil_r].
    intros [|p] u'; simpl; [|done]. intros [= ->]. apply lookup_lt_is_Some. eapply (i_rcv s I). by eapply elem_of_list_lookup_2.
  - destruct k; try done; destruct hs as [|h0 hs]; try done; destruct (handles (h0 :: hs) s) as [us|] eqn:Hus; try done.
    all: assert (length us = S (length hs)) as Lu by (apply mapM_length in Hus; simpl in Hus; done).
    all: assert (forall p u, us !! p = Some u -> u < length (nodes s)) as Lt by
      (intros p u Hp; apply mapM_Some in Hus; eapply Forall2_lookup_r in Hp; [|exact Hus]; destruct Hp as (x & _ & Hx);
       destruct (rcv_h s !! x) as [[u' b]|] eqn:E; [|done]; simpl in Hx; injection Hx as ->; apply lookup_lt_is_Some; eapply (i_rcv s I); by eapply elem_of_list_lookup_2).
    1: apply (inv_new s _ ev Zip (map Some us) v []). 8: apply (inv_new s _ ev RoundRobin (map Some us) v []). 15: apply (inv_new s _ ev Unordered (map Some us) v []).
    all: try done; try (by left); try (by destruct us); try (by rewrite omap_some, app_nil_r); try (by rewrite omap_some).
    all: intros p u Hp; rewrite list_lookup_fmap in Hp; destruct (us !! p) as [u'|] eqn:E; [|done]; injection Hp as ->; by eapply Lt.
  - destruct (snd_h s !! h) as [i|] eqn:Hh; [|done]. apply enqueue_eq in H as [(De & -> & ->)|(De & n & Hn & -> & ->)]; [split; [done|apply no_ub_nil]|].
    split; [|by apply no_ub_one]. by eapply st_client.
  - destruct (snd_h s !! h) as [i|] eqn:Hh; [|done]. unfold add_sender in H. apply elem_of_list_lookup_2 in Hh as Hi.
    change (deadb i (set_snd (snd_h s ++ [i]) s)) with (deadb i s) in H. destruct (deadb i s) eqn:De.
    { injection H as <- <-. split; [|apply no_ub_nil]. by apply st_copyS_dead. }
    simpl in H. destruct (nodes s !! i) as [n|] eqn:Hn; [|done]. injection H as <- <-. split; [|apply no_ub_nil]. by apply st_copyS.
  - destruct (snd_h s !! h) as [i|] eqn:Hh; [|done]. apply remove_sender_eq in H as [(De & -> & ->)|(De & n & Hn & [(Z & _)|(k & Z & -> & ->)])].
    + split; [|apply no_ub_nil]. by apply st_set_snd.
    + exfalso. simpl in Hn. pose proof (n_snd _ _ _ (i_node s I i n Hn) De) as X. unfold sndc in X. assert (0 < cnt i (snd_h s)); [|lia].
      apply cnt_pos. by eapply elem_of_list_lookup_2.
    + split; [|apply no_ub_nil]. by apply st_dropS.
  - destruct (snd_h s !! h) as [i|] eqn:Hh; [|done]. injection H as <- <-. split; [|apply no_ub_nil]. by apply st_set_snd.
  - destruct (rcv_h s !! h) as [[i r]|] eqn:Hh; [|done]. unfold add_receiver in H. simpl in H. apply elem_of_list_lookup_2 in Hh as Hi.
    destruct (i_rcv s I i r Hi) as [n Hn]. rewrite Hn in H. pose proof (i_node s I i n Hn) as Ni.
    assert (forall j b, (j, b) ∈ rcv_h s ++ [(i, r)] -> exists b', (j, b') ∈ rcv_h s) as X.
    { intros j b [Y|Y]%elem_of_app; [eauto|]. apply elem_of_list_singleton in Y. injection Y as -> ->. eauto. }
    assert (forall k, sumf (rcvf k) (rcv_h s ++ [(i, r)]) <= nrcv s k + b2n (i =? k)) as Y.
    { intros k. rewrite sumf_app. unfold rcvf at 2. simpl. unfold nrcv. destruct (i =? k), r; simpl; lia. }
    destruct (rvoid n) eqn:V.
    + injection H as <- <-. split; [|apply no_ub_nil]. constructor; simpl.
      * intros k nk Hk. destruct (i_node s I k nk Hk). constructor; try done. intros A. specialize (n_rcv A). change (sumf (rcvf k) (rcv_h s ++ [(i, r)]) <= rcount nk).
        specialize (Y k). destruct (Nat.eqb_spec i k) as [->|]; [congruence|]. simpl in Y. lia.
      * by apply (jobs_same s).
      * apply I.
      * intros j b Hj. apply X in Hj as [b' Hj]. by eapply (i_rcv s I).
      * apply I.
    + injection H as <- <-. split; [|apply no_ub_nil]. rewrite <- (set_pends_id s) at 2. apply st_rcv; try done; [|by left].
      intros k. specialize (Y k). rewrite Nat.eqb_sym in Y. destruct (Nat.eqb_spec k i) as [Ek|Ek]; simpl in Y; [subst k|lia]. pose proof (n_rcv _ _ _ Ni V). lia.
  - destruct (rcv_h s !! h) as [[i r]|] eqn:Hh; [|done]. apply elem_of_list_lookup_2 in Hh as Hi. destruct (i_rcv s I i r Hi) as [n Hn]. destruct r.
    { injection H as <- <-. split; [|apply no_ub_nil]. by apply st_set_rcv. }
    eapply (remove_receiver_inv s h i n); try done. { intros j b Hj. apply elem_of_del in Hj. eauto. }
    intros k. pose proof (sumf_delete (rcvf k) _ _ _ Hh) as X. unfold rcvf in X at 2. simpl in X. unfold nrcv. destruct (i =? k); simpl; lia.
  - destruct (rcv_h s !! h) as [[i r]|] eqn:Hh; [|done]. apply elem_of_list_lookup_2 in Hh as Hi. destruct (i_rcv s I i r Hi) as [n Hn]. destruct r.
    { injection H as <- <-. split; [done|apply no_ub_nil]. }
    eapply (remove_receiver_inv s h i n); try done.
    { intros j b Hj. apply elem_of_list_lookup in Hj as [x Hj]. apply list_lookup_insert_Some in Hj as [(-> & E & _)|(_ & Hj)]; [injection E as <- <-; eauto|].
      apply elem_of_list_lookup_2 in Hj. eauto. }
    intros k. pose proof (sumf_insert (rcvf k) _ _ _ (i, true) Hh) as X. unfold rcvf in X at 2 4. simpl in X. unfold nrcv. destruct (i =? k); simpl; lia.
  - destruct (rcv_h s !! h) as [[i r]|] eqn:Hh; [|done]. injection H as <- <-. split; [|apply no_ub_nil]. by apply st_set_rcv.
  - destruct (pends s !! k) as [p|] eqn:Hk; [|done]. destruct p as [i|i]; destruct (nodes s !! i) as [n|] eqn:Hn; try done; injection H as <- <-; (split; [|apply no_ub_nil]).
    + by apply st_precv.
    + by apply st_psend.
  - destruct (jobs s !! t) as [[i p]|] eqn:Ht; [|done]. by eapply inv_job_step.
  - destruct (jobs s !! t) as [[i p]|] eqn:Ht; [|done]. destruct p; try done. destruct (nodes s !! i) as [n|] eqn:Hn; [|done]. injection H as <- <-.
    split; [|by apply no_ub_one]. by eapply st_ret.
  - destruct (nodes s !! i) as [n|]; [|done]. destruct (deadb i s || ownedb i s); [done|]. injection H as <- <-. split; [|apply no_ub_nil]. by apply st_destroy.
Qed.
Lemma inv_init : inv init.
Proof. constructor; simpl; try done; intros ? *; rewrite ?elem_of_nil; naive_solver. Qed.
Theorem inv_run ls : forall s s' tr, inv s -> Forall buf1 ls -> run s ls = Some (s', tr) -> inv s' /\ Ub ∉ tr.
Proof.
  induction ls as [|l ls IH]; intros s s' tr I B H; simpl in H.
  - injection H as <- <-. split; [done|apply no_ub_nil].
  - destruct (step s l) as [[s1 e1]|] eqn:E; [|done]. destruct (run s1 ls) as [[s2 e2]|] eqn:R; [|done]. injection H as <- <-.
    apply Forall_cons in B as [Bl B]. apply inv_step in E as [I1 U1]; try done. apply IH in R as [I2 U2]; try done. split; [done|].
    by intros [?|?]%elem_of_app.
Qed.
