(** Every step preserves the invariant about the trace. *)
From Coq Require Import List Bool ZArith Lia Arith.
From stdpp Require Import list.
From Verif.Channel Require Import Queue QueueProof Model Sum Inv InvStep InvStep2 InvStep3 InvRun Moves Spec Trace.

Lemma alone s t i p : inv s -> jobs s !! t = Some (i, p) -> own_pc p = 1 -> forall t' z, jobs s !! t' = Some z -> t' <> t ->
  f_infl i z = None /\ f_inv i z = None /\ forall e, f_edge i e z = None.
Proof.
  intros I Ht O t' [k q] Hz Nt. destruct (i_job s I _ _ _ Ht) as (n & Hn & _). unfold f_infl, f_inv, f_edge. simpl.
  destruct (Nat.eqb_spec k i) as [Ek|]; [|done]. subst k.
  assert (own_pc q = 1 \/ bc_pc q = 1 -> False) as X by (intros; eapply (own_two s i n t p t' q); eauto). destruct q; simpl in *; try done; exfalso; auto.
Qed.
Lemma alone_bc s t i p : inv s -> jobs s !! t = Some (i, p) -> bc_pc p = 1 -> forall t' z, jobs s !! t' = Some z -> t' <> t -> forall e, f_edge i e z = None.
Proof.
  intros I Ht O t' [k q] Hz Nt e. destruct (i_job s I _ _ _ Ht) as (n & Hn & _). unfold f_edge. simpl.
  destruct (Nat.eqb_spec k i) as [Ek|]; [|done]. subst k. pose proof (n_bc _ _ _ (i_node s I i n Hn)) as B. unfold bc in B.
  pose proof (sumf_two (bcf i) _ _ _ _ _ Ht Hz (not_eq_sym Nt)) as X. unfold bcf in X at 1 2. simpl in X. rewrite Nat.eqb_refl in X.
  destruct q; simpl in *; try done; [|lia]. exfalso. eapply (own_two s i n t' _ t p I Hn Hz Ht Nt); [done|by right].
Qed.
Lemma other_infl k i p : k <> i -> f_infl k (i, p) = None.
Proof. intros N. unfold f_infl. simpl. by destruct (Nat.eqb_spec i k); [congruence|]. Qed.
Lemma other_inv k i p : k <> i -> f_inv k (i, p) = None.
Proof. intros N. unfold f_inv. simpl. by destruct (Nat.eqb_spec i k); [congruence|]. Qed.
Lemma other_edge k e i p : k <> i -> f_edge k e (i, p) = None.
Proof. intros N. unfold f_edge. simpl. by destruct (Nat.eqb_spec i k); [congruence|]. Qed.
Lemma other_fin k i p : k <> i -> f_fin k (i, p) = 0.
Proof. intros N. unfold f_fin. simpl. by destruct (Nat.eqb_spec i k); [congruence|]. Qed.
Lemma pick_ne {A} k i (a : A) : k <> i -> pick (i =? k) a = None.
Proof. intros N. unfold pick. by destruct (Nat.eqb_spec i k); [congruence|]. Qed.
Lemma pick_eq {A} i (a : A) : pick (i =? i) a = Some a.
Proof. unfold pick. by rewrite Nat.eqb_refl. Qed.
Lemma js_false l d : l = l ++ js false d.
Proof. by rewrite app_nil_r. Qed.

Ltac fsame := intros; unfold f_infl, f_inv, f_edge, f_fin; simpl; by destruct (_ =? _).

(** ** steps with an event *)
Lemma ts_client s tr i m n : inv s -> tinv s tr -> nodes s !! i = Some n -> deadb i s = false -> ups n = [None] ->
  tinv (run_if (en_run n) i (set_node i (enq 0 m n) s)) (tr ++ [Appended i 0 m]).
Proof.
  intros I T Hn De U. set (s' := run_if _ _ _). assert (jq s s') as (G1 & G2 & G3 & G4) by (apply (jq_run s s' (en_run n) i); unfold s'; by rewrite run_jobs).
  eapply (tinv_gen s s' tr _ i n (enq 0 m n)); try done.
  - unfold s'. by rewrite run_dead.
  - unfold s'. by rewrite run_nodes.
  - intros e k ->%elem_of_list_singleton Nk. simpl. by apply Nat.eqb_neq.
  - unfold ops, popped. simpl. by rewrite pick_eq.
  - intros F. simpl in *. by rewrite F, G3.
  - intros k. simpl. by rewrite G1, app_nil_r.
  - intros k. simpl. by rewrite G2.
  - intros d nd p u Hd Hp. destruct (decide (d = i)) as [->|Nd].
    { rewrite Hd in Hn. injection Hn as ->. rewrite U in Hp. by destruct p as [|[]]. }
    unfold sent. simpl. destruct (Nat.eqb_spec i d); [congruence|]. simpl. destruct (deadb d s) eqn:Dd; [done|]. rewrite app_nil_r. symmetry. by apply G4.
Qed.
Lemma ts_take s tr t i n ms q' : inv s -> tinv s tr -> nodes s !! i = Some n -> jobs s !! t = Some (i, JPend) -> q_take (strat n) (que n) = Some (ms, q') ->
  tinv (set_job t i (JCts (do_cts n q') false (Some ms)) (set_node i (with_que q' n) s)) (tr ++ [Popped i ms]).
Proof.
  intros I T Hn Ht Q. set (s' := set_job _ _ _ _). destruct (i_job s I _ _ _ Ht) as (n0 & Hn0 & F). assert (n0 = n) as -> by congruence.
  pose proof (alone s t i JPend I Ht eq_refl) as Al.
  eapply (tinv_gen s s' tr _ i n (with_que q' n)); try done.
  - intros e k ->%elem_of_list_singleton Nk. simpl. by apply Nat.eqb_neq.
  - unfold ops, popped. simpl. rewrite pick_eq. simpl. rewrite Q. simpl. by rewrite pick_eq.
  - simpl. congruence.
  - intros k nk Nk Hk Fk. unfold nfin. simpl. pose proof (sumf_insert (f_fin k) _ _ _ (i, JCts (do_cts n q') false (Some ms)) Ht) as X.
    rewrite !other_fin in X by done. lia.
  - intros k. simpl. unfold infl, popped. simpl. destruct (decide (k = i)) as [->|Nk].
    + rewrite pick_eq. rewrite (omap_one (f_infl i) _ _ _ Ht), (omap_ins_one (f_infl i) _ _ _ _ Ht) by (intros; by eapply Al). unfold f_infl. simpl. by rewrite Nat.eqb_refl.
    + rewrite pick_ne, app_nil_r by done. symmetry. apply (omap_ins _ _ _ _ _ Ht). by rewrite !other_infl.
  - intros k. simpl. unfold exec. simpl. rewrite (omap_ins _ _ _ _ _ Ht); [done|fsame].
  - intros d nd p u Hd Hp. simpl. destruct (deadb d s); [done|]. rewrite app_nil_r. unfold iedge. simpl. rewrite (omap_ins _ _ _ _ _ Ht); [done|fsame].
Qed.
Lemma ts_none s tr t i n : inv s -> tinv s tr -> nodes s !! i = Some n -> jobs s !! t = Some (i, JPend) -> 
  tinv (set_job t i (JCts [] false None) (set_node i (with_close false (closeq n) n) s)) (tr ++ []).
Proof.
  intros I T Hn Ht. set (s' := set_job _ _ _ _). destruct (i_job s I _ _ _ Ht) as (n0 & Hn0 & F). assert (n0 = n) as -> by congruence.
  eapply (tinv_gen s s' tr _ i n (with_close false (closeq n) n)); try done.
  - by intros e k He%elem_of_nil.
  - simpl. rewrite F. intros E. unfold nfin. simpl. pose proof (sumf_insert (f_fin i) _ _ _ (i, JCts [] false None) Ht) as X.
    rewrite fin_pend in X. unfold f_fin in X at 3. simpl in X. rewrite Nat.eqb_refl in X.
    assert (sumf (f_fin i) (jobs s) = 0) as Z; [|lia].
    apply sumf_0. intros [k q] Hk. apply elem_of_list_lookup in Hk as [t' Hk]. destruct (decide (t' = t)) as [->|Nt].
    { rewrite Ht in Hk. injection Hk as <- <-. apply fin_pend. }
    unfold f_fin. simpl. destruct (Nat.eqb_spec k i) as [Ek|]; [|done]. subst k.
    assert (own_pc q = 1 \/ bc_pc q = 1 -> False) as Y by (intros; eapply (own_two s i n t JPend t' q); eauto).
    destruct (i_job s I _ _ _ Hk) as (n1 & Hn1 & Jq). assert (n1 = n) as -> by congruence.
    destruct q as [|? ? []| | | | | | |]; simpl in *; try done; try (exfalso; by auto). congruence.
  - intros k nk Nk Hk Fk. unfold nfin. simpl. pose proof (sumf_insert (f_fin k) _ _ _ (i, JCts [] false None) Ht) as X. rewrite !other_fin in X by done. lia.
  - intros k. simpl. rewrite app_nil_r. unfold infl. simpl. rewrite (omap_ins _ _ _ _ _ Ht); [done|fsame].
  - intros k. simpl. unfold exec. simpl. rewrite (omap_ins _ _ _ _ _ Ht); [done|fsame].
  - intros d nd p u Hd Hp. simpl. destruct (deadb d s); [done|]. rewrite app_nil_r. unfold iedge. simpl. rewrite (omap_ins _ _ _ _ _ Ht); [done|fsame].
Qed.
Lemma ts_refuse s tr t i ok1 ms : inv s -> tinv s tr -> jobs s !! t = Some (i, JCts [] ok1 (Some ms)) -> tinv (end_job t s) (tr ++ [Refused i ms]).
Proof.
  intros I T Ht. set (s' := end_job _ _). destruct (i_job s I _ _ _ Ht) as (n & Hn & _ & F).
  pose proof (alone s t i _ I Ht eq_refl) as Al.
  eapply (tinv_gen s s' tr _ i n n); try done.
  - simpl. by rewrite list_insert_id.
  - intros e k ->%elem_of_list_singleton Nk. simpl. by apply Nat.eqb_neq.
  - congruence.
  - intros k nk Nk Hk Fk. unfold nfin. simpl. pose proof (sumf_delete (f_fin k) _ _ _ Ht) as X. rewrite !other_fin in X by done. lia.
  - intros k. unfold popped, handled. simpl. rewrite app_nil_r. unfold infl. simpl. destruct (decide (k = i)) as [->|Nk].
    + rewrite pick_eq. rewrite (omap_one (f_infl i) _ _ _ Ht), (omap_del_one (f_infl i) _ _ _ Ht) by (intros; by eapply Al). unfold f_infl. simpl. by rewrite Nat.eqb_refl.
    + rewrite pick_ne by done. symmetry. apply (omap_del _ _ _ _ Ht). by rewrite !other_infl.
  - intros k. simpl. unfold exec. simpl. rewrite (omap_del _ _ _ _ Ht); [done|]. unfold f_inv. simpl. by destruct (i =? k).
  - intros d nd p u Hd Hp. simpl. destruct (deadb d s); [done|]. rewrite app_nil_r. unfold iedge. simpl. rewrite (omap_del _ _ _ _ Ht); [done|]. unfold f_edge. simpl. by destruct (i =? u).
Qed.
Lemma ts_invoke s tr t i ok1 ms : inv s -> tinv s tr -> jobs s !! t = Some (i, JCts [] ok1 (Some ms)) -> tinv (set_job t i (JInvoke ms) s) (tr ++ [Invoke i ms]).
Proof.
  intros I T Ht. set (s' := set_job _ _ _ _). destruct (i_job s I _ _ _ Ht) as (n & Hn & _ & F).
  pose proof (alone s t i _ I Ht eq_refl) as Al.
  eapply (tinv_gen s s' tr _ i n n); try done.
  - simpl. by rewrite list_insert_id.
  - intros e k ->%elem_of_list_singleton Nk. simpl. by apply Nat.eqb_neq.
  - congruence.
  - intros k nk Nk Hk Fk. unfold nfin. simpl. pose proof (sumf_insert (f_fin k) _ _ _ (i, JInvoke ms) Ht) as X. rewrite !other_fin in X by done. lia.
  - intros k. unfold popped, handled. simpl. rewrite app_nil_r. unfold infl. simpl. destruct (decide (k = i)) as [->|Nk].
    + rewrite pick_eq. rewrite (omap_one (f_infl i) _ _ _ Ht), (omap_ins_one (f_infl i) _ _ _ _ Ht) by (intros; by eapply Al). unfold f_infl. simpl. by rewrite Nat.eqb_refl.
    + rewrite pick_ne by done. symmetry. apply (omap_ins _ _ _ _ _ Ht). by rewrite !other_infl.
  - intros k. unfold invoked, results, exec. simpl. destruct (decide (k = i)) as [->|Nk].
    + rewrite pick_eq. rewrite (omap_one (f_inv i) _ _ _ Ht), (omap_ins_one (f_inv i) _ _ _ _ Ht) by (intros; by eapply Al). unfold f_inv. simpl. by rewrite Nat.eqb_refl.
    + rewrite pick_ne by done. simpl. rewrite (omap_ins _ _ _ _ _ Ht); [done|]. by rewrite !other_inv.
  - intros d nd p u Hd Hp. simpl. destruct (deadb d s); [done|]. rewrite app_nil_r. unfold iedge. simpl. rewrite (omap_ins _ _ _ _ _ Ht); [done|fsame].
Qed.
Lemma ts_ret s tr t i n ms o b : inv s -> tinv s tr -> nodes s !! i = Some n -> jobs s !! t = Some (i, JInvoke ms) ->
  tinv (set_job t i (JSusp o (down n) b) s) (tr ++ [Result i o]).
Proof.
  intros I T Hn Ht. set (s' := set_job _ _ _ _). destruct (i_job s I _ _ _ Ht) as (n0 & Hn0 & F). assert (n0 = n) as -> by congruence.
  pose proof (alone s t i _ I Ht eq_refl) as Al.
  eapply (tinv_gen s s' tr _ i n n); try done.
  - simpl. by rewrite list_insert_id.
  - intros e k ->%elem_of_list_singleton Nk. simpl. by apply Nat.eqb_neq.
  - congruence.
  - intros k nk Nk Hk Fk. unfold nfin. simpl. pose proof (sumf_insert (f_fin k) _ _ _ (i, JSusp o (down n) b) Ht) as X. rewrite !other_fin in X by done. lia.
  - intros k. unfold popped, handled. simpl. rewrite app_nil_r. unfold infl. simpl. rewrite (omap_ins _ _ _ _ _ Ht); [done|fsame].
  - intros k. unfold invoked, results, exec. simpl. destruct (decide (k = i)) as [->|Nk].
    + rewrite pick_eq. rewrite (omap_one (f_inv i) _ _ _ Ht), (omap_ins_one (f_inv i) _ _ _ _ Ht) by (intros; by eapply Al). unfold f_inv. simpl. by rewrite Nat.eqb_refl.
    + rewrite pick_ne by done. simpl. rewrite (omap_ins _ _ _ _ _ Ht); [done|]. by rewrite !other_inv.
  - intros d nd p u Hd Hp. unfold sent, results. simpl. destruct (deadb d s); [done|]. unfold iedge. simpl. destruct (decide (u = i)) as [->|Nk].
    + rewrite pick_eq. rewrite (omap_one (f_edge i (d, p)) _ _ _ Ht), (omap_ins_one (f_edge i (d, p)) _ _ _ _ Ht) by (intros; by eapply Al).
      unfold f_edge. simpl. rewrite Nat.eqb_refl. destruct (t_edge s tr T d nd p i Hd Hp) as (_ & _ & _ & Dn). rewrite decide_True; [done|]. apply Dn; [done|]. pose proof (t_close s tr T i n Hn) as Cl. by rewrite F in Cl.
    + rewrite pick_ne, app_nil_r by done. symmetry. apply (omap_ins _ _ _ _ _ Ht). by rewrite !other_edge.
Qed.
Lemma ts_send s tr t i o d p rest nd : inv s -> tinv s tr -> jobs s !! t = Some (i, JSend o ((d, p) :: rest)) -> nodes s !! d = Some nd -> deadb d s = false ->
  tinv (set_job t i (JSend o rest) (run_if (en_run nd) d (set_node d (enq p o nd) s))) (tr ++ [Appended d p o]).
Proof.
  intros I T Ht Hd Al. set (s' := set_job _ _ _ _). destruct (i_job s I _ _ _ Ht) as (n & Hn & F & Nd & Sub & _).
  destruct (n_down _ _ _ (i_node s I i n Hn) d p) as (nd0 & Hd0 & Up); [apply Sub; left|]. assert (nd0 = nd) as -> by congruence.
  pose proof (alone_bc s t i _ I Ht eq_refl) as Alo.
  assert (jobs s' = <[t := (i, JSend o rest)]> (jobs s ++ js (en_run nd) d)) as Hj by (unfold s'; simpl; by rewrite run_jobs).
  assert (dead s' = dead s) as Hdd by (unfold s'; simpl; by rewrite run_dead).
  assert (nodes s' = <[d := enq p o nd]> (nodes s)) as Hnn by (unfold s'; simpl; by rewrite run_nodes).
  clearbody s'. apply NoDup_cons in Nd as [Nin _].
  eapply (tinv_gen s s' tr _ d nd (enq p o nd)); try done.
  - intros e k ->%elem_of_list_singleton Nk. simpl. by apply Nat.eqb_neq.
  - unfold ops, popped. simpl. by rewrite pick_eq.
  - intros Fd. simpl in *. rewrite Fd. unfold nfin. rewrite Hj. pose proof (sf_set (f_fin d) _ _ _ (i, JSend o rest) (en_run nd) d (fin_pend d) Ht) as X.
    unfold f_fin in X at 2 4. simpl in X. destruct (i =? d); lia.
  - intros k nk Nk Hk Fk. unfold nfin. rewrite Hj. pose proof (sf_set (f_fin k) _ _ _ (i, JSend o rest) (en_run nd) d (fin_pend k) Ht) as X.
    unfold f_fin in X at 2 4. simpl in X. destruct (i =? k); lia.
  - intros k. unfold popped, handled. simpl. rewrite app_nil_r. unfold infl. rewrite Hj. rewrite (om_set _ _ _ _ _ _ _ (infl_pend k) Ht); [done|fsame].
  - intros k. unfold invoked, results, exec. simpl. rewrite Hj. rewrite (om_set _ _ _ _ _ _ _ (inv_pend k) Ht); [done|fsame].
  - intros d' nd' p' u Hd' Hp'. unfold sent, results, iedge. simpl. rewrite app_nil_r, Hj.
    destruct (decide ((d', p') = (d, p))) as [[= -> ->]|Ne].
    + rewrite Al, !Nat.eqb_refl. simpl. assert (u = i) as -> by (rewrite Hd in Hd'; injection Hd' as <-; rewrite Up in Hp'; by injection Hp').
      assert (forall t' z, (jobs s ++ js (en_run nd) d) !! t' = Some z -> t' <> t -> f_edge i (d, p) z = None) as A2.
      { intros t' z Hz Nt. apply lookup_app_Some in Hz as [Hz|[_ Hz]]; [by eapply Alo|]. destruct (en_run nd); [|done]. apply list_lookup_singleton_Some in Hz as [_ <-]. apply edge_pend. }
      rewrite (omap_ins_one (f_edge i (d, p)) _ t _ _ (lookup_app_l_Some _ _ _ _ Ht) A2), (omap_one (f_edge i (d, p)) _ _ _ Ht) by (intros; by eapply Alo).
      unfold f_edge. simpl. rewrite Nat.eqb_refl, decide_True, decide_False; [done|done|left].
    + assert (((d =? d') && (p =? p')) = false) as E. { destruct (Nat.eqb_spec d d') as [E1|], (Nat.eqb_spec p p') as [E2|]; try done. subst. done. }
      rewrite E. simpl. destruct (deadb d' s); [done|]. symmetry. apply (om_set _ _ _ _ _ _ _ (edge_pend u _) Ht). unfold f_edge. simpl. destruct (i =? u); [|done].
      destruct (decide ((d', p') ∈ rest)) as [Y|Y], (decide ((d', p') ∈ (d, p) :: rest)) as [Z|Z]; try done; exfalso.
      * apply Z. by right.
      * apply elem_of_cons in Z as [Z|Z]; done.
Qed.
Lemma ts_final s tr t i n : inv s -> tinv s tr -> nodes s !! i = Some n -> jobs s !! t = Some (i, JFinal) ->
  tinv (set_job t i (JClear (down n)) (set_node i (with_down [] n) s)) (tr ++ [Closed i]).
Proof.
  intros I T Hn Ht. set (s' := set_job _ _ _ _). destruct (i_job s I _ _ _ Ht) as (n0 & Hn0 & F). assert (n0 = n) as -> by congruence.
  assert (forall k, nfin k s' + f_fin k (i, JFinal) = nfin k s) as X.
  { intros k. unfold nfin. simpl. pose proof (sumf_insert (f_fin k) _ _ _ (i, JClear (down n)) Ht) as X. replace (f_fin k (i, JClear (down n))) with 0 in X; [lia|].
    unfold f_fin. simpl. by destruct (i =? k). }
  eapply (tinv_gen s s' tr _ i n (with_down [] n)); try done.
  - intros e k ->%elem_of_list_singleton Nk. simpl. by apply Nat.eqb_neq.
  - simpl. congruence.
  - unfold closed. simpl. by rewrite pick_eq.
  - simpl. intros _. rewrite F. unfold closed. simpl. rewrite pick_eq. simpl. specialize (X i). unfold f_fin in X. simpl in X. rewrite Nat.eqb_refl in X. lia.
  - intros k nk Nk Hk Fk. specialize (X k). rewrite other_fin in X by done. lia.
  - intros k. unfold popped, handled. simpl. rewrite app_nil_r. unfold infl. simpl. rewrite (omap_ins _ _ _ _ _ Ht); [done|fsame].
  - intros k. unfold invoked, results, exec. simpl. rewrite (omap_ins _ _ _ _ _ Ht); [done|fsame].
  - intros d nd p u Hd Hp. simpl. destruct (deadb d s); [done|]. rewrite app_nil_r. unfold iedge. simpl. rewrite (omap_ins _ _ _ _ _ Ht); [done|fsame].
Qed.
