(** The invariant about the trace holds in all executions. *)
From Coq Require Import List Bool ZArith Lia Arith.
From stdpp Require Import list.
From Verif.Channel Require Import Queue QueueProof Model Sum Inv InvStep InvStep2 InvStep3 InvRun Moves Spec Trace TraceStep.

Lemma map_senders_ev d us : forall p s s' ev, map_senders d p us s = Some (s', ev) ->
  length ev = length us /\ forall j u, us !! j = Some u -> ev !! j = Some (Attached u d (p + j)).
Proof.
  induction us as [|u us IH]; intros p s s' ev H; simpl in H.
  - by injection H as <- <-.
  - unfold map_sender in H. destruct (nodes s !! u) as [n|] eqn:Hn; [|done]. destruct (map_senders d (S p) us _) as [[s2 e2]|] eqn:R; [|done]. injection H as <- <-.
    apply IH in R as [L R]. split; [simpl; lia|]. intros [|j] u' Hj; simpl in *; [injection Hj as ->; by rewrite Nat.add_0_r|]. rewrite (R j u' Hj). repeat f_equal. lia.
Qed.
(** events of the constructor *)
Definition att (d : nat) (e : event) : Prop := exists u p, e = Attached u d p.
Lemma att_nil d ev : Forall (att d) ev -> forall i, ops i ev = [] /\ popped i ev = [] /\ handled i ev = [] /\ invoked i ev = [] /\ results i ev = [] /\ closed i ev = [] /\ forall p, sent i p ev = [].
Proof.
  intros F i. unfold ops, popped, handled, invoked, results, closed, sent. repeat split; intros; apply omap_none; intros t e He; apply elem_of_list_lookup_2 in He;
    rewrite Forall_forall in F; by destruct (F e He) as (u & q & ->).
Qed.
Lemma about_nil i tr : (forall e, e ∈ tr -> about i e = false) -> ops i tr = [] /\ popped i tr = [] /\ closed i tr = [] /\ forall p, sent i p tr = [].
Proof.
  intros F. unfold ops, popped, closed, sent. repeat split; intros; apply omap_none; intros t e He; apply elem_of_list_lookup_2 in He; specialize (F e He);
    destruct e; simpl in *; try done; by rewrite F.
Qed.
Lemma extra_elem d us : forall p k j, us !! j = Some k -> (d, p + j) ∈ extra d p us k.
Proof.
  induction us as [|u us IH]; intros p k j H; [done|]. simpl. apply elem_of_app. destruct j as [|j]; simpl in H.
  - injection H as ->. rewrite Nat.eqb_refl, Nat.add_0_r. left. by apply elem_of_list_singleton.
  - right. replace (p + S j) with (S p + j) by lia. by apply IH.
Qed.
Lemma tinv_new s s' tr ev st us v sn : inv s -> tinv s tr ->
  (forall p u, us !! p = Some (Some u) -> u < length (nodes s)) ->
  (sn = [] /\ us = map Some (omap id us) \/ us = [None] /\ sn = [length (nodes s)]) ->
  map_senders (length (nodes s)) 0 (omap id us) (St (nodes s ++ [new_node st us v 1]) (dead s) (jobs s) (pends s) (snd_h s ++ sn) (rcv_h s ++ [(length (nodes s), false)])) = Some (s', ev) ->
  tinv s' (tr ++ ev).
Proof.
  intros I T Hu Hsn M. apply map_senders_ev in M as Me. destruct Me as [Le Me].
  apply map_senders_ok in M as (D & J & P & S & R & Eub & N & Cn & Dn). simpl in *.
  set (d := length (nodes s)) in *. set (nn := new_node st us v 1) in *.
  assert (forall j u, omap id us !! j = Some u -> u < d) as Hu'.
  { intros j u Hj. apply elem_of_list_lookup_2, elem_of_list_omap in Hj as (x & Hx & Eq). simpl in Eq. subst x. apply elem_of_list_lookup in Hx as [p Hp]. by apply Hu in Hp. }
  assert (Forall (att d) ev) as At.
  { apply Forall_lookup. intros j e He. apply lookup_lt_Some in He as Lj. rewrite Le in Lj. apply lookup_lt_is_Some in Lj as [u Hj]. rewrite (Me j u Hj) in He. injection He as <-. by eexists _, _. }
  pose proof (att_nil d ev At) as An. pose proof (about_nil d tr) as Ab.
  destruct Ab as (B1 & B2 & B3 & B4); [intros e He; eapply (t_none s tr T); [|done]; by apply lookup_ge_None|].
  assert (forall k nk, nodes s' !! k = Some nk -> (k < d /\ exists n, nodes s !! k = Some n /\ nk = with_down (down n ++ extra d 0 (omap id us) k) n) \/ k = d /\ exists l, nk = with_down l nn) as W.
  { intros k nk H. rewrite N in H. destruct (decide (k < d)) as [L|L].
    - left. split; [done|]. rewrite lookup_app_l in H by done. destruct (nodes s !! k) as [n|]; [|done]. injection H as <-. by exists n.
    - right. rewrite lookup_app_r in H by (unfold d in L; lia). destruct (k - length (nodes s)) as [|x] eqn:E; [|done]. split; [unfold d in *; lia|].
      injection H as <-. by eexists. }
  assert (forall k, nodes s' !! k = None -> nodes s !! k = None /\ k <> d) as X.
  { intros k H. rewrite N in H. destruct (_ !! k) eqn:E in H; [done|]. apply lookup_ge_None in E. rewrite app_length in E. simpl in E. split; [apply lookup_ge_None; lia|unfold d; lia]. }
  assert (forall k, deadb k s' = deadb k s) as D' by (intros k; unfold deadb; by rewrite D).
  assert (forall k e, deadb e.1 s = false -> iedge k e s' = iedge k e s) as Ie by (intros; unfold iedge; by rewrite J).
  constructor.
  - intros k e Hk He. apply X in Hk as [Hk Nd]. apply elem_of_app in He as [He|He]; [by apply (t_none s tr T)|].
    apply elem_of_list_lookup in He as [j He]. apply lookup_lt_Some in He as Lj. rewrite Le in Lj. apply lookup_lt_is_Some in Lj as [u Hj]. rewrite (Me j u Hj) in He. injection He as <-.
    simpl. apply Hu' in Hj. apply lookup_ge_None in Hk. apply orb_false_iff. split; apply Nat.eqb_neq; [|done]. unfold d in *. lia.
  - intros k nk Hk. destruct (An k) as (A1 & A2 & _). rewrite ops_app, popped_app, A1, A2, !app_nil_r. apply W in Hk as [(L & n & Hn & ->)|(-> & l & ->)].
    + simpl. by apply (t_ops s tr T).
    + by rewrite B1, B2.
  - intros k. destruct (An k) as (A1 & A2 & A3 & _). rewrite popped_app, handled_app, A2, A3, !app_nil_r. unfold infl. rewrite J. apply (t_hand s tr T).
  - intros k. destruct (An k) as (A1 & A2 & A3 & A4 & A5 & _). rewrite invoked_app, results_app, A4, A5, !app_nil_r. unfold exec. rewrite J. apply (t_res s tr T).
  - intros k nk p i Hk Hp. apply W in Hk as [(L & n & Hn & ->)|(-> & l & ->)].
    + simpl in Hp. destruct (t_edge s tr T k n p i Hn Hp) as (tr2 & Si & Re & Do). exists (tr2 ++ ev). split; [by apply since_app|].
      destruct (An i) as (_ & _ & _ & _ & A5 & _). destruct (An k) as (_ & _ & _ & _ & _ & _ & A6). rewrite sent_app, results_app, closed_app, A5, A6, !app_nil_r, D'. split.
      * destruct (deadb k s) eqn:De; [done|]. by rewrite Ie.
      * intros ni Hi [Fi _]%app_eq_nil. apply W in Hi as [(Li & n' & Hn' & ->)|(-> & l & ->)]; [simpl in *; apply elem_of_app; left; by eapply Do|].
        exfalso. pose proof (n_ups _ _ _ (i_node s I k n Hn) p d Hp). lia.
    + simpl in Hp. destruct Hsn as [[_ Hus]|[-> _]]; [|by destruct p as [|[]]].
      assert (omap id us !! p = Some i) as Hj. { rewrite Hus, list_lookup_fmap in Hp. destruct (omap id us !! p); [|done]. simpl in Hp. congruence. }
      pose proof (Me p i Hj) as He. simpl in He. exists (drop (Datatypes.S p) ev). split.
      { exists (tr ++ take p ev). rewrite <- app_assoc. f_equal. symmetry. by apply take_drop_middle. }
      destruct (att_nil d (drop (Datatypes.S p) ev)) with (i := i) as (_ & _ & _ & _ & A5 & _); [by apply Forall_drop|].
      destruct (An d) as (_ & _ & _ & _ & _ & _ & A6). rewrite sent_app, A5, A6, B4. simpl. split.
      * destruct (deadb d s'); [done|]. symmetry. unfold iedge. rewrite J. apply omap_none. intros t [k q] Hk. unfold f_edge. simpl. destruct (Nat.eqb_spec k i) as [->|]; [|done].
        destruct (i_job s I _ _ _ Hk) as (n & Hn & Jq). assert (forall rest, rest ⊆ down n -> (d, p) ∈ rest -> False) as Z.
        { intros rest Sub H. apply Sub in H. apply (n_down _ _ _ (i_node s I i n Hn)) in H as (nd & Hd & _). apply lookup_lt_Some in Hd. unfold d in Hd. lia. }
        destruct q as [| | |o rest b|o rest| | | |]; try done; destruct Jq as (_ & _ & Sub & _); destruct (decide ((d, p) ∈ rest)); try done; exfalso; by eapply Z.
      * intros ni Hi Fi. apply W in Hi as [(Li & n' & Hn' & ->)|(-> & l' & ->)]; [|apply Hu' in Hj; lia]. simpl. apply elem_of_app. right. apply (extra_elem d _ 0 i p Hj).
  - intros k nk Hk. destruct (An k) as (_ & _ & _ & _ & _ & A6 & _). rewrite closed_app, A6, app_nil_r. apply W in Hk as [(L & n & Hn & ->)|(-> & l & ->)].
    + simpl. unfold nfin. rewrite J. by apply (t_close s tr T).
    + done.
Qed.
Lemma tinv_destroy s i tr : tinv s tr -> tinv (St (nodes s) (dead s ++ [i]) (jobs s) (pends s) (snd_h s) (rcv_h s)) tr.
Proof.
  intros [Tn To Th Tr Te Tc]. constructor; try done.
  intros d nd p u Hd Hp. destruct (Te d nd p u Hd Hp) as (tr2 & S & R & Dn). exists tr2. split; [done|]. split; [|done].
  unfold deadb in *. simpl. rewrite existsb_app. simpl. destruct (existsb (Nat.eqb d) (dead s)); [done|]. simpl. rewrite orb_false_r. destruct (d =? i); [|done]. exists (iedge u (d, p) s). done.
Qed.
Ltac quiet1 d n n' Hn := eapply (tinv_quiet _ _ _ d n n'); [done|done| |exact Hn| | | | | | |].
Theorem tinv_move s s' tr ev : inv s -> tinv s tr -> move s s' ev -> tinv s' (tr ++ ev).
Proof.
  intros I T M. destruct M as [st us v sn s' ev H H0 H1 H2 H3|ev H|s' i n n' H H0 H1 H2 H3|s' H H0 H1|s' ev M].
  - by eapply tinv_new.
  - destruct H as [->| ->]; [by rewrite app_nil_r|by apply tinv_threw].
  - destruct H0 as (a & b & ->). eapply (tinv_quiet s s' tr i n (with_rcount b (with_scount a n))); try done. apply (jq_run _ _ false 0). rewrite H2. simpl. by rewrite app_nil_r.
  - rewrite app_nil_r. by apply (tinv_nodes s).
  - destruct M.
    + by apply ts_client.
    + apply (tinv_quiet s _ tr i n (with_running (running n || b) n)); try done; try solve [by rewrite ?run_dead, ?run_nodes|eapply jq_run; by rewrite run_jobs].
    + apply (tinv_quiet s _ tr i n (with_running (running n || b) (with_close true (final n) n))); try done; try solve [by rewrite ?run_dead, ?run_nodes|eapply jq_run; by rewrite run_jobs].
    + destruct (i_job s I _ _ _ H) as (n & Hn & _). eapply (tinv_quiet0 s _ tr i n); try done. eapply (jq_del s _ t _ _ false 0 H); [simpl; by rewrite app_nil_r|fsame..].
    + by apply ts_take.
    + by apply ts_none.
    + eapply (tinv_quiet0 s _ tr u nu); try done. eapply (jq_set s _ t _ _ _ false 0 H0); [simpl; by rewrite app_nil_r|fsame..].
    + eapply (tinv_quiet s _ tr u nu (cleared nu)); try done; simpl; rewrite ?run_dead, ?run_nodes; try done. 
    eapply (jq_set s _ t _ _ _ _ _ H0); [simpl; by rewrite run_jobs|fsame..].
    + by eapply ts_refuse.
    + by eapply ts_invoke.
    + destruct (i_job s I _ _ _ H) as (n & Hn & _). eapply (tinv_quiet0 s _ tr i n); try done. eapply (jq_set s _ t _ _ _ false 0 H); [simpl; by rewrite app_nil_r|fsame..].
    + eapply (tinv_quiet s _ tr i n (with_susp (if b then S (length rest) else 1) n)); try done. eapply (jq_set s _ t _ _ _ false 0 H0); [simpl; by rewrite app_nil_r|fsame..].
    + destruct (i_job s I _ _ _ H) as (n & Hn & _). eapply (tinv_quiet0 s _ tr i n); try done. eapply (jq_set s _ t _ _ _ false 0 H); [simpl; by rewrite app_nil_r|try fsame..].
    + destruct (i_job s I _ _ _ H) as (n & Hn & _). eapply (tinv_quiet0 s _ tr i n); try done. eapply (jq_set s _ t _ _ _ false 0 H); [simpl; by rewrite app_nil_r|try fsame..].
    intros k e' De. unfold f_edge. simpl. destruct (i =? k); [|done]. destruct (decide (e' ∈ rest)) as [Y|Y], (decide (e' ∈ e :: rest)) as [Z|Z]; try done; exfalso.
      * apply Z. by right.
      * apply elem_of_cons in Z as [->|Z]; [congruence|done].
    + by apply ts_send.
    + destruct (i_job s I _ _ _ H) as (n & Hn & _). eapply (tinv_quiet0 s _ tr i n); try done. eapply (jq_set s _ t _ _ _ false 0 H); [simpl; by rewrite app_nil_r|fsame..].
    + eapply (tinv_quiet s _ tr i n (cleared n)); try done; simpl; rewrite ?run_dead, ?run_nodes; try done.
    eapply (jq_del s _ t _ _ _ _ H0); [simpl; by rewrite run_jobs|fsame..].
    + eapply (tinv_quiet s _ tr i n (with_running false n)); try done. eapply (jq_set s _ t _ _ _ false 0 H0); [simpl; by rewrite app_nil_r|fsame..].
    + (* JDone of a process that has not closed *)
    set (s' := run_if _ _ _). assert (jobs s' = delete t (jobs s) ++ js (dn_run n) i) as Hj by (unfold s'; by rewrite run_jobs).
    assert (forall k nk, nodes s !! k = Some nk -> final nk = true -> nfin k s' = nfin k s) as Nf.
    { intros k nk Hk Fk. unfold nfin. rewrite Hj, sf_run by apply fin_pend. pose proof (sumf_delete (f_fin k) _ _ _ H0) as X. rewrite other_fin in X; [lia|]. intros ->. congruence. }
    assert (dead s' = dead s) as Hdd by (unfold s'; by rewrite run_dead).
    assert (nodes s' = <[i := with_running (dn_run n) n]> (nodes s)) as Hnn by (unfold s'; by rewrite run_nodes). clearbody s'.
    eapply (tinv_gen s s' tr [] i n (with_running (dn_run n) n)); try done.
      * by intros e k He%elem_of_nil.
      * simpl. congruence.
      * intros k nk _. apply Nf.
      * intros k. simpl. rewrite app_nil_r. unfold infl. rewrite Hj, om_run by apply infl_pend. rewrite (omap_del _ _ _ _ H0); [done|fsame].
      * intros k. simpl. unfold exec. rewrite Hj, om_run by apply inv_pend. rewrite (omap_del _ _ _ _ H0); [done|fsame].
      * intros d nd p u Hd Hp. destruct (deadb d s); [done|]. simpl. rewrite app_nil_r. unfold iedge. rewrite Hj, om_run by apply edge_pend. rewrite (omap_del _ _ _ _ H0); [done|fsame].
    + by apply ts_final.
    + destruct (i_job s I _ _ _ H) as (n & Hn & _). eapply (tinv_quiet0 s _ tr i n); try done. eapply (jq_set s _ t _ _ _ false 0 H); [simpl; by rewrite app_nil_r|fsame..].
    + eapply (tinv_quiet s _ tr d n (with_scount k n)); try done; simpl; rewrite ?rms_dead, ?rms_nodes; try done. eapply (jq_set s _ t _ _ _ false 0 H); [simpl; by rewrite rms_jobs, app_nil_r|fsame..].
    + eapply (tinv_quiet s _ tr i n (with_proc false n)); try done. eapply (jq_del s _ t _ _ false 0 H0); [simpl; by rewrite app_nil_r|fsame..].
    + by eapply ts_ret.
    + rewrite app_nil_r. by apply tinv_destroy.
Qed.
Lemma tinv_init : tinv init [].
Proof. constructor; try done. by intros i e _ He%elem_of_nil. Qed.
Theorem tinv_run ls : forall s tr s' tr', inv s -> tinv s tr -> Forall buf1 ls -> run s ls = Some (s', tr') -> tinv s' (tr ++ tr').
Proof.
  induction ls as [|l ls IH]; intros s tr s' tr' I T B R; simpl in R.
  - injection R as <- <-. by rewrite app_nil_r.
  - apply Forall_cons in B as [Bl B]. destruct (step s l) as [[s1 e1]|] eqn:S; [|done]. destruct (run s1 ls) as [[s2 e2]|] eqn:R2; [|done]. injection R as <- <-.
    rewrite app_assoc. apply (IH s1 (tr ++ e1)); try done.
    + by eapply inv_step.
    + apply (tinv_move s); try done. by apply (step_moves s l).
Qed.
