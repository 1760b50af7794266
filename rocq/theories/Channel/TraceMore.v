(** More about traces: nothing happens after closing; why a process is marked as running; what its senders are. *)
From Coq Require Import List Bool ZArith Lia Arith.
From stdpp Require Import list.
From Verif.Channel Require Import Queue QueueProof Model Sum Inv InvStep InvStep2 InvStep3 InvRun Moves Spec Trace TraceStep TraceRun.

(** ** nothing after closing *)
Definition own_ev (i : nat) (e : event) : bool := match e with Attached _ _ _ => false | _ => about i e end.
Definition after (i : nat) (tr : list event) : Prop := forall t1 t2, tr = t1 ++ Closed i :: t2 -> Forall (fun e => own_ev i e = false) t2.
Lemma closed_in i (tr : list event) : Closed i ∈ tr <-> closed i tr <> [].
Proof.
  unfold closed. split.
  - intros H E. assert (tt ∈ omap (fun e => match e with Closed j => pick (j =? i) tt | _ => None end) tr) as X; [|rewrite E in X; by apply elem_of_nil in X].
    apply elem_of_list_omap. exists (Closed i). split; [done|]. by rewrite pick_eq.
  - intros H. destruct (omap _ tr) as [|[] l] eqn:E; [done|]. assert (tt ∈ omap (fun e => match e with Closed j => pick (j =? i) tt | _ => None end) tr) as X by (rewrite E; left).
    apply elem_of_list_omap in X as (e & He & Hp). destruct e; try done. unfold pick in Hp. destruct (Nat.eqb_spec i0 i); [by subst|done].
Qed.
Lemma closed_dec i (tr : list event) : Closed i ∈ tr \/ Closed i ∉ tr.
Proof. rewrite closed_in. destruct (closed i tr); auto. Qed.
Lemma closed_final s tr i : inv s -> tinv s tr -> Closed i ∈ tr -> exists n, nodes s !! i = Some n /\ final n = true /\ nfin i s = 0 /\ length (closed i tr) = 1.
Proof.
  intros I T H. destruct (nodes s !! i) as [n|] eqn:Hn.
  - exists n. split; [done|]. pose proof (t_close s tr T i n Hn) as C. apply closed_in in H. destruct (final n); [|done].
    destruct (closed i tr); [done|]. simpl in *. lia.
  - pose proof (t_none s tr T i _ Hn H) as X. simpl in X. by rewrite Nat.eqb_refl in X.
Qed.
Lemma senders_final s i n : inv s -> nodes s !! i = Some n -> final n = true -> deadb i s = false -> sndc s i = 0.
Proof.
  intros I Hn F D. pose proof (i_node s I i n Hn) as Ni. pose proof (n_snd _ _ _ Ni D). pose proof (n_close _ _ _ Ni) as C. rewrite F in C. destruct (scount n); simpl in C; lia.
Qed.
Lemma move_after s s' ev i n : inv s -> nodes s !! i = Some n -> final n = true -> nfin i s = 0 -> move s s' ev -> Forall (fun e => own_ev i e = false) ev.
Proof.
  intros I Hn F Nf M.
  assert (forall t k p, jobs s !! t = Some (k, p) -> (match p with JPend | JCts _ _ _ | JInvoke _ | JSusp _ _ _ | JSend _ _ | JFinal => True | _ => False end) -> k =? i = false) as X.
  { intros t k p Ht Hp. destruct (Nat.eqb_spec k i) as [->|]; [|done]. exfalso. destruct (i_job s I _ _ _ Ht) as (n0 & Hn0 & J). assert (n0 = n) as -> by congruence.
    pose proof (sumf_lookup (f_fin i) _ _ _ Ht) as Y. unfold nfin in Nf. rewrite Nf in Y. unfold f_fin in Y. simpl in Y. rewrite Nat.eqb_refl in Y.
    destruct p as [|? ? []| | | | | | |]; try done; try congruence; try (by destruct J as [J _]; congruence); try lia. destruct J as [_ J]. congruence. }
  destruct M as [st us v sn s' ev H H0 H1 H2 H3|ev H|s' i0 n0 n' H H0 H1 H2 H3|s' H H0 H1|s' ev M]; [..|destruct M]; try (apply Forall_singleton; simpl; by eapply X); try by constructor.
  - apply map_senders_ev in H3 as [L E]. apply Forall_lookup. intros j e He. apply lookup_lt_Some in He as Lj. rewrite L in Lj. apply lookup_lt_is_Some in Lj as [u Hj].
    rewrite (E j u Hj) in He. by injection He as <-.
  - destruct H as [->| ->]; by repeat constructor.
  - apply Forall_singleton. simpl. destruct (Nat.eqb_spec i0 i) as [->|]; [|done]. exfalso. pose proof (senders_final s i n I Hn F H1) as Z. unfold sndc in Z. apply cnt_pos in H. lia.
  - apply Forall_singleton. simpl. destruct (Nat.eqb_spec d i) as [->|]; [|done]. exfalso.
    destruct (i_job s I _ _ _ H) as (n1 & Hn1 & _ & _ & Sub & _). pose proof (senders_final s i n I Hn F H1) as Z. unfold sndc in Z.
    pose proof (sumf_lookup (downf i) _ _ _ Hn1) as Y. unfold downf in Y at 1. assert (0 < cnt i (map fst (down n1))); [|lia]. apply cnt_pos.
    apply (elem_of_list_fmap_1 fst _ (i, p)), Sub. left.
Qed.
Lemma after_move s s' tr ev i : inv s -> tinv s tr -> move s s' ev -> after i tr -> after i (tr ++ ev).
Proof.
  intros I T M A. destruct (closed_dec i tr) as [Hc|Hc].
  - destruct (closed_final s tr i I T Hc) as (n & Hn & F & Nf & L). pose proof (move_after s s' ev i n I Hn F Nf M) as Fe.
    intros t1 t2 E. assert (Closed i ∉ ev) as Ne. { intros H. rewrite Forall_forall in Fe. apply Fe in H. simpl in H. by rewrite Nat.eqb_refl in H. }
    assert (exists t3, t2 = t3 ++ ev /\ tr = t1 ++ Closed i :: t3) as (t3 & -> & ->).
    { clear -E Ne. revert t1 E. induction tr as [|e tr IH]; intros t1 E; simpl in E.
      - exfalso. apply Ne. rewrite E. apply elem_of_app. right. left.
      - destruct t1 as [|e1 t1]; simpl in E; injection E as -> E; [by exists tr|]. destruct (IH t1 E) as (t3 & -> & ->). by exists t3. }
    apply Forall_app. split; [by eapply A|done].
  - intros t1 t2 E. destruct (closed_dec i ev) as [He|He].
    + assert (ev = [Closed i]) as ->.
      { destruct M as [st us v sn s' ev H H0 H1 H2 H3|ev H|s' i0 n0 n' H H0 H1 H2 H3|s' H H0 H1|s' ev M]; [..|destruct M]; try (apply elem_of_list_singleton in He; by rewrite <- He); try (by apply elem_of_nil in He).
        - apply map_senders_ev in H3 as [L E']. apply elem_of_list_lookup in He as [j He]. apply lookup_lt_Some in He as Lj. rewrite L in Lj. apply lookup_lt_is_Some in Lj as [u Hj].
          by rewrite (E' j u Hj) in He.
        - destruct H as [->| ->]; [by apply elem_of_nil in He|by apply elem_of_list_singleton in He]. }
      destruct t2 as [|e0 t2']; [constructor|]. exfalso. set (t2 := e0 :: t2') in *. assert (t2 <> []) as N by done. clearbody t2. destruct (exists_last N) as (t3 & x & ->).
      replace (t1 ++ Closed i :: t3 ++ [x]) with ((t1 ++ Closed i :: t3) ++ [x]) in E by (by rewrite <- app_assoc). apply app_inj_tail in E as [-> _]. apply Hc. apply elem_of_app. right. left.
    + exfalso. assert (Closed i ∈ tr ++ ev) as X by (rewrite E; apply elem_of_app; right; left). apply elem_of_app in X as [X|X]; done.
Qed.

(** ** the reason why a process is marked as running *)
Definition rinv (s : st) (tr : list event) : Prop := forall i n, nodes s !! i = Some n -> running n = true ->
  deadb i s = true \/ refused i tr \/ 0 < own s i + susp n.
Lemma refused_app i tr ev : refused i tr -> refused i (tr ++ ev).
Proof. intros [ms H]. exists ms. apply elem_of_app. by left. Qed.
Lemma rinv_gen s s' tr ev d n n' : rinv s tr -> dead s' = dead s -> nodes s !! d = Some n -> nodes s' = <[d := n']> (nodes s) ->
  (running n' = true -> deadb d s = true \/ refused d ev \/ 0 < own s' d + susp n' \/ running n = true /\ own s d <= own s' d /\ susp n <= susp n') ->
  (forall k, k <> d -> own s k <= own s' k \/ deadb k s = true \/ refused k ev \/ (exists nk, nodes s !! k = Some nk /\ 0 < own s' k + susp nk)) -> rinv s' (tr ++ ev).
Proof.
  intros R D Hn Hs Hd Hk k nk H Ru. rewrite Hs in H. replace (deadb k s') with (deadb k s) by (unfold deadb; by rewrite D).
  assert (refused k ev -> refused k (tr ++ ev)) as Rf. { intros [ms Y]. exists ms. apply elem_of_app. by right. }
  apply list_lookup_insert_Some in H as [(-> & <- & _)|(Nk & H)].
  - destruct (Hd Ru) as [X|[X|[X|(X1 & X2 & X3)]]]; auto. destruct (R k n Hn X1) as [Y|[Y|Y]]; auto; [right; left; by apply refused_app|right; right; lia].
  - destruct (R k nk H Ru) as [Y|[Y|Y]]; auto; [right; left; by apply refused_app|].
    destruct (Hk k (not_eq_sym Nk)) as [X|[X|[X|(n0 & Hn0 & X)]]]; auto; [right; right; lia|]. assert (n0 = nk) as -> by congruence. auto.
Qed.
Lemma own_set s s' t i p p' b c : jobs s !! t = Some (i, p) -> jobs s' = <[t := (i, p')]> (jobs s ++ js b c) ->
  forall k, own s' k + ownf k (i, p) = own s k + ownf k (i, p') + b2n (b && (c =? k)).
Proof.
  intros Ht Hj k. unfold own. rewrite Hj. pose proof (sumf_insert (ownf k) _ t _ (i, p') (lookup_app_l_Some _ (js b c) _ _ Ht)) as X. rewrite sumf_app in X.
  assert (sumf (ownf k) (js b c) = b2n (b && (c =? k))) as Y; [|lia]. destruct b; [|done]. simpl. unfold ownf. simpl. by destruct (c =? k).
Qed.
Lemma own_del s s' t i p b c : jobs s !! t = Some (i, p) -> jobs s' = delete t (jobs s ++ js b c) ->
  forall k, own s' k + ownf k (i, p) = own s k + b2n (b && (c =? k)).
Proof.
  intros Ht Hj k. unfold own. rewrite Hj. pose proof (sumf_delete (ownf k) _ t _ (lookup_app_l_Some _ (js b c) _ _ Ht)) as X. rewrite sumf_app in X.
  assert (sumf (ownf k) (js b c) = b2n (b && (c =? k))) as Y; [|lia]. destruct b; [|done]. simpl. unfold ownf. simpl. by destruct (c =? k).
Qed.
Lemma own_run s s' b c : jobs s' = jobs s ++ js b c -> forall k, own s' k = own s k + b2n (b && (c =? k)).
Proof.
  intros Hj k. unfold own. rewrite Hj, sumf_app. destruct b; [|done]. simpl. unfold ownf at 2. simpl. by destruct (c =? k).
Qed.
Lemma rinv_jobs s s' tr ev : rinv s tr -> dead s' = dead s -> nodes s' = nodes s ->
  (forall k, own s k <= own s' k \/ deadb k s = true \/ refused k ev) -> rinv s' (tr ++ ev).
Proof.
  intros R D Hs Hk k nk H Ru. rewrite Hs in H. replace (deadb k s') with (deadb k s) by (unfold deadb; by rewrite D).
  destruct (R k nk H Ru) as [Y|[Y|Y]]; auto; [right; left; by apply refused_app|].
  destruct (Hk k) as [X|[X|[ms X]]]; auto; [right; right; lia|]. right. left. exists ms. apply elem_of_app. by right.
Qed.
Lemma rinv_move s s' tr ev : inv s -> rinv s tr -> move s s' ev -> rinv s' (tr ++ ev).
Proof.
  intros I R M. destruct M as [st us v sn s' ev H H0 H1 H2 H3|ev H|s' i n n' H H0 H1 H2 H3|s' H H0 H1|s' ev M].
  - (* M_new *) apply map_senders_ok in H3 as (D & J & _ & _ & _ & _ & N & _). simpl in *. intros k nk Hk Ru. rewrite N in Hk.
    replace (deadb k s') with (deadb k s) by (unfold deadb; by rewrite D). replace (own s' k) with (own s k) by (unfold own; by rewrite J).
    destruct (decide (k < length (nodes s))) as [L|L].
    + rewrite lookup_app_l in Hk by done. destruct (nodes s !! k) as [n|] eqn:Hn; [|done]. injection Hk as <-. simpl in *. destruct (R k n Hn Ru) as [Y|[Y|Y]]; auto. right. left. by apply refused_app.
    + rewrite lookup_app_r in Hk by lia. destruct (k - length (nodes s)) as [|x]; [|done]. injection Hk as <-. done.
  - intros k nk Hk Ru. destruct (R k nk Hk Ru) as [Y|[Y|Y]]; auto. right. left. by apply refused_app.
  - destruct H0 as (a & b & ->). apply (rinv_gen s s' tr _ i n (with_rcount b (with_scount a n))); try done; unfold own; rewrite H2.
    + simpl. intros Ru. auto 10.
    + intros k Nk. auto.
  - apply (rinv_jobs s); try done. intros k. left. unfold own. by rewrite H0.
  - destruct M.
    + set (s' := run_if _ _ _). assert (forall k, own s' k = own s k + b2n (en_run n && (i =? k))) as O by (apply own_run; unfold s'; by rewrite run_jobs).
    assert (dead s' = dead s) as Hdd by (unfold s'; by rewrite run_dead).
    assert (nodes s' = <[i := enq 0 m n]> (nodes s)) as Hnn by (unfold s'; by rewrite run_nodes). clearbody s'.
    apply (rinv_gen s s' tr _ i n (enq 0 m n)); try done.
      * simpl. intros Ru. right. right. rewrite O, Nat.eqb_refl, andb_true_r. unfold en_run. destruct (running n); simpl in *; [right; repeat split; lia|]. left. rewrite andb_true_r in Ru. rewrite Ru. simpl. lia.
      * intros k Nk. left. rewrite O. lia.
    + set (s' := run_if _ _ _). assert (forall k, own s' k = own s k + b2n (b && (i =? k))) as O by (apply own_run; unfold s'; by rewrite run_jobs).
    assert (dead s' = dead s) as Hdd by (unfold s'; by rewrite run_dead).
    assert (nodes s' = <[i := with_running (running n || b) n]> (nodes s)) as Hnn by (unfold s'; by rewrite run_nodes). clearbody s'.
    apply (rinv_gen s s' tr _ i n (with_running (running n || b) n)); try done.
      * simpl. intros Ru. right. right. rewrite O, Nat.eqb_refl, andb_true_r. destruct (running n); simpl in *; [right; repeat split; lia|]. left. rewrite Ru. simpl. lia.
      * intros k' Nk. left. rewrite O. lia.
    + set (s' := run_if _ _ _). assert (forall k, own s' k = own s k + b2n (b && (i =? k))) as O by (apply own_run; unfold s'; by rewrite run_jobs).
    assert (dead s' = dead s) as Hdd by (unfold s'; by rewrite run_dead). set (n' := with_running (running n || b) (with_close true (final n) n)) in *.
    assert (nodes s' = <[i := n']> (nodes s)) as Hnn by (unfold s'; by rewrite run_nodes). clearbody s'.
    apply (rinv_gen s s' tr _ i n n'); try done.
      * simpl. intros Ru. right. right. rewrite O, Nat.eqb_refl, andb_true_r. destruct (running n); simpl in *; [right; repeat split; lia|]. left. rewrite Ru. simpl. lia.
      * intros k' Nk. left. rewrite O. lia.
    + apply (rinv_jobs s); try done. intros k. pose proof (own_del s (end_job t s) t i JPend false 0 H ltac:(simpl; by rewrite app_nil_r) k) as X. unfold ownf in X. simpl in X.
    destruct (Nat.eqb_spec i k) as [->|]; [auto|]. left. simpl in X. lia.
    + set (s' := set_job _ _ _ _). assert (forall k, own s' k = own s k) as O.
    { intros k. pose proof (own_set s s' t _ _ _ false 0 H0 ltac:(simpl; by rewrite app_nil_r) k) as X. unfold ownf in X. simpl in X. destruct (i =? k); simpl in *; lia. }
    apply (rinv_gen s s' tr _ i n (with_que q' n)); try done; [simpl; intros; right; right; right; rewrite O; repeat split; [done|lia..]|]. intros k Nk. left. rewrite O. lia.
    + set (s' := set_job _ _ _ _). assert (forall k, own s' k = own s k) as O.
    { intros k. pose proof (own_set s s' t _ _ _ false 0 H0 ltac:(simpl; by rewrite app_nil_r) k) as X. unfold ownf in X. simpl in X. destruct (i =? k); simpl in *; lia. }
    apply (rinv_gen s s' tr _ i n (with_close false (closeq n) n)); try done; [simpl; intros; right; right; right; rewrite O; repeat split; [done|lia..]|]. intros k Nk. left. rewrite O. lia.
    + apply (rinv_jobs s); try done. intros k. left. pose proof (own_set s (set_job t i (JCts (u :: todo) true m) s) t _ _ _ false 0 H0 ltac:(simpl; by rewrite app_nil_r) k) as X. unfold ownf in X. simpl in X. destruct (i =? k); simpl in *; lia.
    + set (s' := set_job _ _ _ _). assert (forall k, own s' k = own s k + b2n (cl_run nu && (u =? k))) as O.
    { intros k. pose proof (own_set s s' t _ _ _ (cl_run nu) u H0 ltac:(unfold s'; simpl; by rewrite run_jobs) k) as X. unfold ownf in X. simpl in X. destruct (i =? k); simpl in *; lia. }
    assert (dead s' = dead s) as Hdd by (unfold s'; simpl; by rewrite run_dead).
    assert (nodes s' = <[u := cleared nu]> (nodes s)) as Hnn by (unfold s'; simpl; by rewrite run_nodes). clearbody s'.
    apply (rinv_gen s s' tr _ u nu (cleared nu)); try done; [|intros k Nk; left; rewrite O; lia].
    simpl. intros Ru. right. right. left. rewrite O, Nat.eqb_refl, andb_true_r. unfold cl_run. destruct (pred (susp nu) =? 0) eqn:E; [|apply Nat.eqb_neq in E; lia].
    simpl in *. apply andb_true_iff in Ru as [-> _]. simpl. lia.
    + apply (rinv_jobs s); try done. intros k. pose proof (own_del s (end_job t s) t i _ false 0 H ltac:(simpl; by rewrite app_nil_r) k) as X. unfold ownf in X. simpl in X.
    destruct (Nat.eqb_spec i k) as [->|]; [right; right; exists ms; by left|]. left. simpl in X. lia.
    + apply (rinv_jobs s); try done. intros k. left. pose proof (own_set s (set_job t i (JInvoke ms) s) t _ _ _ false 0 H ltac:(simpl; by rewrite app_nil_r) k) as X. unfold ownf in X. simpl in X. destruct (i =? k); simpl in *; lia.
    + apply (rinv_jobs s); try done. intros k. left. pose proof (own_set s (set_job t i JDone s) t _ _ _ false 0 H ltac:(simpl; by rewrite app_nil_r) k) as X. unfold ownf in X. simpl in X. destruct (i =? k); simpl in *; lia.
    + set (s' := set_job _ _ _ _). apply (rinv_gen s s' tr _ i n (with_susp (if b then S (length rest) else 1) n)); try done.
      * simpl. intros _. right. right. left. destruct b; lia.
      * intros k Nk. left. pose proof (own_set s s' t _ _ _ false 0 H0 ltac:(simpl; by rewrite app_nil_r) k) as X. unfold ownf in X. simpl in X. destruct (Nat.eqb_spec i k); [congruence|]. simpl in *. lia.
    + apply (rinv_jobs s); try done. intros k. left. pose proof (own_set s (set_job t i (JSelf false) s) t _ _ _ false 0 H ltac:(simpl; by rewrite app_nil_r) k) as X. unfold ownf in X. simpl in X. destruct (i =? k); simpl in *; lia.
    + apply (rinv_jobs s); try done. intros k. left. pose proof (own_set s (set_job t i (JSend o rest) s) t _ _ _ false 0 H ltac:(simpl; by rewrite app_nil_r) k) as X. unfold ownf in X. simpl in X. destruct (i =? k); simpl in *; lia.
    + set (s' := set_job _ _ _ _). assert (forall k, own s' k = own s k + b2n (en_run nd && (d =? k))) as O.
    { intros k. pose proof (own_set s s' t _ _ _ (en_run nd) d H ltac:(unfold s'; simpl; by rewrite run_jobs) k) as X. unfold ownf in X. simpl in X. destruct (i =? k); simpl in *; lia. }
    assert (dead s' = dead s) as Hdd by (unfold s'; simpl; by rewrite run_dead).
    assert (nodes s' = <[d := enq p o nd]> (nodes s)) as Hnn by (unfold s'; simpl; by rewrite run_nodes). clearbody s'.
    apply (rinv_gen s s' tr _ d nd (enq p o nd)); try done.
      * simpl. intros Ru. right. right. rewrite O, Nat.eqb_refl, andb_true_r. unfold en_run. destruct (running nd); simpl in *; [right; repeat split; lia|]. left. rewrite andb_true_r in Ru. rewrite Ru. simpl. lia.
      * intros k Nk. left. rewrite O. lia.
    + apply (rinv_jobs s); try done. intros k. left. pose proof (own_set s (set_job t i (JSelf true) s) t _ _ _ false 0 H ltac:(simpl; by rewrite app_nil_r) k) as X. unfold ownf in X. simpl in X. destruct (i =? k); simpl in *; lia.
    + set (s' := end_job _ _). assert (forall k, own s' k = own s k + b2n (cl_run n && (i =? k))) as O.
    { intros k. pose proof (own_del s s' t _ _ (cl_run n) i H0 ltac:(unfold s'; simpl; by rewrite run_jobs) k) as X. unfold ownf in X. simpl in X. destruct (i =? k); simpl in *; lia. }
    assert (dead s' = dead s) as Hdd by (unfold s'; simpl; by rewrite run_dead).
    assert (nodes s' = <[i := cleared n]> (nodes s)) as Hnn by (unfold s'; simpl; by rewrite run_nodes). clearbody s'.
    apply (rinv_gen s s' tr _ i n (cleared n)); try done; [|intros k Nk; left; rewrite O; lia].
    simpl. intros Ru. right. right. left. rewrite O, Nat.eqb_refl, andb_true_r. unfold cl_run. destruct (pred (susp n) =? 0) eqn:E; [|apply Nat.eqb_neq in E; lia].
    simpl in *. apply andb_true_iff in Ru as [-> _]. simpl. lia.
    + set (s' := set_job _ _ _ _). apply (rinv_gen s s' tr _ i n (with_running false n)); try done.
    intros k Nk. left. pose proof (own_set s s' t _ _ _ false 0 H0 ltac:(simpl; by rewrite app_nil_r) k) as X. unfold ownf in X. simpl in X. destruct (Nat.eqb_spec i k); [congruence|]. simpl in *. lia.
    + set (s' := run_if _ _ _). assert (forall k, own s' k + (if i =? k then 1 else 0) = own s k + b2n (dn_run n && (i =? k))) as O.
    { intros k. pose proof (own_run (end_job t s) s' (dn_run n) i ltac:(unfold s'; by rewrite run_jobs) k) as X.
      pose proof (own_del s (end_job t s) t _ _ false 0 H0 ltac:(simpl; by rewrite app_nil_r) k) as Y. unfold ownf in Y. simpl in Y. destruct (i =? k); simpl in *; lia. }
    assert (dead s' = dead s) as Hdd by (unfold s'; simpl; by rewrite run_dead).
    assert (nodes s' = <[i := with_running (dn_run n) n]> (nodes s)) as Hnn by (unfold s'; simpl; by rewrite run_nodes). clearbody s'.
    pose proof (sumf_lookup (ownf i) _ _ _ H0) as Y. unfold ownf in Y at 1. simpl in Y. rewrite Nat.eqb_refl in Y. unfold own in *.
    apply (rinv_gen s s' tr _ i n (with_running (dn_run n) n)); try done.
      * simpl. intros Ru. right. right. left. specialize (O i). rewrite Ru, Nat.eqb_refl in O. simpl in O. unfold own. lia.
      * intros k Nk. left. specialize (O k). destruct (Nat.eqb_spec i k); [congruence|]. unfold own. lia.
    + set (s' := set_job _ _ _ _). assert (forall k, own s' k = own s k) as O.
    { intros k. pose proof (own_set s s' t _ _ _ false 0 H0 ltac:(simpl; by rewrite app_nil_r) k) as X. unfold ownf in X. simpl in X. destruct (i =? k); simpl in *; lia. }
    apply (rinv_gen s s' tr _ i n (with_down [] n)); try done; [simpl; intros; right; right; right; rewrite O; repeat split; [done|lia..]|]. intros k Nk. left. rewrite O. lia.
    + apply (rinv_jobs s); try done. intros k. left. pose proof (own_set s (set_job t i (JClear rest) s) t _ _ _ false 0 H ltac:(simpl; by rewrite app_nil_r) k) as X. unfold ownf in X. simpl in X. destruct (i =? k); simpl in *; lia.
    + set (s' := set_job _ _ _ _). assert (forall k, own s' k = own s k) as O.
    { intros k'. pose proof (own_set s s' t _ _ _ false 0 H ltac:(unfold s'; simpl; by rewrite rms_jobs, app_nil_r) k') as X. unfold ownf in X. simpl in X. destruct (i =? k'); simpl in *; lia. }
    assert (dead s' = dead s) as Hdd by (unfold s'; simpl; by rewrite rms_dead).
    assert (nodes s' = <[d := with_scount k n]> (nodes s)) as Hnn by (unfold s'; simpl; by rewrite rms_nodes). clearbody s'.
    apply (rinv_gen s s' tr _ d n (with_scount k n)); try done; [simpl; intros; right; right; right; rewrite O; repeat split; [done|lia..]|]. intros k' Nk. left. rewrite O. lia.
    + set (s' := end_job _ _). assert (forall k, own s' k = own s k) as O.
    { intros k. pose proof (own_del s s' t _ _ false 0 H0 ltac:(simpl; by rewrite app_nil_r) k) as X. unfold ownf in X. simpl in X. destruct (i =? k); simpl in *; lia. }
    apply (rinv_gen s s' tr _ i n (with_proc false n)); try done; [simpl; intros; right; right; right; rewrite O; repeat split; [done|lia..]|]. intros k Nk. left. rewrite O. lia.
    + apply (rinv_jobs s); try done. intros k. left. pose proof (own_set s (set_job t i (JSusp o (down n) (min_free (down n) s <=? 1)%Z) s) t _ _ _ false 0 H0 ltac:(simpl; by rewrite app_nil_r) k) as X. unfold ownf in X. simpl in X. destruct (i =? k); simpl in *; lia.
    + intros k nk Hk Ru. simpl in *. destruct (R k nk Hk Ru) as [Y|[Y|Y]]; auto; [|right; left; by apply refused_app].
    left. unfold deadb in *. simpl. by rewrite existsb_app, Y.
Qed.
