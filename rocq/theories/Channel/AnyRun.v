(** Networks with any buffer sizes: the invariant holds in all executions. *)
From Coq Require Import List Bool ZArith Lia Arith.
From stdpp Require Import list.
From Verif.Channel Require Import Queue QueueProof Model Sum Inv InvStep InvStep2 InvStep3 InvRun Moves Spec Trace TraceStep TraceRun AnyInv.

Lemma a_new s s' tr ev st us v b sn : ainv s tr -> (st = Default -> length us = 1) -> us <> [] ->
  (forall p u, us !! p = Some (Some u) -> u < length (nodes s)) ->
  (sn = [] /\ us = map Some (omap id us) \/ us = [None] /\ sn = [length (nodes s)]) ->
  map_senders (length (nodes s)) 0 (omap id us) (St (nodes s ++ [new_node st us v b]) (dead s) (jobs s) (pends s) (snd_h s ++ sn) (rcv_h s ++ [(length (nodes s), false)])) = Some (s', ev) ->
  ainv s' (tr ++ ev).
Proof.
  intros A Df Ne Hu Hsn M. apply map_senders_ev in M as Me. destruct Me as [Le Me].
  apply map_senders_ok in M as (D & J & P & S & R & Eub & N & Cn & Dn). simpl in *.
  set (d := length (nodes s)) in *. set (nn := new_node st us v b) in *.
  assert (forall j u, omap id us !! j = Some u -> u < d) as Hu'.
  { intros j u Hj. apply elem_of_list_lookup_2, elem_of_list_omap in Hj as (x & Hx & Eq). simpl in Eq. subst x. apply elem_of_list_lookup in Hx as [p Hp]. by apply Hu in Hp. }
  assert (forall j u, omap id us !! j = Some u -> us !! j = Some (Some u)) as Hu2.
  { intros j u Hj. destruct Hsn as [[_ Hus]|[-> _]]; [|done]. rewrite Hus, list_lookup_fmap, Hj. done. }
  assert (forall j u, us !! j = Some (Some u) -> omap id us !! j = Some u) as Hu3.
  { intros j u Hj. destruct Hsn as [[_ Hus]|[-> _]]; [|by destruct j as [|[]]]. rewrite Hus, list_lookup_fmap in Hj. destruct (omap id us !! j); [|done]. simpl in Hj. congruence. }
  assert (Forall (att d) ev) as At.
  { apply Forall_lookup. intros j e He. apply lookup_lt_Some in He as Lj. rewrite Le in Lj. apply lookup_lt_is_Some in Lj as [u Hj]. rewrite (Me j u Hj) in He. injection He as <-. by eexists _, _. }
  pose proof (att_nil d ev At) as An. pose proof (about_nil d tr) as Ab.
  destruct Ab as (B1 & B2 & B3 & B4); [intros e He; eapply (a_none s tr A); [|done]; by apply lookup_ge_None|].
  assert (extra d 0 (omap id us) d = []) as Ex.
  { destruct (extra d 0 (omap id us) d) as [|e l] eqn:E; [done|]. destruct (extra_in d (omap id us) 0 d e) as (j & _ & Hj); [rewrite E; left|]. apply Hu' in Hj. lia. }
  assert (nodes s' !! d = Some nn) as Nd. { rewrite N, lookup_app_r, Nat.sub_diag by done. simpl. rewrite Ex. done. }
  assert (forall k nk, nodes s' !! k = Some nk -> (k < d /\ exists n, nodes s !! k = Some n /\ nk = with_down (down n ++ extra d 0 (omap id us) k) n) \/ k = d /\ nk = nn) as W.
  { intros k nk H. destruct (decide (k = d)) as [->|L]; [right; split; [done|congruence]|]. left. rewrite N in H. destruct (decide (k < d)) as [L'|L'].
    - split; [done|]. rewrite lookup_app_l in H by done. destruct (nodes s !! k) as [n|]; [|done]. injection H as <-. by exists n.
    - rewrite lookup_app_r in H by (unfold d in L'; lia). destruct (k - length (nodes s)) as [|x] eqn:E; [unfold d in *; lia|done]. }
  assert (forall k nk, nodes s !! k = Some nk -> exists nk', nodes s' !! k = Some nk' /\ ups nk' = ups nk) as W'.
  { intros k nk H. eexists. rewrite N, lookup_app_l, H by (by eapply lookup_lt_Some). done. }
  assert (forall k, nodes s' !! k = None -> nodes s !! k = None /\ k <> d) as X.
  { intros k H. rewrite N in H. destruct (_ !! k) eqn:E in H; [done|]. apply lookup_ge_None in E. rewrite app_length in E. simpl in E. split; [apply lookup_ge_None; lia|unfold d; lia]. }
  assert (forall u e, edge s u e -> edge s' u e) as Ed.
  { intros u e (ne & He & Hp). apply W' in He as (ne' & He & E). exists ne'. split; [done|congruence]. }
  constructor.
  - intros k nk Hk. apply W in Hk as [(L & n & Hn & ->)|(-> & ->)].
    + destruct (a_node s tr A k n Hn). constructor; try done.
      * intros e He. simpl in He. apply elem_of_app in He as [He|He]; [by apply Ed, g_down|]. apply extra_in in He as (j & -> & Hj). exists nn. split; [done|]. simpl. by apply Hu2.
      * simpl. apply NoDup_app. split; [done|]. split; [|apply extra_nodup]. intros e He H. apply g_down in He as (ne & He & _). apply extra_in in H as (j & -> & _).
        simpl in He. apply lookup_lt_Some in He. unfold d in He. lia.
    + constructor; try done; simpl; [by rewrite replicate_length|by intros e He%elem_of_nil|constructor].
  - intros j Hj. rewrite J in Hj. apply (a_job s tr A) in Hj as [[nj Hj] G]. split; [apply W' in Hj as (nj' & -> & _); by eexists|].
    destruct (j.2); try done; destruct G as [G1 G2]; (split; [done|]); intros e He; by apply Ed, G2.
  - intros k Hk. rewrite S in Hk. apply elem_of_app in Hk as [Hk|Hk].
    + apply (a_snd s tr A) in Hk as (n & Hn & Un). apply W' in Hn as (n' & Hn & E). exists n'. split; [done|congruence].
    + destruct Hsn as [[-> _]|[-> ->]]; [by apply elem_of_nil in Hk|]. apply elem_of_list_singleton in Hk as ->. by exists nn.
  - intros k c Hk. rewrite R in Hk. apply elem_of_app in Hk as [Hk|Hk].
    + apply (a_rcv s tr A) in Hk as [n Hn]. apply W' in Hn as (n' & -> & _). by eexists.
    + apply elem_of_list_singleton in Hk. injection Hk as -> ->. by eexists.
  - intros k e Hk He. apply X in Hk as [Hk Nk]. apply elem_of_app in He as [He|He]; [by apply (a_none s tr A)|].
    apply elem_of_list_lookup in He as [j He]. apply lookup_lt_Some in He as Lj. rewrite Le in Lj. apply lookup_lt_is_Some in Lj as [u Hj]. rewrite (Me j u Hj) in He. injection He as <-.
    simpl. apply Hu' in Hj. apply lookup_ge_None in Hk. apply orb_false_iff. split; apply Nat.eqb_neq; [|done]. unfold d in *. lia.
  - intros k nk Hk. destruct (An k) as (A1 & A2 & _). rewrite ops_app, popped_app, A1, A2, !app_nil_r. apply W in Hk as [(L & n & Hn & ->)|(-> & ->)].
    + simpl. by apply (a_ops s tr A).
    + by rewrite B1, B2.
  - intros k. destruct (An k) as (A1 & A2 & A3 & _). rewrite popped_app, handled_app, A2, A3, !app_nil_r. unfold infl. rewrite J. apply (a_hand s tr A).
  - intros k. destruct (An k) as (A1 & A2 & A3 & A4 & A5 & _). rewrite invoked_app, results_app, A4, A5, !app_nil_r. unfold exec. rewrite J. apply (a_res s tr A).
  - intros k p i (nk & Hk & Hp). simpl in Hk, Hp. apply W in Hk as [(L & n & Hn & ->)|(-> & ->)].
    + simpl in Hp. destruct (a_edge s tr A k p i) as (tr2 & Si & Re & Eq); [by exists n|]. exists (tr2 ++ ev). split; [by apply since_app|].
      destruct (An i) as (_ & _ & _ & _ & A5 & _). destruct (An k) as (_ & _ & _ & _ & _ & _ & A6). rewrite sent_app, results_app, A5, A6, !app_nil_r. unfold iedge. rewrite J. split; [done|].
      intros C Dd. rewrite closed_app in C. apply app_eq_nil in C as [C _]. apply Eq; [done|]. unfold deadb in *. congruence.
    + simpl in Hp. apply Hu3 in Hp as Hj. pose proof (Me p i Hj) as He. simpl in He. exists (drop (Datatypes.S p) ev). split.
      { exists (tr ++ take p ev). rewrite <- app_assoc. f_equal. symmetry. by apply take_drop_middle. }
      destruct (An d) as (_ & _ & _ & _ & _ & _ & A6). rewrite sent_app, A6, B4. simpl.
      assert (results i (drop (Datatypes.S p) ev) = []) as Rz.
      { destruct (An i) as (_ & _ & _ & _ & A5 & _). rewrite <- (take_drop (Datatypes.S p) ev), results_app in A5. by apply app_eq_nil in A5 as [_ A5]. }
      rewrite Rz. assert (iedge i (d, p) s' = []) as ->; [|done].
      unfold iedge. rewrite J. apply omap_none. intros t [k q] Hk. unfold f_edge. simpl. destruct (Nat.eqb_spec k i) as [->|]; [|done].
      apply elem_of_list_lookup_2, (a_job s tr A) in Hk as [_ G]. simpl in G.
      assert (forall rest : list (nat * nat), (forall e, e ∈ rest -> edge s i e) -> (d, p) ∈ rest -> False) as Z.
      { intros rest Sub H. apply Sub in H as (ne & H & _). simpl in H. apply lookup_lt_Some in H. unfold d in H. lia. }
      destruct q as [| | |o rest c|o rest| | | |]; try done; destruct G as [_ G]; destruct (decide ((d, p) ∈ rest)); try done; exfalso; by eapply Z.
  - intros k p i (nk & Hk & Hp) C. simpl in Hk, Hp. rewrite closed_app in C. apply app_eq_nil in C as [C _]. apply W in Hk as [(L & n & Hn & ->)|(-> & ->)].
    + simpl in Hp. destruct (a_open s tr A k p i) as (ni & Hi & In); [by exists n|done|]. eexists. rewrite N, lookup_app_l, Hi by (by eapply lookup_lt_Some). split; [done|].
      simpl. apply elem_of_app. by left.
    + simpl in Hp. apply Hu3 in Hp as Hj. apply Hu' in Hj as Li. apply lookup_lt_is_Some in Li as [ni Hi]. eexists. rewrite N, lookup_app_l, Hi by (by eapply lookup_lt_Some). split; [done|].
      simpl. apply elem_of_app. right. by eapply (extra_elem d (omap id us) 0 i p).
Qed.

(** ** steps without a message *)
Definition silent (ev : list event) : Prop := forall e, e ∈ ev -> match e with Closed _ | Threw | Ub => True | _ => False end.
Lemma silent_nil ev : silent ev -> forall i, ops i ev = [] /\ popped i ev = [] /\ handled i ev = [] /\ invoked i ev = [] /\ results i ev = [] /\ forall p, sent i p ev = [].
Proof.
  intros F i. unfold ops, popped, handled, invoked, results, sent. repeat split; intros; apply omap_none; intros t e He; apply elem_of_list_lookup_2, F in He; by destruct e.
Qed.
Lemma a_quiet s s' tr ev i n n' xs ys R : ainv s tr -> nodes s !! i = Some n -> nodes s' = <[i := n']> (nodes s) -> strat n' = strat n -> ups n' = ups n -> que n' = que n ->
  NoDup (down n') -> down n' ⊆ down n -> dead s' = dead s -> (closed i ev = [] -> down n ⊆ down n') -> silent ev -> (forall e k, e ∈ ev -> k <> i -> about k e = false) -> jobs s ≡ₚ xs ++ R -> jobs s' ≡ₚ ys ++ R ->
  (forall k, omap (f_infl k) xs = omap (f_infl k) ys) -> (forall k, omap (f_inv k) xs = omap (f_inv k) ys) ->
  (forall d p u, omap (f_edge u (d, p)) ys ⊆+ omap (f_edge u (d, p)) xs /\ (deadb d s = false -> omap (f_edge u (d, p)) ys ≡ₚ omap (f_edge u (d, p)) xs)) ->
  (forall j, j ∈ ys -> jgood s j) -> (forall k, k ∈ snd_h s' -> k ∈ snd_h s) -> (forall k b, (k, b) ∈ rcv_h s' -> exists b', (k, b') ∈ rcv_h s) ->
  ainv s' (tr ++ ev).
Proof.
  intros A Hn Hs E1 E2 E3 ND Sub De Op Si Hev Jx Jy F1 F2 F3 G Sn Rc. pose proof (silent_nil ev Si) as Z.
  apply (a_step s s' tr ev i n n' xs ys R); try done.
  - destruct (Z i) as (-> & -> & _). by rewrite E3.
  - intros k. destruct (Z k) as (_ & -> & -> & _). by rewrite F1.
  - intros k. destruct (Z k) as (_ & _ & _ & -> & -> & _). by rewrite F2.
  - intros d p u _. destruct (Z u) as (_ & _ & _ & _ & -> & _). destruct (Z d) as (_ & _ & _ & _ & _ & ->). rewrite app_nil_r. simpl. apply F3.
  - intros d p u _ _ Dd. destruct (Z u) as (_ & _ & _ & _ & -> & _). destruct (Z d) as (_ & _ & _ & _ & _ & ->). rewrite app_nil_r. simpl. by apply F3.
Qed.
Definition nothing (ev : list event) : Prop := ev = [] \/ ev = [Ub] \/ ev = [Threw].
Lemma nothing_silent ev : nothing ev -> silent ev /\ forall i (e : event) k, e ∈ ev -> k <> i -> about k e = false.
Proof. intros [->|[->| ->]]; (split; [intros e He|intros i e k He]); try (by apply elem_of_nil in He); by apply elem_of_list_singleton in He as ->. Qed.
(** a client: a process changes where it does not matter, a job may be started *)
Lemma a_hands s s' tr ev i n n' b : ainv s tr -> nodes s !! i = Some n -> nodes s' = <[i := n']> (nodes s) -> strat n' = strat n -> ups n' = ups n -> que n' = que n ->
  down n' = down n -> dead s' = dead s -> nothing ev -> jobs s' = jobs s ++ js b i ->
  (forall k, k ∈ snd_h s' -> k ∈ snd_h s) -> (forall k c, (k, c) ∈ rcv_h s' -> exists c', (k, c') ∈ rcv_h s) -> ainv s' (tr ++ ev).
Proof.
  intros A Hn Hs E1 E2 E3 E4 De Hev J Sn Rc. destruct (nothing_silent ev Hev) as [Si Ab].
  apply (a_quiet s s' tr ev i n n' [] (js b i) (jobs s)); try done.
  - rewrite E4. by destruct (a_node s tr A i n Hn).
  - by rewrite E4.
  - by rewrite E4.
  - intros e k. apply Ab.
  - rewrite J. apply Permutation_app_comm.
  - intros k. destruct b; [|done]. simpl. by rewrite infl_pend.
  - intros k. destruct b; [|done]. simpl. by rewrite inv_pend.
  - intros d p u. destruct b; [|done]. simpl. by rewrite edge_pend.
  - intros j Hj. destruct b; [|by apply elem_of_nil in Hj]. apply elem_of_list_singleton in Hj as ->. split; [by eexists|done].
Qed.
(** a job goes on or ends, and may start another one for process c, which changes where it does not matter *)
Definition oj (o : option (nat * pc)) : list (nat * pc) := match o with Some j => [j] | None => [] end.
Lemma a_move s s' tr ev c n n' t x o b : ainv s tr -> nodes s !! c = Some n -> nodes s' = <[c := n']> (nodes s) -> strat n' = strat n -> ups n' = ups n -> que n' = que n ->
  NoDup (down n') -> down n' ⊆ down n -> dead s' = dead s -> (closed c ev = [] -> down n ⊆ down n') -> silent ev -> (forall e k, e ∈ ev -> k <> c -> about k e = false) -> jobs s !! t = Some x ->
  jobs s' ≡ₚ (oj o ++ js b c) ++ delete t (jobs s) -> snd_h s' = snd_h s -> rcv_h s' = rcv_h s ->
  (forall k, omap (f_infl k) (oj o) = ol (f_infl k x)) -> (forall k, omap (f_inv k) (oj o) = ol (f_inv k x)) -> (forall d p u, omap (f_edge u (d, p)) (oj o) ⊆+ ol (f_edge u (d, p) x) /\ (deadb d s = false -> omap (f_edge u (d, p)) (oj o) ≡ₚ ol (f_edge u (d, p) x))) ->
  (forall j, j ∈ oj o -> jgood s j) -> ainv s' (tr ++ ev).
Proof.
  intros A Hn Hs E1 E2 E3 ND Sub De Op Si Hev Ht J Sn Rc F1 F2 F3 G.
  apply (a_quiet s s' tr ev c n n' [x] (oj o ++ js b c) (delete t (jobs s))); try done.
  - by apply jobs_at.
  - intros k. rewrite omap_app, F1. assert (omap (f_infl k) (js b c) = []) as -> by (destruct b; [|done]; simpl; by rewrite infl_pend). rewrite app_nil_r, omap_c, app_nil_r. done.
  - intros k. rewrite omap_app, F2. assert (omap (f_inv k) (js b c) = []) as -> by (destruct b; [|done]; simpl; by rewrite inv_pend). rewrite app_nil_r, omap_c, app_nil_r. done.
  - intros d p u. rewrite omap_app. assert (omap (f_edge u (d, p)) (js b c) = []) as -> by (destruct b; [|done]; simpl; by rewrite edge_pend). rewrite app_nil_r, omap_c, app_nil_r. apply F3.
  - intros j Hj. apply elem_of_app in Hj as [Hj|Hj]; [by apply G|]. destruct b; [|by apply elem_of_nil in Hj]. apply elem_of_list_singleton in Hj as ->. split; [by eexists|done].
  - by rewrite Sn.
  - rewrite Rc. eauto.
Qed.
Lemma jobs_set2 {A} (l k : list A) t x y : l !! t = Some x -> <[t := y]> (l ++ k) ≡ₚ ([y] ++ k) ++ delete t l.
Proof. intros H. rewrite insert_app_l by (by eapply lookup_lt_Some). by eapply jobs_set. Qed.
Lemma jobs_del {A} (l k : list A) t x : l !! t = Some x -> delete t (l ++ k) ≡ₚ ([] ++ k) ++ delete t l.
Proof.
  intros H. simpl. rewrite (Permutation_app_comm k). revert t H. induction l as [|a l IH]; intros [|t] H; simpl; try done. f_equiv. by apply IH.
Qed.
(** a job goes on, nothing else changes *)
Lemma a_go s s' tr t x o : ainv s tr -> jobs s !! t = Some x -> nodes s' = nodes s -> dead s' = dead s -> jobs s' ≡ₚ oj o ++ delete t (jobs s) -> snd_h s' = snd_h s -> rcv_h s' = rcv_h s ->
  (forall k, omap (f_infl k) (oj o) = ol (f_infl k x)) -> (forall k, omap (f_inv k) (oj o) = ol (f_inv k x)) -> (forall d p u, omap (f_edge u (d, p)) (oj o) ⊆+ ol (f_edge u (d, p) x) /\ (deadb d s = false -> omap (f_edge u (d, p)) (oj o) ≡ₚ ol (f_edge u (d, p) x))) ->
  (forall j, j ∈ oj o -> jgood s j) -> ainv s' (tr ++ []).
Proof.
  intros A Ht N De J Sn Rc F1 F2 F3 G. destruct (a_job s tr A x) as [[n Hn] _]; [by eapply elem_of_list_lookup_2|].
  apply (a_move s s' tr [] x.1 n n t x o false); try done.
  - by rewrite N, list_insert_id.
  - by destruct (a_node s tr A x.1 n Hn).
  - by intros e He%elem_of_nil.
  - by intros e k He%elem_of_nil.
  - simpl. by rewrite app_nil_r.
Qed.
Lemma a_same s s' tr ev : ainv s tr -> (forall d, deadb d s' = false -> deadb d s = false) -> nodes s' = nodes s -> jobs s' = jobs s -> nothing ev ->
  (forall k, k ∈ snd_h s' -> k ∈ snd_h s) -> (forall k b, (k, b) ∈ rcv_h s' -> exists b', (k, b') ∈ rcv_h s) -> ainv s' (tr ++ ev).
Proof.
  intros A De N J Hev Sn Rc. destruct A as [An Aj As Ar Ao Aq Ah Ae Ad Aw].
  assert (silent ev) as Si. { intros e He. destruct Hev as [->|[->| ->]]; [by apply elem_of_nil in He|by apply elem_of_list_singleton in He as ->..]. }
  pose proof (silent_nil ev Si) as Z. assert (forall u e, edge s' u e <-> edge s u e) as Ed by (intros; unfold edge; by rewrite N).
  constructor.
  - intros i n. rewrite N. intros Hn. destruct (An i n Hn). constructor; try done. intros e He. by apply Ed, g_down.
  - intros j. rewrite J. intros Hj. apply Aj in Hj as [H G]. split; [by rewrite N|]. destruct (j.2); try done; destruct G as [G1 G2]; (split; [done|]); intros e He; by apply Ed, G2.
  - rewrite N. intros i Hi. by apply As, Sn.
  - rewrite N. intros i b Hi. apply Rc in Hi as [b' Hi]. by eapply Ar.
  - rewrite N. intros i e Hi He. apply elem_of_app in He as [He|He]; [by apply Ao|]. apply Si in He as X. destruct e; try done. destruct Hev as [->|[->| ->]]; [by apply elem_of_nil in He|by apply elem_of_list_singleton in He..].
  - rewrite N. intros i n Hn. destruct (Z i) as (Z1 & Z2 & _). rewrite ops_app, popped_app, Z1, Z2, !app_nil_r. by apply Aq.
  - intros i. destruct (Z i) as (_ & Z2 & Z3 & _). rewrite handled_app, popped_app, Z2, Z3, !app_nil_r. unfold infl. rewrite J. apply Ah.
  - intros i. destruct (Z i) as (_ & _ & _ & Z2 & Z3 & _). rewrite invoked_app, results_app, Z2, Z3, !app_nil_r. unfold exec. rewrite J. apply Ae.
  - intros d p u He. apply Ed in He. destruct (Ad d p u He) as (tr2 & S1 & S2 & S3). exists (tr2 ++ ev). split; [by apply since_app|].
    destruct (Z u) as (_ & _ & _ & _ & Z2 & _). destruct (Z d) as (_ & _ & _ & _ & _ & Z3). rewrite sent_app, results_app, Z2, Z3, !app_nil_r. unfold iedge. rewrite J. split; [done|].
    intros C Dd. rewrite closed_app in C. apply app_eq_nil in C as [C _]. apply S3; auto.
  - intros d p u He C. apply Ed in He. rewrite closed_app in C. apply app_eq_nil in C as [C _]. rewrite N. by apply Aw.
Qed.

(** ** steps of jobs *)
Ltac same_g := intros; unfold f_infl, f_inv, f_edge; simpl; match goal with |- context [?a =? ?b] => destruct (a =? b) end; try done.
Ltac same_f := try match goal with |- context [f_infl] => same_g | |- context [f_inv] => same_g | |- context [f_edge] => same_g end.
Ltac good_j := let j := fresh in let Hj := fresh in intros j Hj; apply elem_of_list_singleton in Hj as ->; split; [by eexists|done].
Lemma a_enqueue s tr i p m n (x : list (nat * pc)) (y : list (nat * pc)) R s' : ainv s tr -> nodes s !! i = Some n -> 
  nodes s' = <[i := enq p m n]> (nodes s) -> dead s' = dead s -> snd_h s' = snd_h s -> rcv_h s' = rcv_h s -> jobs s ≡ₚ x ++ R -> jobs s' ≡ₚ (y ++ js (en_run n) i) ++ R ->
  (forall k, omap (f_infl k) x = omap (f_infl k) y) -> (forall k, omap (f_inv k) x = omap (f_inv k) y) ->
  (forall d q u, edge s u (d, q) -> sent d q [Appended i p m] ++ omap (f_edge u (d, q)) y ≡ₚ omap (f_edge u (d, q)) x) ->
  (forall j, j ∈ y -> jgood s j) -> ainv s' (tr ++ [Appended i p m]).
Proof.
  intros A Hn N De Sn Rc Jx Jy F1 F2 F3 G.
  apply (a_step s s' tr _ i n (enq p m n) x (y ++ js (en_run n) i) R); try done.
  - by destruct (a_node s tr A i n Hn).
  - unfold ops, popped. simpl. by rewrite pick_eq.
  - intros e k ->%elem_of_list_singleton Nk. simpl. by apply Nat.eqb_neq.
  - intros k. unfold popped, handled. simpl. rewrite omap_app, F1. destruct (en_run n); simpl; rewrite ?infl_pend; by rewrite app_nil_r.
  - intros k. unfold invoked, results. simpl. rewrite omap_app, F2. destruct (en_run n); simpl; rewrite ?inv_pend; by rewrite app_nil_r.
  - intros d q u E. specialize (F3 d q u E). unfold results. simpl. rewrite app_nil_r, omap_app. destruct (en_run n); simpl; rewrite ?edge_pend; by rewrite app_nil_r, F3.
  - intros d q u E _ _. specialize (F3 d q u E). unfold results. simpl. rewrite app_nil_r, omap_app. destruct (en_run n); simpl; rewrite ?edge_pend; by rewrite app_nil_r, F3.
  - intros j Hj. apply elem_of_app in Hj as [Hj|Hj]; [by apply G|]. destruct (en_run n); [|by apply elem_of_nil in Hj]. apply elem_of_list_singleton in Hj as ->. split; [by eexists|done].
  - by rewrite Sn.
  - rewrite Rc. eauto.
Qed.
Ltac fl1 := intros; unfold popped, handled, invoked, sent, results, f_infl, f_inv, f_edge, pick; simpl; match goal with |- context [?a =? ?b] => by destruct (a =? b) end.
Ltac fl := try match goal with |- context [f_infl] => fl1 | |- context [f_inv] => fl1 | |- context [f_edge] => fl1 end.
Lemma ainv_job s tr t i p s' ev : ainv s tr -> jobs s !! t = Some (i, p) -> job_step t i p s = Some (s', ev) -> ainv s' (tr ++ ev).
Proof.
  intros A Ht H. apply elem_of_list_lookup_2 in Ht as Ji. apply (a_job s tr A) in Ji as [[n Hn] G]. simpl in Hn, G. pose proof (a_node s tr A i n Hn) as Gn.
  unfold job_step in H. rewrite Hn in H.
  assert (forall ev, nothing ev -> ainv s (tr ++ ev)) as Nop by (intros; apply (a_same s); eauto).
  pose proof (jobs_at (jobs s) t _ Ht) as Jat. assert (forall y, <[t := y]> (jobs s) ≡ₚ [y] ++ delete t (jobs s)) as Jset.
  { intros y. rewrite <- (app_nil_r (<[t := y]> (jobs s))). rewrite (jobs_set _ [] t _ y Ht). by rewrite app_nil_r. }
  destruct p as [|[|u todo] ok1 m|ms|o rest b|o [|e rest]|ok1| | |[|e rest]].
  - destruct (deadb i s) eqn:De.
    { injection H as <- <-. apply (a_go s _ tr t (i, JPend) None); try done; same_f; by intros j Hj%elem_of_nil. }
    unfold pop_from_queue in H. destruct (empty_q n) eqn:Em.
    { injection H as <- <-. apply (a_move s _ tr [] i n (with_close false (closeq n) n) t (i, JPend) (Some (i, JCts [] false None)) false); try done; try same_f.
      - by destruct Gn.
      - by intros e He%elem_of_nil.
      - by intros e k He%elem_of_nil.
      - simpl. apply Jset.
      - good_j. }
    destruct (q_front (strat n) (que n)) as [[ms q']|] eqn:F; [|injection H as <- <-; apply Nop; right; by left].
    injection H as <- <-. unfold empty_q in Em.
    apply (a_step s _ tr _ i n (with_que (q_pop (strat n) q') n) [(i, JPend)] [(i, JCts (do_cts n (q_pop (strat n) q')) false (Some ms))] (delete t (jobs s))); try done; fl.
    + by destruct Gn.
    + unfold ops, popped. simpl. rewrite !pick_eq. simpl. unfold q_take. by rewrite Em, F.
    + intros e k ->%elem_of_list_singleton Nk. simpl. by apply Nat.eqb_neq.
    + simpl. apply Jset.
    + good_j.
    + eauto.
  - destruct m as [ms|].
    + destruct (has_error ms).
      { injection H as <- <-. apply (a_jobs s _ tr _ i [(i, JCts [] ok1 (Some ms))] [] (delete t (jobs s))); try done; fl.
        - intros e k ->%elem_of_list_singleton Nk. simpl. by apply Nat.eqb_neq.
        - by intros j Hj%elem_of_nil. }
      destruct (proc n) eqn:Pr; [|injection H as <- <-; apply Nop; right; by left].
      injection H as <- <-. apply (a_jobs s _ tr _ i [(i, JCts [] ok1 (Some ms))] [(i, JInvoke ms)] (delete t (jobs s))); try done; fl.
      * intros e k ->%elem_of_list_singleton Nk. simpl. by apply Nat.eqb_neq.
      * simpl. apply Jset.
      * good_j.
    + injection H as <- <-. apply (a_go s _ tr t (i, JCts [] ok1 None) (Some (i, JDone))); try done; try same_f; [apply Jset|good_j].
  - destruct ok1.
    + unfold clear2 in H. destruct (nodes s !! u) as [nu|] eqn:Hu; [|done]. injection H as <- <-.
      apply (a_move s _ tr [] u nu (cleared nu) t (i, JCts (u :: todo) true m) (Some (i, JCts todo false m)) (cl_run nu)); try done; try same_f.
      * simpl. by rewrite run_nodes.
      * by destruct (a_node s tr A u nu Hu).
      * simpl. by rewrite run_dead.
      * by intros e He%elem_of_nil.
      * by intros e k He%elem_of_nil.
      * simpl. rewrite run_jobs. simpl. by rewrite (jobs_set2 _ _ _ _ _ Ht).
      * simpl. by rewrite run_snd.
      * simpl. by rewrite run_rcv.
      * good_j.
    + destruct (nodes s !! u) as [nu|] eqn:Hu; [|done]. injection H as <- <-.
      apply (a_go s _ tr t (i, JCts (u :: todo) false m) (Some (i, if final nu then JCts todo false m else JCts (u :: todo) true m))); try done; try (destruct (final nu); by same_f); [apply Jset|].
      intros j Hj. apply elem_of_list_singleton in Hj as ->. split; [by eexists|]. simpl. by destruct (final nu).
  - done.
  - injection H as <- <-. apply (a_move s _ tr [] i n (with_susp (if b then S (length rest) else 1) n) t (i, JSusp o rest b) (Some (i, JSend o rest)) false); try done; try same_f.
    + by destruct Gn.
    + by intros e He%elem_of_nil.
    + by intros e k He%elem_of_nil.
    + simpl. apply Jset.
    + intros j Hj. apply elem_of_list_singleton in Hj as ->. split; [by eexists|]. exact G.
  - injection H as <- <-. apply (a_go s _ tr t (i, JSend o []) (Some (i, JSelf false))); try done; try same_f; [apply Jset|good_j].
  - destruct (enqueue _ _ _ _) as [[s1 e1]|] eqn:E; [|done]. injection H as <- <-. destruct G as [ND Ed].
    assert (jgood s (i, JSend o rest)) as Gr.
    { split; [by eexists|]. split; [by apply NoDup_cons in ND as [_ ND]|]. intros x Hx. apply Ed. by right. }
    assert (forall f u, f <> e -> omap (f_edge u f) [(i, JSend o rest)] = omap (f_edge u f) [(i, JSend o (e :: rest))]) as Es.
    { intros f u Ne. rewrite !omap_c. unfold f_edge. simpl. destruct (i =? u); [|done]. destruct (decide (f ∈ rest)) as [Y|Y], (decide (f ∈ e :: rest)) as [Z|Z]; simpl; try done.
      - exfalso. apply Z. by right.
      - by apply elem_of_cons in Z as [->|Z]. }
    apply enqueue_eq in E as [(De & -> & ->)|(De & nd & Hd & -> & ->)].
    + apply (a_go s _ tr t (i, JSend o (e :: rest)) (Some (i, JSend o rest))); try done; try same_f; [apply Jset| |].
      * destruct (decide (_ ∈ rest)) as [Y|Y], (decide (_ ∈ e :: rest)) as [Z|Z]; simpl; try done; [exfalso; apply Z; by right|]. split; [apply submseteq_nil_l|].
        intros Dd. apply elem_of_cons in Z as [<-|Z]; [simpl in De; congruence|done].
      * by intros j ->%elem_of_list_singleton.
    + destruct e as [d p]. simpl in *.
      apply (a_enqueue s tr d p o nd [(i, JSend o ((d, p) :: rest))] [(i, JSend o rest)] (delete t (jobs s))); try done.
      * simpl. by rewrite run_nodes.
      * simpl. by rewrite run_dead.
      * simpl. by rewrite run_snd.
      * simpl. by rewrite run_rcv.
      * simpl. rewrite run_jobs. simpl. by rewrite (jobs_set2 _ _ _ _ _ Ht).
      * intros d' p' u E. destruct (decide ((d', p') = (d, p))) as [[= -> ->]|Ne].
        -- assert (u = i) as ->. { destruct (Ed (d, p)) as (n1 & H1 & U1); [left|]. destruct E as (n2 & H2 & U2). simpl in *. congruence. }
           unfold sent. simpl. rewrite !Nat.eqb_refl. unfold f_edge. simpl. rewrite Nat.eqb_refl. apply NoDup_cons in ND as [Nin _]. rewrite decide_False by done. rewrite decide_True by left. done.
        -- assert (sent d' p' [Appended d p o] = []) as ->; [|rewrite app_nil_l; pose proof (Es (d', p') u Ne) as Es'; simpl in *; by rewrite Es']. unfold sent. simpl.
           assert (((d =? d') && (p =? p')) = false) as ->; [|done]. destruct (Nat.eqb_spec d d') as [E1|], (Nat.eqb_spec p p') as [E2|]; try done. subst. done.
      * by intros j ->%elem_of_list_singleton.
  - destruct ok1.
    + unfold clear2 in H. rewrite Hn in H. injection H as <- <-.
      apply (a_move s _ tr [] i n (cleared n) t (i, JSelf true) None (cl_run n)); try done; try same_f.
      * simpl. by rewrite run_nodes.
      * by destruct Gn.
      * simpl. by rewrite run_dead.
      * by intros e He%elem_of_nil.
      * by intros e k He%elem_of_nil.
      * simpl. rewrite run_jobs. simpl. by rewrite (jobs_del _ _ _ _ Ht).
      * simpl. by rewrite run_snd.
      * simpl. by rewrite run_rcv.
      * by intros j Hj%elem_of_nil.
    + destruct (final n); injection H as <- <-.
      * apply (a_go s _ tr t (i, JSelf false) None); try done; same_f; by intros j Hj%elem_of_nil.
      * apply (a_go s _ tr t (i, JSelf false) (Some (i, JSelf true))); try done; try same_f; [apply Jset|good_j].
  - injection H as <- <-. set (r := negb (empty_q n) || closeq n). destruct (final n).
    + apply (a_move s _ tr [] i n (with_running r n) t (i, JDone) (Some (i, JFinal)) r); try done; same_f.
      * by rewrite run_nodes.
      * by destruct Gn.
      * simpl. by rewrite run_dead.
      * by intros e He%elem_of_nil.
      * by intros e k He%elem_of_nil.
      * rewrite run_jobs. simpl. by rewrite (jobs_set _ _ _ _ _ Ht).
      * by rewrite run_snd.
      * by rewrite run_rcv.
      * good_j.
    + apply (a_move s _ tr [] i n (with_running r n) t (i, JDone) None r); try done; same_f.
      * by rewrite run_nodes.
      * by destruct Gn.
      * simpl. by rewrite run_dead.
      * by intros e He%elem_of_nil.
      * by intros e k He%elem_of_nil.
      * rewrite run_jobs. simpl. by rewrite Permutation_app_comm.
      * by rewrite run_snd.
      * by rewrite run_rcv.
      * by intros j Hj%elem_of_nil.
  - injection H as <- <-. apply (a_move s _ tr [Closed i] i n (with_down [] n) t (i, JFinal) (Some (i, JClear (down n))) false); try done; try same_f.
    + constructor.
    + by intros x Hx%elem_of_nil.
    + intros C. unfold closed in C. simpl in C. by rewrite pick_eq in C.
    + by intros e ->%elem_of_list_singleton.
    + intros e k ->%elem_of_list_singleton Nk. simpl. by apply Nat.eqb_neq.
    + simpl. apply Jset.
    + good_j.
  - injection H as <- <-. apply (a_move s _ tr [] i n (with_proc false n) t (i, JClear []) None false); try done; try same_f.
    + by destruct Gn.
    + by intros e He%elem_of_nil.
    + by intros e k He%elem_of_nil.
    + by intros j Hj%elem_of_nil.
  - destruct (remove_sender _ _) as [[s1 e1]|] eqn:E; [|done]. injection H as <- <-.
    apply remove_sender_eq in E as [(De & -> & ->)|(De & nd & Hd & [(Z & -> & ->)|(k & Z & -> & ->)])]; simpl in *.
    + apply (a_go s _ tr t (i, JClear (e :: rest)) (Some (i, JClear rest))); try done; try same_f; [apply Jset|good_j].
    + apply (a_move s _ tr [Ub] i n n t (i, JClear (e :: rest)) (Some (i, JClear rest)) false); try done; try same_f.
      * simpl. by rewrite list_insert_id.
      * by destruct Gn.
      * by intros x ->%elem_of_list_singleton.
      * by intros x k ->%elem_of_list_singleton.
      * simpl. apply Jset.
      * good_j.
    + apply (a_move s _ tr [] e.1 nd (with_scount k nd) t (i, JClear (e :: rest)) (Some (i, JClear rest)) false); try done; try same_f.
      * simpl. by rewrite rms_nodes.
      * by destruct (a_node s tr A e.1 nd Hd).
      * simpl. by rewrite rms_dead.
      * by intros x Hx%elem_of_nil.
      * by intros x q Hx%elem_of_nil.
      * simpl. rewrite rms_jobs. apply Jset.
      * simpl. by rewrite rms_snd.
      * simpl. by rewrite rms_rcv.
      * good_j.
Qed.

(** ** every step *)
Lemma a_rmr s tr i s' ev hs : ainv s tr -> (forall k c, (k, c) ∈ hs -> exists c', (k, c') ∈ rcv_h s) -> remove_receiver i (set_rcv hs s) = Some (s', ev) -> ainv s' (tr ++ ev).
Proof.
  intros A X H. unfold remove_receiver in H. simpl in H. destruct (nodes s !! i) as [n|] eqn:Hn; [|done]. destruct (rvoid n).
  { injection H as <- <-. apply (a_same s); try done. by left. }
  destruct (rcount n) as [|[|k]]; injection H as <- <-.
  - apply (a_same s); try done. right. by left.
  - apply (a_hands s _ tr [] i n (with_rcount 0 n) false); try done; [by left|by rewrite app_nil_r].
  - apply (a_hands s _ tr [] i n (with_rcount (S k) n) false); try done; [by left|by rewrite app_nil_r].
Qed.
Theorem ainv_step s tr l s' ev : ainv s tr -> step s l = Some (s', ev) -> ainv s' (tr ++ ev).
Proof.
  intros A H. assert (forall ev, nothing ev -> ainv s (tr ++ ev)) as Nop by (intros; apply (a_same s); eauto).
  destruct l as [|h v b|k hs v|h m|h|h|h|h|h|h|h|k|t|t o|i]; simpl in H.
  - injection H as <- <-. apply (a_new s _ tr [] Default [None] false 1 [length (nodes s)]); try done; [|auto]. intros [|p] u; simpl; done.
  - destruct (rcv_h s !! h) as [[u r]|] eqn:Hh; [|done]. destruct r; [injection H as <- <-; apply Nop; right; by right|].
    apply (a_new s _ tr ev Default [Some u] v b []); try done; [|auto|by rewrite app_nil_r].
    intros [|p] u'; simpl; [|done]. intros [= ->]. apply lookup_lt_is_Some. eapply (a_rcv s tr A). by eapply elem_of_list_lookup_2.
  - destruct k; try done; destruct hs as [|h0 hs]; try done; destruct (handles (h0 :: hs) s) as [us|] eqn:Hus; try done.
    all: assert (length us = S (length hs)) as Lu by (apply mapM_length in Hus; simpl in Hus; done).
    all: assert (forall p u, us !! p = Some u -> u < length (nodes s)) as Lt by
      (intros p u Hp; apply mapM_Some in Hus; eapply Forall2_lookup_r in Hp; [|exact Hus]; destruct Hp as (x & _ & Hx);
       destruct (rcv_h s !! x) as [[u' b]|] eqn:E; [|done]; simpl in Hx; injection Hx as ->; apply lookup_lt_is_Some; eapply (a_rcv s tr A); by eapply elem_of_list_lookup_2).
    1: apply (a_new s _ tr ev Zip (map Some us) v 1 []). 7: apply (a_new s _ tr ev RoundRobin (map Some us) v 1 []). 13: apply (a_new s _ tr ev Unordered (map Some us) v 1 []).
    all: try done; try (by left); try (by destruct us); try (by rewrite omap_some, app_nil_r); try (by rewrite omap_some).
    all: try (left; split; [done|by rewrite omap_some]).
    all: intros p u Hp; rewrite list_lookup_fmap in Hp; destruct (us !! p) as [u'|] eqn:E; [|done]; injection Hp as ->; by eapply Lt.
  - destruct (snd_h s !! h) as [i|] eqn:Hh; [|done]. apply elem_of_list_lookup_2, (a_snd s tr A) in Hh as (n0 & H0 & U0).
    apply enqueue_eq in H as [(De & -> & ->)|(De & n & Hn & -> & ->)]; [apply Nop; by left|].
    apply (a_enqueue s tr i 0 m n [] [] (jobs s)); try done.
    + by rewrite run_nodes.
    + by rewrite run_dead.
    + by rewrite run_snd.
    + by rewrite run_rcv.
    + rewrite run_jobs. simpl. apply Permutation_app_comm.
    + intros d q u (nd & Hd & Hu). simpl in *. unfold sent. simpl. destruct (Nat.eqb_spec i d) as [<-|]; [|done]. assert (nd = n0) as -> by congruence. rewrite U0 in Hu. by destruct q.
    + by intros j Hj%elem_of_nil.
  - destruct (snd_h s !! h) as [i|] eqn:Hh; [|done]. unfold add_sender in H. apply elem_of_list_lookup_2 in Hh as Hi.
    assert (forall k, k ∈ snd_h s ++ [i] -> k ∈ snd_h s) as X. { intros k [Y|Y]%elem_of_app; [done|]. by apply elem_of_list_singleton in Y as ->. }
    change (deadb i (set_snd (snd_h s ++ [i]) s)) with (deadb i s) in H. destruct (deadb i s) eqn:De.
    { injection H as <- <-. apply (a_same s); try done; [by left|eauto]. }
    simpl in H. destruct (nodes s !! i) as [n|] eqn:Hn; [|done]. injection H as <- <-.
    apply (a_hands s _ tr [] i n (with_scount (S (scount n)) n) false); try done; [by left|by rewrite app_nil_r|eauto].
  - destruct (snd_h s !! h) as [i|] eqn:Hh; [|done].
    assert (forall k, k ∈ delete h (snd_h s) -> k ∈ snd_h s) as X by (intros k; apply elem_of_del).
    apply remove_sender_eq in H as [(De & -> & ->)|(De & n & Hn & [(Z & -> & ->)|(k & Z & -> & ->)])].
    + apply (a_same s); try done; [by left|eauto].
    + apply (a_same s); try done; [right; by left|eauto].
    + apply (a_hands s _ tr [] i n (with_scount k n) false); try done; [by rewrite rms_nodes|by rewrite rms_dead|by left|by rewrite rms_jobs, app_nil_r|by rewrite rms_snd|rewrite rms_rcv; eauto].
  - destruct (snd_h s !! h) as [i|] eqn:Hh; [|done]. injection H as <- <-. apply (a_same s); try done; [by left|intros k; apply elem_of_del|eauto].
  - destruct (rcv_h s !! h) as [[i r]|] eqn:Hh; [|done]. unfold add_receiver in H. simpl in H. apply elem_of_list_lookup_2 in Hh as Hi.
    assert (forall j b, (j, b) ∈ rcv_h s ++ [(i, r)] -> exists b', (j, b') ∈ rcv_h s) as X.
    { intros j b [Y|Y]%elem_of_app; [eauto|]. apply elem_of_list_singleton in Y. injection Y as -> ->. eauto. }
    destruct (nodes s !! i) as [n|] eqn:Hn; [|done]. destruct (rvoid n); injection H as <- <-.
    + apply (a_same s); try done. by left.
    + apply (a_hands s _ tr [] i n (with_rcount (S (rcount n)) n) false); try done; [by left|by rewrite app_nil_r].
  - destruct (rcv_h s !! h) as [[i r]|] eqn:Hh; [|done].
    assert (forall k c, (k, c) ∈ delete h (rcv_h s) -> exists c', (k, c') ∈ rcv_h s) as X by (intros k c Hk; apply elem_of_del in Hk; eauto).
    destruct r; [|by eapply a_rmr]. injection H as <- <-. apply (a_same s); try done. by left.
  - destruct (rcv_h s !! h) as [[i r]|] eqn:Hh; [|done]. apply elem_of_list_lookup_2 in Hh as Hi. destruct r; [injection H as <- <-; apply Nop; by left|].
    eapply a_rmr; [done| |done]. intros j b Hj. apply elem_of_list_lookup in Hj as [x Hj]. apply list_lookup_insert_Some in Hj as [(-> & E & _)|(_ & Hj)]; [injection E as <- <-; eauto|].
    apply elem_of_list_lookup_2 in Hj. eauto.
  - destruct (rcv_h s !! h) as [[i r]|] eqn:Hh; [|done]. injection H as <- <-. apply (a_same s); try done; [by left|]. intros k c Hk. apply elem_of_del in Hk. eauto.
  - destruct (pends s !! k) as [p|] eqn:Hk; [|done]. destruct p as [i|i]; destruct (nodes s !! i) as [n|] eqn:Hn; try done; injection H as <- <-.
    + set (b := (negb (empty_q n) || closeq n) && negb (running n)).
      apply (a_hands s _ tr [] i n (with_running (running n || b) n) b); try done; [by rewrite run_nodes|by rewrite run_dead|by left|by rewrite run_jobs|by rewrite run_snd|rewrite run_rcv; eauto].
    + set (b := (rcount n =? 0) && negb (running n)).
      apply (a_hands s _ tr [] i n (with_running (running n || b) (with_close true (final n) n)) b); try done; [by rewrite run_nodes|by rewrite run_dead|by left|by rewrite run_jobs|by rewrite run_snd|rewrite run_rcv; eauto].
  - destruct (jobs s !! t) as [[i p]|] eqn:Ht; [|done]. by eapply ainv_job.
  - destruct (jobs s !! t) as [[i p]|] eqn:Ht; [|done]. destruct p as [| |ms| | | | | |]; try done. destruct (nodes s !! i) as [n|] eqn:Hn; [|done]. injection H as <- <-.
    pose proof (a_node s tr A i n Hn) as Gn.
    apply (a_jobs s _ tr _ i [(i, JInvoke ms)] [(i, JSusp o (down n) (min_free (down n) s <=? 1)%Z)] (delete t (jobs s))); try done; fl.
    + intros e k ->%elem_of_list_singleton Nk. simpl. by apply Nat.eqb_neq.
    + by apply jobs_at.
    + simpl. rewrite <- (app_nil_r (<[t := _]> (jobs s))). rewrite (jobs_set _ [] t _ _ Ht). done.
    + intros d p u _. unfold sent, results, f_edge. simpl. unfold pick. destruct (i =? u); [|done]. destruct (decide _); simpl; [done|apply submseteq_nil_l].
    + intros d p u E C _. destruct (a_open s tr A d p u E C) as (nu & Hu & In). unfold sent, results, f_edge. simpl. unfold pick. destruct (Nat.eqb_spec i u) as [->|]; [|done].
      assert (nu = n) as -> by congruence. by rewrite decide_True.
    + intros j ->%elem_of_list_singleton. split; [by eexists|]. simpl. by destruct Gn.
  - destruct (nodes s !! i) as [n|]; [|done]. destruct (deadb i s || ownedb i s); [done|]. injection H as <- <-.
    apply (a_same s); try done; [|by left|eauto]. intros d Hd. unfold deadb in *. simpl in Hd. rewrite existsb_app in Hd. by apply orb_false_iff in Hd as [Hd _].
Qed.
Lemma ainv_init : ainv init [].
Proof.
  constructor; simpl; try done.
  - by intros j Hj%elem_of_nil.
  - by intros j Hj%elem_of_nil.
  - by intros j b Hj%elem_of_nil.
  - by intros i e _ He%elem_of_nil.
  - by intros d p u (n & H & _).
  - by intros d p u (n & H & _).
Qed.
Lemma ainv_from ls : forall s tr0 s' tr, ainv s tr0 -> run s ls = Some (s', tr) -> ainv s' (tr0 ++ tr).
Proof.
  induction ls as [|l ls IH]; intros s tr0 s' tr A H; simpl in H.
  - injection H as <- <-. by rewrite app_nil_r.
  - destruct (step s l) as [[s1 e1]|] eqn:E; [|done]. destruct (run s1 ls) as [[s2 e2]|] eqn:R; [|done]. injection H as <- <-.
    rewrite app_assoc. eapply IH; [|done]. by eapply ainv_step.
Qed.
Theorem ainv_run ls s tr : run init ls = Some (s, tr) -> ainv s tr.
Proof. intros H. apply (ainv_from ls init [] s tr ainv_init H). Qed.
