(** Networks with any buffer sizes: what the trace and the state say about each other. *)
From Coq Require Import List Bool ZArith Lia Arith.
From stdpp Require Import list.
From Verif.Channel Require Import Queue QueueProof Model Sum Inv InvStep InvStep2 InvStep3 InvRun Moves Spec Trace.

(** port p of d is attached to u *)
Definition edge (s : st) (u : nat) (e : nat * nat) : Prop := exists nd, nodes s !! e.1 = Some nd /\ ups nd !! e.2 = Some (Some u).
Definition jgood (s : st) (j : nat * pc) : Prop :=
  is_Some (nodes s !! j.1) /\ match j.2 with JSusp _ rest _ | JSend _ rest => NoDup rest /\ forall e, e ∈ rest -> edge s j.1 e | _ => True end.
Record ngood (s : st) (i : nat) (n : node) : Prop := {
  g_ports : length (qs (que n)) = length (ups n);
  g_pos : ups n <> [];
  g_def : strat n = Default -> length (ups n) = 1;
  g_ups : forall p u, ups n !! p = Some (Some u) -> u < i;
  g_down : forall e, e ∈ down n -> edge s i e;
  g_nodup : NoDup (down n)
}.
Record ainv (s : st) (tr : list event) : Prop := {
  a_node : forall i n, nodes s !! i = Some n -> ngood s i n;
  a_job : forall j, j ∈ jobs s -> jgood s j;
  a_snd : forall i, i ∈ snd_h s -> exists n, nodes s !! i = Some n /\ ups n = [None];
  a_rcv : forall i b, (i, b) ∈ rcv_h s -> is_Some (nodes s !! i);
  a_none : forall i e, nodes s !! i = None -> e ∈ tr -> about i e = false;
  a_ops : forall i n, nodes s !! i = Some n -> qrun (strat n) (q_new (length (ups n))) (ops i tr) = Some (que n, popped i tr);
  a_hand : forall i, popped i tr ≡ₚ handled i tr ++ infl i s;
  a_res : forall i, length (invoked i tr) = length (results i tr) + length (exec i s);
  a_edge : forall d p u, edge s u (d, p) -> exists tr2, since u d p tr tr2 /\ sent d p tr ++ iedge u (d, p) s ⊆+ results u tr2
}.

Lemma omap_perm {A B} (f : A -> option B) (l k : list A) : l ≡ₚ k -> omap f l ≡ₚ omap f k.
Proof.
  induction 1 as [|x l k _ IH|x y l|l1 l2 l3 _ IH1 _ IH2]; [done| | |by etrans].
  - rewrite !omap_c. by rewrite IH.
  - rewrite !omap_c. rewrite !app_assoc. apply Permutation_app_tail, Permutation_app_comm.
Qed.
Lemma jobs_at {A} (l : list A) t x : l !! t = Some x -> l ≡ₚ [x] ++ delete t l.
Proof. intros H. simpl. by apply delete_Permutation. Qed.
Lemma jobs_set {A} (l k : list A) t x y : l !! t = Some x -> <[t := y]> l ++ k ≡ₚ ([y] ++ k) ++ delete t l.
Proof.
  intros H. assert (<[t := y]> l ≡ₚ y :: delete t l) as ->; [|simpl; by rewrite (Permutation_app_comm k)].
  rewrite (delete_Permutation (<[t := y]> l) t y) by (apply list_lookup_insert; by eapply lookup_lt_Some). f_equiv.
  clear. revert t. induction l as [|a l IH]; intros [|t]; simpl; try done. by rewrite IH.
Qed.

(** one process changes, jobs xs become ys *)
Lemma a_step s s' tr ev i n n' xs ys R : ainv s tr -> nodes s !! i = Some n -> nodes s' = <[i := n']> (nodes s) -> strat n' = strat n -> ups n' = ups n ->
  NoDup (down n') -> down n' ⊆ down n -> qrun (strat n) (que n) (ops i ev) = Some (que n', popped i ev) ->
  (forall e k, e ∈ ev -> k <> i -> about k e = false) -> jobs s ≡ₚ xs ++ R -> jobs s' ≡ₚ ys ++ R ->
  (forall k, popped k ev ++ omap (f_infl k) xs ≡ₚ handled k ev ++ omap (f_infl k) ys) ->
  (forall k, length (invoked k ev) + length (omap (f_inv k) xs) = length (results k ev) + length (omap (f_inv k) ys)) ->
  (forall d p u, edge s u (d, p) -> sent d p ev ++ omap (f_edge u (d, p)) ys ⊆+ omap (f_edge u (d, p)) xs ++ results u ev) ->
  (forall j, j ∈ ys -> jgood s j) -> (forall k, k ∈ snd_h s' -> k ∈ snd_h s) -> (forall k b, (k, b) ∈ rcv_h s' -> exists b', (k, b') ∈ rcv_h s) ->
  ainv s' (tr ++ ev).
Proof.
  intros [An Aj As Ar Ao Aq Ah Ae Ad] Hn Hs E1 E2 ND Sub Q Hev Jx Jy F1 F2 F3 Gy Ss Rs.
  assert (i < length (nodes s)) as Li by (by eapply lookup_lt_Some).
  assert (forall k nk, nodes s' !! k = Some nk -> k = i /\ nk = n' \/ k <> i /\ nodes s !! k = Some nk) as W.
  { intros k nk H. rewrite Hs in H. apply list_lookup_insert_Some in H as [(-> & <- & _)|(Nk & H)]; [auto|]. right. done. }
  assert (forall k nk, nodes s !! k = Some nk -> exists nk', nodes s' !! k = Some nk' /\ ups nk' = ups nk) as W'.
  { intros k nk H. rewrite Hs. destruct (decide (i = k)) as [->|N]; [rewrite list_lookup_insert by done; exists n'; split; [done|congruence]|]. rewrite list_lookup_insert_ne by done. eauto. }
  assert (forall u e, edge s u e <-> edge s' u e) as Ed.
  { intros u e. split; intros (nd & Hd & Hu).
    - apply W' in Hd as (nd' & Hd' & E). exists nd'. split; [done|congruence].
    - apply W in Hd as [(Hd & ->)|(_ & Hd)]; [exists n; rewrite Hd; split; [done|congruence]|by exists nd]. }
  assert (forall j, jgood s j -> jgood s' j) as Jg.
  { intros j [[nj Hj] G]. split; [apply W' in Hj as (nj' & -> & _); by eexists|]. destruct (j.2); try done; destruct G as [G1 G2]; (split; [done|]); intros e He; by apply Ed, G2. }
  assert (forall k, k <> i -> ops k ev = [] /\ popped k ev = []) as Z.
  { intros k Nk. unfold ops, popped. split; apply omap_none; intros t e He; apply elem_of_list_lookup_2 in He; specialize (Hev e k He Nk);
      destruct e; simpl in *; try done; by rewrite Hev. }
  assert (forall {B} (f : nat * pc -> option B), omap f (jobs s) ≡ₚ omap f xs ++ omap f R /\ omap f (jobs s') ≡ₚ omap f ys ++ omap f R) as Om.
  { intros B f. rewrite <- !omap_app. split; by apply omap_perm. }
  constructor.
  - intros k nk Hk. assert (exists n0, nodes s !! k = Some n0 /\ ups nk = ups n0 /\ strat nk = strat n0 /\ length (qs (que nk)) = length (qs (que n0)) /\ down nk ⊆ down n0 /\ NoDup (down nk)) as (n0 & H0 & U0 & S0 & Q0 & D0 & N0).
    { apply W in Hk as [(-> & ->)|(Nk & Hk)]; [|exists nk; repeat split; try done; by destruct (An k nk Hk)]. exists n. repeat split; try done. by eapply qrun_length. }
    destruct (An k n0 H0). constructor; try congruence.
    + rewrite U0, S0. apply g_def0.
    + intros p u. rewrite U0. apply g_ups0.
    + intros e He. apply Ed, g_down0, D0, He.
  - intros j Hj. rewrite Jy in Hj. apply elem_of_app in Hj as [Hj|Hj]; apply Jg; [by apply Gy|]. apply Aj. rewrite Jx. apply elem_of_app. by right.
  - intros k Hk. apply Ss, As in Hk as (nk & Hk & Uk). apply W' in Hk as (nk' & Hk & E). exists nk'. split; [done|congruence].
  - intros k b Hk. apply Rs in Hk as [b' Hk]. apply Ar in Hk as [nk Hk]. apply W' in Hk as (nk' & -> & _). by eexists.
  - intros k e Hk He. assert (nodes s !! k = None) as Hk'. { revert Hk. rewrite Hs, !lookup_ge_None, insert_length. lia. }
    apply elem_of_app in He as [He|He]; [by apply Ao|]. apply Hev; [done|]. intros ->. congruence.
  - intros k nk Hk. rewrite ops_app, popped_app. apply W in Hk as [(-> & ->)|(Nk & Hk)].
    + rewrite E1, E2. apply qrun_app. exists (que n), (popped i tr), (popped i ev). auto.
    + destruct (Z k Nk) as (-> & ->). rewrite !app_nil_r. auto.
  - intros k. destruct (Om _ (f_infl k)) as [O1 O2]. rewrite popped_app, handled_app, Ah. unfold infl. rewrite O1, O2.
    specialize (F1 k). rewrite <- !app_assoc. apply Permutation_app_head.
    trans ((popped k ev ++ omap (f_infl k) xs) ++ omap (f_infl k) R); [|by rewrite F1, <- app_assoc].
    rewrite app_assoc, (Permutation_app_comm (_ ++ _) (popped k ev)), app_assoc. done.
  - intros k. destruct (Om _ (f_inv k)) as [O1 O2]. specialize (Ae k). unfold exec in *. apply Permutation_length in O1, O2. rewrite app_length in O1, O2.
    rewrite invoked_app, results_app, !app_length. specialize (F2 k). lia.
  - intros d p u He. apply Ed in He. destruct (Ad d p u He) as (tr2 & Si & Su). exists (tr2 ++ ev). split; [by apply since_app|].
    destruct (Om _ (f_edge u (d, p))) as [O1 O2]. unfold iedge in *. rewrite O1 in Su. rewrite O2, sent_app, results_app. specialize (F3 d p u He).
    trans ((sent d p tr ++ omap (f_edge u (d, p)) R) ++ (sent d p ev ++ omap (f_edge u (d, p)) ys)).
    { apply Permutation_submseteq. rewrite <- !app_assoc. apply Permutation_app_head. rewrite (Permutation_app_comm (omap (f_edge u (d, p)) ys)), !app_assoc.
      apply Permutation_app_tail, Permutation_app_comm. }
    trans ((sent d p tr ++ omap (f_edge u (d, p)) R) ++ (omap (f_edge u (d, p)) xs ++ results u ev)); [by apply submseteq_skips_l|].
    rewrite app_assoc. apply submseteq_skips_r. etrans; [|exact Su]. apply Permutation_submseteq. rewrite <- app_assoc. apply Permutation_app_head, Permutation_app_comm.
Qed.
(** only jobs change *)
Lemma a_jobs s s' tr ev i xs ys R : ainv s tr -> is_Some (nodes s !! i) -> nodes s' = nodes s -> snd_h s' = snd_h s -> rcv_h s' = rcv_h s -> ops i ev = [] -> popped i ev = [] ->
  (forall e k, e ∈ ev -> k <> i -> about k e = false) -> jobs s ≡ₚ xs ++ R -> jobs s' ≡ₚ ys ++ R ->
  (forall k, popped k ev ++ omap (f_infl k) xs ≡ₚ handled k ev ++ omap (f_infl k) ys) ->
  (forall k, length (invoked k ev) + length (omap (f_inv k) xs) = length (results k ev) + length (omap (f_inv k) ys)) ->
  (forall d p u, edge s u (d, p) -> sent d p ev ++ omap (f_edge u (d, p)) ys ⊆+ omap (f_edge u (d, p)) xs ++ results u ev) ->
  (forall j, j ∈ ys -> jgood s j) -> ainv s' (tr ++ ev).
Proof.
  intros A [n Hn] Hs Sn Rc Oe Pe. intros. apply (a_step s s' tr ev i n n xs ys R); try done.
  - by rewrite Hs, list_insert_id.
  - by destruct (a_node s tr A i n Hn).
  - by rewrite Oe, Pe.
  - by rewrite Sn.
  - rewrite Rc. eauto.
Qed.
