(** What the trace of a network says, and what the state says: an invariant. *)
From Coq Require Import List Bool ZArith Lia Arith.
From stdpp Require Import list.
From Verif.Channel Require Import Queue QueueProof Model Sum Inv InvStep InvStep2 InvStep3 InvRun Moves Spec.

(** ** omap over a list that changes *)
Section om.
  Context {A B : Type} (f : A -> option B).
  Definition ol (o : option B) : list B := match o with Some b => [b] | None => [] end.
  Lemma omap_c (a : A) (l : list A) : omap f (a :: l) = ol (f a) ++ omap f l.
  Proof. simpl. by destruct (f a). Qed.
  Lemma omap_ins (l : list A) t x y : l !! t = Some x -> f y = f x -> omap f (<[t := y]> l) = omap f l.
  Proof.
    revert t. induction l as [|a l IH]; intros [|t] H E; try done.
    - injection H as ->. change (omap f (y :: l) = omap f (x :: l)). by rewrite !omap_c, E.
    - change (omap f (a :: <[t := y]> l) = omap f (a :: l)). rewrite !omap_c. f_equal. by apply IH.
  Qed.
  Lemma omap_del (l : list A) t x : l !! t = Some x -> f x = None -> omap f (delete t l) = omap f l.
  Proof.
    revert t. induction l as [|a l IH]; intros [|t] H E; try done.
    - injection H as ->. change (omap f l = omap f (x :: l)). by rewrite omap_c, E.
    - change (omap f (a :: delete t l) = omap f (a :: l)). rewrite !omap_c. f_equal. by apply IH.
  Qed.
  Lemma omap_none (l : list A) : (forall t y, l !! t = Some y -> f y = None) -> omap f l = [].
  Proof.
    induction l as [|a l IH]; intros H; [done|]. rewrite omap_c, (H 0 a) by done. apply IH. intros t y Hy. by apply (H (S t)).
  Qed.
  Lemma omap_ins_one (l : list A) t x y : l !! t = Some x -> (forall t' z, l !! t' = Some z -> t' <> t -> f z = None) -> omap f (<[t := y]> l) = ol (f y).
  Proof.
    revert t. induction l as [|a l IH]; intros [|t] H N; try done.
    - change (omap f (y :: l) = ol (f y)). rewrite omap_c, omap_none, app_nil_r; [done|]. intros t z Hz. by apply (N (S t)).
    - change (omap f (a :: <[t := y]> l) = ol (f y)). rewrite omap_c, (N 0 a) by done. apply (IH t); [done|]. intros t' z Hz D. apply (N (S t')); [done|]. congruence.
  Qed.
  Lemma omap_one (l : list A) t x : l !! t = Some x -> (forall t' z, l !! t' = Some z -> t' <> t -> f z = None) -> omap f l = ol (f x).
  Proof. intros H N. rewrite <- (omap_ins_one l t x x H N). by rewrite list_insert_id. Qed.
  Lemma omap_del_one (l : list A) t x : l !! t = Some x -> (forall t' z, l !! t' = Some z -> t' <> t -> f z = None) -> omap f (delete t l) = [].
  Proof.
    intros H N. apply omap_none. intros t' z Hz. destruct (decide (t' < t)); [rewrite lookup_delete_lt in Hz by done; apply (N t'); [done|lia]|].
    rewrite lookup_delete_ge in Hz by lia. apply (N (S t')); [done|lia].
  Qed.
End om.

(** ** what is on its way *)
(** taken from the queues of i, but not dealt with *)
Definition f_infl (i : nat) (j : nat * pc) : option (list msg) := if fst j =? i then match snd j with JCts _ _ m => m | _ => None end else None.
(** the function of i is being executed *)
Definition f_inv (i : nat) (j : nat * pc) : option (list msg) := if fst j =? i then match snd j with JInvoke ms => Some ms | _ => None end else None.
(** results of i that are not yet sent to e *)
Definition f_edge (i : nat) (e : nat * nat) (j : nat * pc) : option msg :=
  if fst j =? i then match snd j with JSusp o rest _ | JSend o rest => if decide (e ∈ rest) then Some o else None | _ => None end else None.
(** jobs that are going to close i *)
Definition f_fin (i : nat) (j : nat * pc) : nat := if fst j =? i then match snd j with JCts _ _ None | JDone | JFinal => 1 | _ => 0 end else 0.
Definition infl i s := omap (f_infl i) (jobs s).
Definition exec i s := omap (f_inv i) (jobs s).
Definition iedge i e s := omap (f_edge i e) (jobs s).
Definition nfin i s := sumf (f_fin i) (jobs s).

Definition ops (i : nat) (tr : list event) : list qop :=
  omap (fun e => match e with Appended j p m => pick (j =? i) (QA p m) | Popped j _ => pick (j =? i) QT | _ => None end) tr.
Definition popped (i : nat) (tr : list event) : list (list msg) :=
  omap (fun e => match e with Popped j ms => pick (j =? i) ms | _ => None end) tr.
Definition about (i : nat) (e : event) : bool :=
  match e with
  | Attached a d _ => (a =? i) || (d =? i)
  | Appended j _ _ | Popped j _ | Invoke j _ | Refused j _ | Result j _ | Closed j => j =? i
  | Threw | Ub => false
  end.
Lemma apps_ops i p tr : apps p (ops i tr) = sent i p tr.
Proof.
  induction tr as [|e tr IH]; [done|]. unfold ops, sent, apps in *. rewrite !omap_c, omap_app, IH. f_equal. unfold pick.
  destruct e as [|j q m|j ms|j ms|j ms|j o|j| |]; simpl; try done; by destruct (j =? i).
Qed.

Record tinv (s : st) (tr : list event) : Prop := {
  t_none : forall i e, nodes s !! i = None -> e ∈ tr -> about i e = false;
  t_ops : forall i n, nodes s !! i = Some n -> qrun (strat n) (q_new (length (ups n))) (ops i tr) = Some (que n, popped i tr);
  t_hand : forall i, popped i tr = handled i tr ++ infl i s;
  t_res : forall i, length (invoked i tr) = length (results i tr) + length (exec i s);
  t_edge : forall d nd p i, nodes s !! d = Some nd -> ups nd !! p = Some (Some i) ->
    exists tr2, since i d p tr tr2 /\
      (if deadb d s then sent d p tr `prefix_of` results i tr2 else results i tr2 = sent d p tr ++ iedge i (d, p) s) /\
      (forall ni, nodes s !! i = Some ni -> closed i tr = [] -> (d, p) ∈ down ni);
  t_close : forall i n, nodes s !! i = Some n -> if final n then length (closed i tr) + nfin i s = 1 else closed i tr = []
}.

Lemma since_app i d p tr tr2 ev : since i d p tr tr2 -> since i d p (tr ++ ev) (tr2 ++ ev).
Proof. intros [tr1 ->]. exists tr1. by rewrite <- app_assoc. Qed.
Lemma ops_app i t1 t2 : ops i (t1 ++ t2) = ops i t1 ++ ops i t2.
Proof. apply omap_app. Qed.
Lemma popped_app i t1 t2 : popped i (t1 ++ t2) = popped i t1 ++ popped i t2.
Proof. apply omap_app. Qed.
Lemma handled_app i t1 t2 : handled i (t1 ++ t2) = handled i t1 ++ handled i t2.
Proof. apply omap_app. Qed.
Lemma invoked_app i t1 t2 : invoked i (t1 ++ t2) = invoked i t1 ++ invoked i t2.
Proof. apply omap_app. Qed.
Lemma results_app i t1 t2 : results i (t1 ++ t2) = results i t1 ++ results i t2.
Proof. apply omap_app. Qed.
Lemma sent_app i p t1 t2 : sent i p (t1 ++ t2) = sent i p t1 ++ sent i p t2.
Proof. apply omap_app. Qed.
Lemma closed_app i t1 t2 : closed i (t1 ++ t2) = closed i t1 ++ closed i t2.
Proof. apply omap_app. Qed.

(** ** one step *)
Lemma tinv_gen s s' tr ev i n n' : inv s -> tinv s tr -> dead s' = dead s -> nodes s !! i = Some n -> nodes s' = <[i := n']> (nodes s) ->
  (forall e k, e ∈ ev -> k <> i -> about k e = false) ->
  strat n' = strat n -> ups n' = ups n -> qrun (strat n) (que n) (ops i ev) = Some (que n', popped i ev) ->
  (final n' = false -> final n = false /\ closed i ev = []) -> (closed i ev = [] -> down n ⊆ down n') ->
  (final n' = true -> length (closed i ev) + nfin i s' = if final n then nfin i s else 1) ->
  (forall k nk, k <> i -> nodes s !! k = Some nk -> final nk = true -> nfin k s' = nfin k s) ->
  (forall k, infl k s ++ popped k ev = handled k ev ++ infl k s') ->
  (forall k, length (invoked k ev) + length (exec k s) = length (results k ev) + length (exec k s')) ->
  (forall d nd p u, nodes s !! d = Some nd -> ups nd !! p = Some (Some u) -> 
     if deadb d s then sent d p ev = [] else iedge u (d, p) s ++ results u ev = sent d p ev ++ iedge u (d, p) s') -> tinv s' (tr ++ ev).
Proof.
  intros I [Tn To Th Tr Te Tc] D Hn Hs Hev E1 E2 Q Fi0 Fd Fi1 Fk F1 F2 F3.
  assert (i < length (nodes s)) as Li by (by eapply lookup_lt_Some).
  assert (forall k, nodes s' !! k = None -> nodes s !! k = None) as X. { intros k. rewrite Hs, !lookup_ge_None, insert_length. lia. }
  assert (forall d, deadb d s' = deadb d s) as D' by (intros d; unfold deadb; by rewrite D).
  assert (forall k, k <> i -> ops k ev = [] /\ popped k ev = [] /\ closed k ev = []) as Z.
  { intros k Nk. unfold ops, popped, closed. repeat split; apply omap_none; intros t e He; apply elem_of_list_lookup_2 in He; specialize (Hev e k He Nk);
      destruct e; simpl in *; try done; by rewrite Hev. }
  assert (forall k nk, nodes s' !! k = Some nk -> k = i /\ nk = n' \/ k <> i /\ nodes s !! k = Some nk) as W.
  { intros k nk H. rewrite Hs in H. apply list_lookup_insert_Some in H as [(-> & <- & _)|(Nk & H)]; [auto|]. right. done. }
  constructor.
  - intros k e Hk He. apply X in Hk. apply elem_of_app in He as [He|He]; [by apply Tn|]. apply Hev; [done|]. intros ->. congruence.
  - intros k nk Hk. rewrite ops_app, popped_app. apply W in Hk as [(-> & ->)|(Nk & Hk)].
    + rewrite E1, E2. apply qrun_app. exists (que n), (popped i tr), (popped i ev). auto.
    + destruct (Z k Nk) as (-> & -> & _). rewrite !app_nil_r. auto.
  - intros k. rewrite popped_app, handled_app, Th, <- !app_assoc. f_equal. apply F1.
  - intros k. rewrite invoked_app, results_app, !app_length, Tr. pose proof (F2 k). lia.
  - intros d nd p u Hd Hp.
    assert (exists nd0, nodes s !! d = Some nd0 /\ ups nd0 !! p = Some (Some u)) as (nd0 & Hd0 & Hp0).
    { apply W in Hd as [(-> & ->)|(Nk & Hd)]; [|by exists nd]. exists n. split; [done|]. congruence. }
    destruct (Te d nd0 p u Hd0 Hp0) as (tr2 & S & R & Dn). exists (tr2 ++ ev). split; [by apply since_app|].
    rewrite D', sent_app, results_app. specialize (F3 d nd0 p u Hd0 Hp0). split.
    + destruct (deadb d s); [|by rewrite R, <- !app_assoc, F3]. rewrite F3, app_nil_r. by apply prefix_app_r.
    + intros nu Hu Cu. rewrite closed_app in Cu. apply app_eq_nil in Cu as [Cu Ce]. apply W in Hu as [(-> & ->)|(Nk & Hu)]; [|by eapply Dn]. apply (Fd Ce). by eapply Dn.
  - intros k nk Hk. rewrite closed_app, app_length. apply W in Hk as [(-> & ->)|(Nk & Hk)].
    + specialize (Tc i n Hn). destruct (final n') eqn:F.
      * specialize (Fi1 eq_refl). destruct (final n); [lia|]. rewrite Tc. simpl. lia.
      * destruct (Fi0 eq_refl) as (F' & ->). rewrite F' in Tc. by rewrite Tc.
    + destruct (Z k Nk) as (_ & _ & ->). rewrite app_nil_r. specialize (Tc k nk Hk). destruct (final nk) eqn:F; [|done]. rewrite (Fk k nk); simpl; [lia|done..].
Qed.

(** ** jobs *)
Definition js (b : bool) (d : nat) : list (nat * pc) := if b then [(d, JPend)] else [].
Lemma om_set {B} (f : nat * pc -> option B) (l : list (nat * pc)) t x y b d : (forall k, f (k, JPend) = None) -> l !! t = Some x -> f y = f x ->
  omap f (<[t := y]> (l ++ js b d)) = omap f l.
Proof.
  intros N H E. rewrite (omap_ins f _ t x); [|by apply lookup_app_l_Some|done]. rewrite omap_app. destruct b; simpl; [|apply app_nil_r]. rewrite N. apply app_nil_r.
Qed.
Lemma om_del {B} (f : nat * pc -> option B) (l : list (nat * pc)) t x b d : (forall k, f (k, JPend) = None) -> l !! t = Some x -> f x = None ->
  omap f (delete t (l ++ js b d)) = omap f l.
Proof.
  intros N H E. rewrite (omap_del f _ t x); [|by apply lookup_app_l_Some|done]. rewrite omap_app. destruct b; simpl; [|apply app_nil_r]. rewrite N. apply app_nil_r.
Qed.
Lemma om_run {B} (f : nat * pc -> option B) (l : list (nat * pc)) b d : (forall k, f (k, JPend) = None) -> omap f (l ++ js b d) = omap f l.
Proof. intros N. rewrite omap_app. destruct b; simpl; [|apply app_nil_r]. rewrite N. apply app_nil_r. Qed.
Lemma sf_set (f : nat * pc -> nat) (l : list (nat * pc)) t x y b d : (forall k, f (k, JPend) = 0) -> l !! t = Some x ->
  sumf f (<[t := y]> (l ++ js b d)) + f x = sumf f l + f y.
Proof.
  intros N H. rewrite (sumf_insert f _ t x); [|by apply lookup_app_l_Some]. rewrite sumf_app. destruct b; simpl; [|lia]. rewrite N. lia.
Qed.
Lemma sf_del (f : nat * pc -> nat) (l : list (nat * pc)) t x b d : (forall k, f (k, JPend) = 0) -> l !! t = Some x ->
  sumf f (delete t (l ++ js b d)) + f x = sumf f l.
Proof.
  intros N H. rewrite (sumf_delete f _ t x); [|by apply lookup_app_l_Some]. rewrite sumf_app. destruct b; simpl; [|lia]. rewrite N. lia.
Qed.
Lemma sf_run (f : nat * pc -> nat) (l : list (nat * pc)) b d : (forall k, f (k, JPend) = 0) -> sumf f (l ++ js b d) = sumf f l.
Proof. intros N. rewrite sumf_app. destruct b; simpl; [|lia]. rewrite N. lia. Qed.
Lemma infl_pend k i : f_infl k (i, JPend) = None.
Proof. unfold f_infl. simpl. by destruct (i =? k). Qed.
Lemma inv_pend k i : f_inv k (i, JPend) = None.
Proof. unfold f_inv. simpl. by destruct (i =? k). Qed.
Lemma edge_pend k e i : f_edge k e (i, JPend) = None.
Proof. unfold f_edge. simpl. by destruct (i =? k). Qed.
Lemma fin_pend k i : f_fin k (i, JPend) = 0.
Proof. unfold f_fin. simpl. by destruct (i =? k). Qed.

(** what is on its way stays as it is *)
Definition jq (s s' : st) : Prop :=
  (forall k, infl k s' = infl k s) /\ (forall k, exec k s' = exec k s) /\ (forall k, nfin k s' = nfin k s) /\
  (forall k e, deadb e.1 s = false -> iedge k e s' = iedge k e s).
Lemma jq_set s s' t i p p' b c : jobs s !! t = Some (i, p) -> jobs s' = <[t := (i, p')]> (jobs s ++ js b c) ->
  (forall k, f_infl k (i, p') = f_infl k (i, p)) -> (forall k, f_inv k (i, p') = f_inv k (i, p)) -> (forall k, f_fin k (i, p') = f_fin k (i, p)) ->
  (forall k e, deadb e.1 s = false -> f_edge k e (i, p') = f_edge k e (i, p)) -> jq s s'.
Proof.
  intros Ht Hj G1 G2 G3 G4. unfold jq, infl, exec, nfin, iedge. rewrite Hj. repeat split.
  - intros k. by apply (om_set _ _ _ _ _ _ _ (infl_pend k) Ht).
  - intros k. by apply (om_set _ _ _ _ _ _ _ (inv_pend k) Ht).
  - intros k. pose proof (sf_set (f_fin k) _ _ _ (i, p') b c (fin_pend k) Ht). rewrite G3 in *. lia.
  - intros k e De. apply (om_set _ _ _ _ _ _ _ (edge_pend k e) Ht). auto.
Qed.
Lemma jq_del s s' t i p b c : jobs s !! t = Some (i, p) -> jobs s' = delete t (jobs s ++ js b c) ->
  (forall k, f_infl k (i, p) = None) -> (forall k, f_inv k (i, p) = None) -> (forall k, f_fin k (i, p) = 0) ->
  (forall k e, deadb e.1 s = false -> f_edge k e (i, p) = None) -> jq s s'.
Proof.
  intros Ht Hj G1 G2 G3 G4. unfold jq, infl, exec, nfin, iedge. rewrite Hj. repeat split.
  - intros k. by apply (om_del _ _ _ _ _ _ (infl_pend k) Ht).
  - intros k. by apply (om_del _ _ _ _ _ _ (inv_pend k) Ht).
  - intros k. pose proof (sf_del (f_fin k) _ _ _ b c (fin_pend k) Ht). rewrite G3 in *. lia.
  - intros k e De. apply (om_del _ _ _ _ _ _ (edge_pend k e) Ht). auto.
Qed.
Lemma jq_run s s' b c : jobs s' = jobs s ++ js b c -> jq s s'.
Proof.
  intros Hj. unfold jq, infl, exec, nfin, iedge. rewrite Hj. repeat split; intros.
  - by apply om_run, infl_pend.
  - by apply om_run, inv_pend.
  - by apply sf_run, fin_pend.
  - by apply om_run, edge_pend.
Qed.
(** a step of which no event is recorded, that leaves what is on its way as it is *)
Lemma tinv_quiet s s' tr d n n' : inv s -> tinv s tr -> dead s' = dead s -> nodes s !! d = Some n -> nodes s' = <[d := n']> (nodes s) ->
  strat n' = strat n -> ups n' = ups n -> que n' = que n -> final n' = final n -> down n' = down n -> jq s s' -> tinv s' (tr ++ []).
Proof.
  intros I T D Hd Hs E1 E2 E3 E4 E5 (G1 & G2 & G3 & G4).
  eapply (tinv_gen s s' tr [] d n n'); try done.
  - by intros e k He%elem_of_nil.
  - simpl. by rewrite E3.
  - intros F. split; [congruence|done].
  - intros _. by rewrite E5.
  - intros F. simpl. rewrite G3. by rewrite <- E4, F.
  - intros k. simpl. by rewrite app_nil_r.
  - intros k. simpl. by rewrite G2.
  - intros d' nd q u Hd' Hq. destruct (deadb d' s) eqn:De; [done|]. simpl. rewrite app_nil_r. symmetry. by apply G4.
Qed.
Lemma tinv_quiet0 s s' tr d n : inv s -> tinv s tr -> dead s' = dead s -> nodes s !! d = Some n -> nodes s' = nodes s -> jq s s' -> tinv s' (tr ++ []).
Proof. intros I T D Hd Hs J. apply (tinv_quiet s s' tr d n n); try done. by rewrite Hs, list_insert_id. Qed.
Lemma tinv_nodes s s' tr : tinv s tr -> nodes s' = nodes s -> jobs s' = jobs s -> dead s' = dead s -> tinv s' tr.
Proof.
  intros [] N J D. assert (forall k, deadb k s' = deadb k s) as D' by (intros k; unfold deadb; by rewrite D).
  constructor; unfold infl, exec, iedge, nfin in *; rewrite ?N, ?J; try done.
  intros d nd p i Hd Hp. rewrite D'. by apply (t_edge0 d nd).
Qed.
Lemma tinv_threw s tr : tinv s tr -> tinv s (tr ++ [Threw]).
Proof.
  intros []. constructor.
  - intros i e Hi He. apply elem_of_app in He as [He|He%elem_of_list_singleton]; [by apply t_none0|by subst].
  - intros i n Hi. rewrite ops_app, popped_app. simpl. rewrite !app_nil_r. auto.
  - intros i. rewrite handled_app, popped_app. simpl. rewrite !app_nil_r. auto.
  - intros i. rewrite invoked_app, results_app. simpl. rewrite !app_nil_r. auto.
  - intros d nd p i Hd Hp. destruct (t_edge0 d nd p i Hd Hp) as (tr2 & S & R & Dn). exists (tr2 ++ [Threw]). split; [by apply since_app|].
    rewrite sent_app, results_app, closed_app. simpl. by rewrite !app_nil_r.
  - intros i n Hi. rewrite closed_app. simpl. rewrite app_nil_r. by apply t_close0.
Qed.
