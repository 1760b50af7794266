From Coq Require Import List Bool Arith Lia.
From stdpp Require Import list list_numbers.
From Verif.Scope Require Import Model Spec.

Lemma run_ind (P : sys -> list (nat * event) -> Prop) s0 : P s0 [] ->
  (forall s tr i s' e, P s tr -> step s i = Some (s', e) -> P s' (tr ++ e)) ->
  forall is s tr, run s0 is = Some (s, tr) -> P s tr.
Proof.
  intros P0 PS is s tr R.
  assert (G : forall is s1 tr1 s tr, P s1 tr1 -> run s1 is = Some (s, tr) -> P s (tr1 ++ tr)); [|by apply (G is s0 [])].
  clear R P0 s tr is. induction is as [|i is IH]; intros s1 tr1 s tr H R; simplify_eq/=; [by rewrite app_nil_r|].
  destruct (step s1 i) as [[s2 e]|] eqn:E; [|done].
  destruct (run s2 is) as [[s3 e3]|] eqn:E3; [|done]. simplify_eq. rewrite app_assoc. eapply IH; [|done]. by eapply PS.
Qed.
Lemma step_inv s i s' e : step s i = Some (s', e) -> exists t t' l, s !! i = Some t /\ thread_step s t = Some (t', l) /\
  s' = <[i := t']> s /\ e = map (pair i) l.
Proof. unfold step. intros H. destruct (s !! i) as [t|] eqn:E; [|done]. destruct (thread_step s t) as [[t' l]|] eqn:T; [|done]. simplify_eq. by exists t, t', l. Qed.

Lemma init_lookup cs i c : cs !! i = Some c -> init cs !! i = Some (Thread c []).
Proof. intros H. unfold init. etrans; [exact (list_lookup_fmap (fun c => Thread c []) cs i)|]. by rewrite H. Qed.

(** ** what is still to come *)
Fixpoint unwind (r : outcome) (fs : list (nat * (outcome -> cmd))) : list event * outcome :=
  match fs with
  | [] => ([], r)
  | (m, k) :: fs => let '(l1, r1) := alone (k r) in let '(l2, r2) := unwind r1 fs in (Leave m :: l1 ++ l2, r2)
  end.
Definition future (t : thread) : list event * outcome :=
  let '(l, r) := alone (now t) in let '(l2, r2) := unwind r (frames t) in (l ++ l2, r2).
Lemma future_step s t t' l : thread_step s t = Some (t', l) -> future t = (l ++ (future t').1, (future t').2).
Proof.
  unfold thread_step, future. destruct t as [c fs]. cbn. intros H. destruct c as [r|a c|m [e|] f k]; cbn in *.
  - destruct fs as [|[m k] fs]; [done|]. simplify_eq/=. destruct (alone (k r)) as [l1 r1]. by destruct (unwind r1 fs).
  - simplify_eq/=. destruct (alone c) as [l1 r1]. by destruct (unwind r1 fs).
  - simplify_eq/=. destruct (alone (k (Thrown e))) as [l1 r1]. by destruct (unwind r1 fs).
  - destruct (locked s m); [done|]. simplify_eq/=. destruct (alone f) as [l1 r1]. cbn. destruct (alone (k r1)) as [l2 r2].
    destruct (unwind r2 fs) as [l3 r3]. cbn. by rewrite <- !app_assoc.
Qed.
Lemma by_app i a b : by_thread i (a ++ b) = by_thread i a ++ by_thread i b.
Proof. apply flat_map_app. Qed.
Lemma by_same i l : by_thread i (map (pair i) l) = l.
Proof. induction l as [|x l IH]; [done|]. unfold by_thread in *. cbn. by rewrite Nat.eqb_refl, IH. Qed.
Lemma by_other i j l : i <> j -> by_thread i (map (pair j) l) = [].
Proof. intros N. induction l as [|x l IH]; [done|]. unfold by_thread in *. cbn. rewrite IH. by destruct (Nat.eqb_spec j i); [lia|]. Qed.
Lemma follows cs is s tr : run (init cs) is = Some (s, tr) ->
  length s = length cs /\ forall i c, cs !! i = Some c -> exists t, s !! i = Some t /\ alone c = (by_thread i tr ++ (future t).1, (future t).2).
Proof.
  revert is s tr. apply run_ind.
  - split; [by unfold init; rewrite map_length|]. intros i c H. exists (Thread c []). split; [by apply init_lookup|].
    unfold future. cbn. destruct (alone c). cbn. by rewrite app_nil_r.
  - intros s tr i s' e [L IH] (t & t' & l & Ht & T & -> & ->)%step_inv. split; [by rewrite insert_length|]. intros j c Hj.
    destruct (IH j c Hj) as (u & Hu & E). rewrite by_app. destruct (decide (i = j)) as [<-|N].
    + simplify_eq. exists t'. split; [apply list_lookup_insert; by eapply lookup_lt_Some|].
      rewrite by_same, E, (future_step _ _ _ _ T). cbn. by rewrite <- app_assoc.
    + exists u. split; [by rewrite list_lookup_insert_ne|]. by rewrite by_other, app_nil_r by done.
Qed.

(** ** exclusion *)
Definition has (s : sys) (i m : nat) : Prop := exists t k, s !! i = Some t /\ (m, k) ∈ frames t.
Lemma has_locked s i m : has s i m -> locked s m = true.
Proof.
  intros (t & k & Ht & Hk). apply existsb_exists. exists t. split; [by apply elem_of_list_In; eapply elem_of_list_lookup_2|].
  apply existsb_exists. exists (m, k). split; [by apply elem_of_list_In|]. apply Nat.eqb_refl.
Qed.
Definition open (s : sys) (tr : list (nat * event)) : Prop :=
  forall t1 i m t2, tr = t1 ++ (i, Enter m) :: t2 -> (i, Leave m) ∈ t2 \/ has s i m.
Lemma snoc_split {A} (a : list A) x b (l : list A) y : l ++ [x] = a ++ y :: b -> (b = [] /\ a = l /\ x = y) \/ exists b', b = b' ++ [x] /\ l = a ++ y :: b'.
Proof.
  destruct b as [|z b _] using rev_ind; intros H.
  - left. apply app_inj_tail in H as [-> ->]. done.
  - right. exists b. rewrite app_comm_cons, app_assoc in H. apply app_inj_tail in H as [-> ->]. done.
Qed.
Lemma has_step s i t t' l j m : s !! i = Some t -> thread_step s t = Some (t', l) -> has s j m -> (i = j /\ l = [Leave m]) \/ has (<[i := t']> s) j m.
Proof.
  intros Ht T (u & k & Hu & Hk). destruct (decide (i = j)) as [<-|N].
  2:{ right. exists u, k. by rewrite list_lookup_insert_ne. }
  simplify_eq. unfold has. rewrite list_lookup_insert by (by eapply lookup_lt_Some).
  destruct t as [c fs]. unfold thread_step in T. cbn in *. destruct c as [r|a c|n [e|] f h]; cbn in *.
  - destruct fs as [|[n h] fs]; [done|]. simplify_eq. apply elem_of_cons in Hk as [?|Hk]; [left; by simplify_eq|]. right. eauto.
  - simplify_eq. right. eexists _, _; split; [done|]. done.
  - simplify_eq. right. eexists _, _; split; [done|]. done.
  - destruct (locked s n); [done|]. simplify_eq. right. eexists _, k. split; [done|]. cbn. by right.
Qed.
Lemma step_events s t t' l : thread_step s t = Some (t', l) -> l = [] \/ (exists x, l = [x] /\ (forall m, x = Enter m -> locked s m = false /\ exists k, (m, k) ∈ frames t')).
Proof.
  destruct t as [c fs]. unfold thread_step. cbn. destruct c as [r|a c|n [e|] f h].
  - destruct fs as [|[n h] fs]; [done|]. intros; simplify_eq. right. by eexists.
  - intros; simplify_eq. right. by eexists.
  - intros; simplify_eq. by left.
  - destruct (locked s n) eqn:L; [done|]. intros; simplify_eq. right. eexists. split; [done|]. intros m [= <-]. split; [done|]. exists h. by left.
Qed.
Lemma excl cs is s tr : run (init cs) is = Some (s, tr) -> open s tr /\ exclusive tr.
Proof.
  revert is s tr. apply run_ind.
  - split; intros t1 ** ; by destruct t1.
  - intros s tr i s' e [O X] (t & t' & l & Ht & T & -> & ->)%step_inv.
    assert (K : forall t1 j m t2, tr = t1 ++ (j, Enter m) :: t2 -> (j, Leave m) ∈ t2 ++ map (pair i) l \/ has (<[i:=t']> s) j m).
    { intros t1 j m t2 E. destruct (O _ _ _ _ E) as [|H]; [left; apply elem_of_app; by left|].
      destruct (has_step _ _ _ _ _ _ _ Ht T H) as [[-> ->]|]; [|by right]. left. apply elem_of_app. right. by left. }
    destruct (step_events _ _ _ _ T) as [->|(x & -> & Hx)]; cbn in *.
    { rewrite app_nil_r. split; [|done]. intros t1 j m t2 E. destruct (K _ _ _ _ E) as [H|]; [|by right]. rewrite app_nil_r in H. by left. }
    split.
    + intros t1 j m t2 [(-> & -> & [= <- ->])|(b & -> & ->)]%snoc_split.
      * right. destruct (Hx _ eq_refl) as [_ [k Hk]]. exists t', k. split; [|done]. apply list_lookup_insert. by eapply lookup_lt_Some.
      * by apply (K t1).
    + intros t1 j m t2 n t3 E. rewrite app_comm_cons, app_assoc in E. apply snoc_split in E as [(-> & <- & [= <- ->])|(b & -> & ->)].
      * destruct (O _ _ _ _ eq_refl) as [|H]; [done|]. apply has_locked in H. destruct (Hx _ eq_refl) as [F _]. congruence.
      * eapply (X t1 j m t2 n b). by rewrite <- app_assoc.
Qed.

(** ** deadlock *)
Fixpoint ordered (low : nat) (fs : list (nat * (outcome -> cmd))) : Prop :=
  match fs with
  | [] => True
  | (m, k) :: fs => m < low /\ exists low', low' <= m /\ (forall r, rising low' (k r)) /\ ordered low' fs
  end.
Definition orderly (t : thread) : Prop := exists low, ordered low (frames t) /\ rising low (now t).
Lemma orderly_step s t t' l : orderly t -> thread_step s t = Some (t', l) -> orderly t'.
Proof.
  destruct t as [c fs]. intros (low & O & R). unfold thread_step. cbn in *. destruct c as [r|a c|n [e|] f h]; cbn in *.
  - destruct fs as [|[n h] fs]; [done|]. intros; simplify_eq. destruct O as (_ & low' & _ & H & O). exists low'. split; [exact O|apply H].
  - intros; simplify_eq. exists low. by split.
  - intros; simplify_eq. exists low. split; [exact O|apply R].
  - destruct (locked s n) eqn:L; [done|]. intros; simplify_eq. destruct R as (L1 & R1 & R2). exists (S n). split; [|done]. cbn. split; [lia|]. exists low. by split.
Qed.
Lemma orderly_run cs is s tr : Forall (rising 0) cs -> run (init cs) is = Some (s, tr) -> Forall orderly s.
Proof.
  intros F. revert is s tr. apply run_ind.
  - unfold init. apply Forall_fmap. eapply Forall_impl; [exact F|]. intros c H. by exists 0.
  - intros s tr i s' e IH (t & t' & l & Ht & T & -> & ->)%step_inv. apply Forall_insert; [done|]. eapply orderly_step; [|done].
    by eapply Forall_lookup in IH.
Qed.
Lemma ordered_lt low fs m k : ordered low fs -> (m, k) ∈ fs -> m < low.
Proof.
  revert low. induction fs as [|[n h] fs IH]; intros low O H; [by apply elem_of_nil in H|]. cbn in O. destruct O as (L & low' & L' & _ & O).
  apply elem_of_cons in H as [?|H]; [by simplify_eq|]. specialize (IH _ O H). lia.
Qed.
Lemma stuck s t : thread_step s t = None -> (exists r, ended t r) \/ exists m f k, now t = Scope m None f k /\ locked s m = true.
Proof.
  destruct t as [c fs]. unfold thread_step, ended. cbn. destruct c as [r|a c|n [e|] f h]; try done.
  - destruct fs as [|[m k] fs]; [|done]. left. by exists r.
  - destruct (locked s n) eqn:L; [|done]. right. by exists n, f, h.
Qed.
Definition wants (t : thread) : nat := match now t with Scope m None _ _ => m | _ => 0 end.
Lemma progress s : Forall orderly s -> (forall i, step s i = None) -> Forall (fun t => exists r, ended t r) s.
Proof.
  intros O N.
  assert (S : forall i t, s !! i = Some t -> thread_step s t = None).
  { intros i t H. specialize (N i). unfold step in N. rewrite H in N. by destruct (thread_step s t) as [[]|]. }
  assert (B : forall t, t ∈ s -> wants t <= max_list (map wants s)).
  { intros t H. apply max_list_elem_of_le, elem_of_list_fmap. by exists t. }
  assert (X : forall n t m f k, t ∈ s -> now t = Scope m None f k -> locked s m = true -> max_list (map wants s) - m < n -> False).
  { induction n as [|n IH]; intros t m f k Ht E L Hn; [lia|].
    apply existsb_exists in L as (u & Hu%elem_of_list_In & L). apply existsb_exists in L as ([m' h] & Hh%elem_of_list_In & Em%Nat.eqb_eq).
    cbn in *. subst m'. pose proof (elem_of_list_lookup_1 _ _ Hu) as [i Hi]. rewrite Forall_forall in O. destruct (O u Hu) as (low & Ou & Ru).
    destruct (stuck s u (S i u Hi)) as [(r & _ & F)|(m2 & f2 & k2 & E2 & L2)]; [rewrite F in Hh; by apply elem_of_nil in Hh|].
    pose proof (ordered_lt _ _ _ _ Ou Hh). rewrite E2 in Ru. destruct Ru as (Lo & _ & _).
    pose proof (B u Hu) as Bu. unfold wants at 1 in Bu. rewrite E2 in Bu.
    eapply (IH u m2); [done|done|done|lia]. }
  apply Forall_forall. intros t Ht. pose proof (elem_of_list_lookup_1 _ _ Ht) as [i Hi].
  destruct (stuck s t (S i t Hi)) as [|(m & f & k & E & L)]; [done|]. exfalso. eapply X; try done. apply Nat.lt_succ_diag_r.
Qed.
