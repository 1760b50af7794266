(** A process that has taken an error never does anything again. *)
From Coq Require Import List Bool ZArith Lia Arith.
From stdpp Require Import list.
From Verif.Channel Require Import Queue QueueProof Model Sum Inv InvStep InvStep2 InvStep3 InvRun Moves Spec Trace TraceStep TraceRun TraceMore Exact Reach.

Definition hnode (n : node) : Prop := running n = true /\ susp n = 0 /\ final n = false.
Definition hung (s : st) (i : nat) : Prop := exists n, nodes s !! i = Some n /\ hnode n /\ Forall (fun j => j.1 <> i) (jobs s).
(** i does nothing *)
Definition idle_ev (i : nat) (e : event) : Prop :=
  match e with Popped j _ | Invoke j _ | Refused j _ | Result j _ | Closed j => j <> i | _ => True end.
Lemma hung_node s s' d nd nd' i : hung s i -> nodes s !! d = Some nd -> nodes s' = <[d := nd']> (nodes s) -> (d = i -> hnode nd -> hnode nd') ->
  Forall (fun j => j.1 <> i) (jobs s') -> hung s' i.
Proof.
  intros (n & Hn & H & F) Hd Hs X F'. destruct (decide (d = i)) as [->|N].
  - exists nd'. rewrite Hs, list_lookup_insert by (by eapply lookup_lt_Some). assert (n = nd) as -> by congruence. auto.
  - exists n. rewrite Hs, list_lookup_insert_ne by done. auto.
Qed.
Lemma hung_same s s' i : hung s i -> nodes s' = nodes s -> Forall (fun j => j.1 <> i) (jobs s') -> hung s' i.
Proof. intros (n & Hn & H & F) Hs F'. exists n. by rewrite Hs. Qed.
Lemma fj_set i (js : list (nat * pc)) t k p : Forall (fun j => j.1 <> i) js -> k <> i -> Forall (fun j => j.1 <> i) (<[t := (k, p)]> js).
Proof. intros F N. by apply Forall_insert. Qed.
Lemma fj_del i (js : list (nat * pc)) t : Forall (fun j => j.1 <> i) js -> Forall (fun j => j.1 <> i) (delete t js).
Proof. intros F. by apply Forall_delete. Qed.
Lemma fj_run i b k (js : list (nat * pc)) : Forall (fun j => j.1 <> i) js -> (b = true -> k <> i) -> Forall (fun j => j.1 <> i) (js ++ (if b then [(k, JPend)] else [])).
Proof. intros F N. apply Forall_app. split; [done|]. destruct b; [|done]. constructor; [by apply N|done]. Qed.
Lemma map_senders_ev d us : forall p s s' ev, map_senders d p us s = Some (s', ev) -> Forall (fun e => match e with Attached _ _ _ => True | _ => False end) ev.
Proof.
  induction us as [|u l IH]; intros p s s' ev H; simpl in H; [by injection H as <- <-|]. unfold map_sender in H. destruct (nodes s !! u) as [nu|]; [|done].
  destruct (map_senders d (S p) l _) as [[s2 e2]|] eqn:E; [|done]. injection H as <- <-. constructor; [done|]. by eapply IH.
Qed.
Lemma hung_move s s' ev i : inv s -> hung s i -> move s s' ev -> hung s' i /\ Forall (idle_ev i) ev.
Proof.
  intros I H M. pose proof H as (n & Hn & (Ru & Su & Fi) & F). pose proof (i_node s I i n Hn) as Ni. pose proof (n_credit _ _ _ Ni) as Cr.
  assert (forall t k p, jobs s !! t = Some (k, p) -> k <> i) as NJ by (intros t k p Ht; rewrite Forall_lookup in F; apply (F _ _ Ht)).
  destruct M as [str us v sn s' ev H0 H1 H2 H3 H4|ev H0|s' k nk n' H0 H1 H2 H3 H4|s' H0 H1 H2|s' ev M].
  - pose proof (map_senders_ok _ _ _ _ _ _ H4) as (D & J & _ & _ & _ & _ & N & _). simpl in *. split.
    + exists (with_down (down n ++ extra (length (nodes s)) 0 (omap id us) i) n). rewrite N, lookup_app_l, Hn by (by eapply lookup_lt_Some). rewrite J. done.
    + eapply Forall_impl; [by eapply map_senders_ev|]. by intros [].
  - split; [done|]. by destruct H0 as [->| ->]; repeat constructor.
  - split; [|done]. destruct H1 as (a & b & ->). eapply (hung_node s s' k nk); try done. by rewrite H3.
  - split; [|done]. apply (hung_same s); try done. by rewrite H1.
  - destruct M as [k m nk Hin Hk De U|x k nk Hp Hk b|x k nk Hp Hk b|t k Ht De|t k nk ms q' Hk Ht De T|t k nk Hk Ht De Em|t k u todo m nu Hu Ht Fu|t k u todo m nu Hu Ht|t k ok1 ms Ht Er|t k ok1 ms Ht Er
      |t k ok1 Ht|t k nk o rest b Hk Ht|t k o Ht|t k o e rest Ht De|t k o d p rest nd Ht Hd De|t k Ht|t k nk Hk Ht|t k nk Hk Ht Fk|t k nk Hk Ht Fk|t k nk Hk Ht|t k e rest Ht De|t k d p rest nd x Ht Hd De Sc
      |t k nk Hk Ht|t k nk ms o Hk Ht|k De Ow]; try (pose proof (NJ _ _ _ Ht) as Nk); (split; [|repeat constructor; simpl; done]).
    + eapply (hung_node s _ k nk (enq 0 m nk)); try done; [by rewrite run_nodes| |].
      * intros _ (A & B & C). repeat split; try done. simpl. by rewrite A.
      * rewrite run_jobs. apply fj_run; [done|]. intros X ->. assert (nk = n) as -> by congruence. unfold en_run in X. rewrite Ru, andb_false_r in X. done.
    + eapply (hung_node s _ k nk (with_running (running nk || b) nk)); try done; [by rewrite run_nodes| |].
      * intros _ (A & B & C). repeat split; try done. simpl. by rewrite A.
      * rewrite run_jobs. apply fj_run; [done|]. unfold b. intros X ->. assert (nk = n) as -> by congruence. rewrite Ru, andb_false_r in X. done.
    + eapply (hung_node s _ k nk (with_running (running nk || b) (with_close true (final nk) nk))); try done; [by rewrite run_nodes| |].
      * intros _ (A & B & C). repeat split; try done. simpl. by rewrite A.
      * rewrite run_jobs. apply fj_run; [done|]. unfold b. intros X ->. assert (nk = n) as -> by congruence. rewrite Ru, andb_false_r in X. done.
    + apply (hung_same s); try done. by apply fj_del.
    + eapply (hung_node s _ k nk (with_que q' nk)); try done. by apply fj_set.
    + eapply (hung_node s _ k nk (with_close false (closeq nk) nk)); try done. by apply fj_set.
    + apply (hung_same s); try done. by apply fj_set.
    + assert (u <> i) as Nu.
      { intros ->. unfold credit in Cr. pose proof (sumf_lookup (cjob (dead s) i) _ _ _ Ht) as X. unfold cjob in X at 1. unfold cnt in X. simpl in X. rewrite Nat.eqb_refl in X. simpl in X. lia. }
      eapply (hung_node s _ u nu (cleared nu)); try done; [simpl; by rewrite run_nodes|]. simpl. rewrite run_jobs. apply fj_set; [|done]. by apply fj_run.
    + apply (hung_same s); try done. by apply fj_del.
    + apply (hung_same s); try done. by apply fj_set.
    + apply (hung_same s); try done. by apply fj_set.
    + eapply (hung_node s _ k nk (with_susp (if b then S (length rest) else 1) nk)); try done. by apply fj_set.
    + apply (hung_same s); try done. by apply fj_set.
    + apply (hung_same s); try done. by apply fj_set.
    + eapply (hung_node s _ d nd (enq p o nd)); try done; [simpl; by rewrite run_nodes| |].
      * intros _ (A & B & C). repeat split; try done. simpl. by rewrite A.
      * simpl. rewrite run_jobs. apply fj_set; [|done]. apply fj_run; [done|]. intros X ->. assert (nd = n) as -> by congruence. unfold en_run in X. rewrite Ru, andb_false_r in X. done.
    + apply (hung_same s); try done. by apply fj_set.
    + eapply (hung_node s _ k nk (cleared nk)); try done; [simpl; by rewrite run_nodes|]. simpl. rewrite run_jobs. apply fj_del. by apply fj_run.
    + eapply (hung_node s _ k nk (with_running false nk)); try done. by apply fj_set.
    + eapply (hung_node s _ k nk (with_running (dn_run nk) nk)); try done; [by rewrite run_nodes|]. rewrite run_jobs. apply fj_run; [|done]. by apply fj_del.
    + eapply (hung_node s _ k nk (with_down [] nk)); try done. by apply fj_set.
    + apply (hung_same s); try done. by apply fj_set.
    + eapply (hung_node s _ d nd (with_scount x nd)); try done; [simpl; by rewrite rms_nodes|]. simpl. rewrite rms_jobs. by apply fj_set.
    + eapply (hung_node s _ k nk (with_proc false nk)); try done. by apply fj_del.
    + apply (hung_same s); try done. by apply fj_set.
    + by apply (hung_same s).
Qed.
Lemma hung_start s s' ev i ms : inv s -> move s s' ev -> Refused i ms ∈ ev -> hung s' i.
Proof.
  intros I M H. destruct M as [str us v sn s' ev H0 H1 H2 H3 H4|ev H0|s' k nk n' H0 H1 H2 H3 H4|s' H0 H1 H2|s' ev M].
  - apply map_senders_ev in H4. rewrite Forall_forall in H4. by apply H4 in H.
  - destruct H0 as [->| ->]; [by apply elem_of_nil in H|]. by apply elem_of_list_singleton in H.
  - by apply elem_of_nil in H.
  - by apply elem_of_nil in H.
  - destruct M; try (by apply elem_of_nil in H); try (by apply elem_of_list_singleton in H). apply elem_of_list_singleton in H. injection H as <- <-. rename H0 into Ht.
    destruct (i_job s I _ _ _ Ht) as (n & Hn & _ & Fi). pose proof (i_node s I i n Hn) as Ni. pose proof (n_own _ _ _ Ni) as O. pose proof (n_credit _ _ _ Ni) as Cr.
    pose proof (sumf_lookup (ownf i) _ _ _ Ht) as X. unfold ownf in X at 1. simpl in X. rewrite Nat.eqb_refl in X. unfold own in O.
    assert (running n = true /\ susp n = 0) as [Ru Su] by (destruct (running n), (susp n); simpl in O; try lia; done).
    exists n. split; [done|]. split; [done|]. simpl. apply Forall_lookup. intros y [k p] Hy. simpl. intros ->.
    assert (exists z, jobs s !! z = Some (i, p) /\ z <> t) as (z & Hz & Nz).
    { destruct (decide (y < t)) as [L|L].
      - rewrite lookup_delete_lt in Hy by done. exists y. split; [done|lia].
      - rewrite lookup_delete_ge in Hy by lia. exists (S y). split; [done|lia]. }
    pose proof (sumf_two (ownf i) _ _ _ _ _ Hz Ht Nz) as Y. unfold ownf in Y at 1 2. simpl in Y. rewrite Nat.eqb_refl in Y.
    pose proof (sumf_lookup (bcf i) _ _ _ Hz) as Z. unfold bcf in Z at 1. simpl in Z. rewrite Nat.eqb_refl in Z. fold (bc s i) in Z. rewrite Ru in O. simpl in O.
    destruct (i_job s I _ _ _ Hz) as (n1 & Hn1 & J1). assert (n1 = n) as -> by congruence.
    destruct p; simpl in *; try lia; [by rewrite J1 in Fi|]. destruct J1 as [J1 _]. by rewrite J1 in Fi.
Qed.
Lemma hung_run ls : forall s s' tr' i, inv s -> hung s i -> Forall buf1 ls -> run s ls = Some (s', tr') -> hung s' i /\ Forall (idle_ev i) tr'.
Proof.
  induction ls as [|l ls IH]; intros s s' tr' i I H B R; simpl in R.
  - by injection R as <- <-.
  - apply Forall_cons in B as [Bl B]. destruct (step s l) as [[s1 e1]|] eqn:S; [|done]. destruct (run s1 ls) as [[s2 e2]|] eqn:R2; [|done]. injection R as <- <-.
    destruct (hung_move s s1 e1 i I H (step_moves s l s1 e1 I Bl S)) as [H1 F1]. destruct (inv_step s l s1 e1 I Bl S) as [I1 _].
    destruct (IH s1 s2 e2 i I1 H1 B R2) as [H2 F2]. split; [done|]. by apply Forall_app.
Qed.
Lemma hung_refused ls : forall s s' tr' i ms, inv s -> Forall buf1 ls -> run s ls = Some (s', tr') -> Refused i ms ∈ tr' -> hung s' i.
Proof.
  induction ls as [|l ls IH]; intros s s' tr' i ms I B R H; simpl in R.
  - injection R as <- <-. by apply elem_of_nil in H.
  - apply Forall_cons in B as [Bl B]. destruct (step s l) as [[s1 e1]|] eqn:S; [|done]. destruct (run s1 ls) as [[s2 e2]|] eqn:R2; [|done]. injection R as <- <-.
    destruct (inv_step s l s1 e1 I Bl S) as [I1 _]. apply elem_of_app in H as [H|H]; [|by eapply IH].
    pose proof (hung_start s s1 e1 i ms I (step_moves s l s1 e1 I Bl S) H) as H1. by eapply (hung_run ls s1).
Qed.
Lemma idle_nothing i tr : Forall (idle_ev i) tr -> handled i tr = [] /\ results i tr = [] /\ closed i tr = [].
Proof.
  induction 1 as [|e tr He _ IH]; [done|]. destruct IH as (A & B & C). destruct e; simpl in *; unfold pick; repeat split; try done; try (by destruct (Nat.eqb_spec i0 i)).
Qed.
