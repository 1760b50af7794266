(** The invariant of a network of channels whose buffer sizes are all 1, and how the quantities in it change. *)
From Coq Require Import List Bool ZArith Lia Arith.
From stdpp Require Import list.
From Verif.Channel Require Import Queue QueueProof Model Sum.

(** ** quantities *)
(** jobs of process i that may go on to run it: until it is suspended, or gives up *)
Definition own_pc (p : pc) : nat := match p with JPend | JCts _ _ _ | JInvoke _ | JSusp _ _ _ | JDone => 1 | _ => 0 end.
(** jobs that broadcast *)
Definition bc_pc (p : pc) : nat := match p with JSend _ _ | JSelf _ => 1 | _ => 0 end.
Definition ownf (k : nat) (j : nat * pc) : nat := if fst j =? k then own_pc (snd j) else 0.
Definition bcf (k : nat) (j : nat * pc) : nat := if fst j =? k then bc_pc (snd j) else 0.
(** the messages sent by k that are still in a queue of n *)
Definition plen (q : qst) (p : nat) : nat := match qs q !! p with Some c => length c | None => 0 end.
Definition isup (k : nat) (n : node) (p : nat) : bool := match ups n !! p with Some (Some u) => u =? k | _ => false end.
Definition cnode (k : nat) (n : node) : nat := sumf (fun p => if isup k n p then plen (que n) p else 0) (seq 0 (length (ups n))).
(** calls of clear_to_send for k that are still to be made, and messages of k that are still to be sent, but to processes that
    have been destroyed *)
Definition alive (D : list nat) (e : nat * nat) : nat := b2n (negb (existsb (Nat.eqb (fst e)) D)).
Definition cjob (D : list nat) (k : nat) (j : nat * pc) : nat :=
  match snd j with
  | JCts todo _ _ => cnt k todo
  | JSend _ rest => if fst j =? k then sumf (alive D) rest else 0
  | _ => 0
  end.
Definition downf (k : nat) (n : node) : nat := cnt k (map fst (down n)).
Definition clrf (k : nat) (j : nat * pc) : nat := match snd j with JClear rest => cnt k (map fst rest) | _ => 0 end.
Definition pendf (k : nat) (p : pend) : nat := match p with PSend i => b2n (i =? k) | PRecv _ => 0 end.
Definition rcvf (k : nat) (h : nat * bool) : nat := if fst h =? k then b2n (negb (snd h)) else 0.

Definition own (s : st) (k : nat) : nat := sumf (ownf k) (jobs s).
Definition bc (s : st) (k : nat) : nat := sumf (bcf k) (jobs s).
Definition credit (s : st) (k : nat) : nat := sumf (cnode k) (nodes s) + sumf (cjob (dead s) k) (jobs s).
Definition npend (s : st) (k : nat) : nat := sumf (pendf k) (pends s).
(** the senders to k *)
Definition sndc (s : st) (k : nat) : nat := cnt k (snd_h s) + sumf (downf k) (nodes s) + sumf (clrf k) (jobs s).
(** the receivers of k that are not ready *)
Definition nrcv (s : st) (k : nat) : nat := sumf (rcvf k) (rcv_h s).

(** ** the invariant *)
Record ninv (s : st) (i : nat) (n : node) : Prop := {
  n_bsize : bsize n = 1;
  n_ports : length (qs (que n)) = length (ups n);
  n_pos : ups n <> [];
  n_def : strat n = Default -> length (ups n) = 1;
  n_ups : forall p u, ups n !! p = Some (Some u) -> u < i;
  n_down : forall d p, (d, p) ∈ down n -> exists nd, nodes s !! d = Some nd /\ ups nd !! p = Some (Some i);
  n_nodup : NoDup (down n);
  n_own : own s i + b2n (negb (susp n =? 0)) <= b2n (running n);
  n_bc : bc s i <= 1;
  n_credit : credit s i + bc s i <= susp n;
  n_exact : dead s = [] -> susp n <= credit s i + bc s i;
  n_port : forall p u c, ups n !! p = Some (Some u) -> qs (que n) !! p = Some c -> length c <= 1;
  n_final : final n = true -> empty_q n = true /\ susp n = 0;
  n_close : npend s i + b2n (closeq n) + b2n (final n) = b2n (scount n =? 0);
  n_snd : deadb i s = false -> sndc s i <= scount n;
  n_wake : rcount n = 0 -> running n = false -> empty_q n = false \/ closeq n = true -> PRecv i ∈ pends s;
  n_proc : proc n = false -> final n = true;
  n_rcv : rvoid n = false -> nrcv s i <= rcount n;
  n_void : rvoid n = true -> rcount n = 0
}.
Definition port (s : st) (e : nat * nat) : nat := match nodes s !! fst e with Some n => plen (que n) (snd e) | None => 0 end.
Definition jinv (s : st) (i : nat) (p : pc) : Prop :=
  exists n, nodes s !! i = Some n /\
  match p with
  | JPend => final n = false
  | JCts todo _ m => Forall (fun u => is_Some (nodes s !! u)) todo /\
                     match m with None => todo = [] | Some _ => final n = false end
  | JInvoke _ => final n = false
  | JSusp _ rest b => final n = false /\ NoDup rest /\ rest ⊆ down n /\ (b = false -> rest <> [] /\ sumf (alive (dead s)) rest = 0)
  | JSend _ rest => final n = false /\ NoDup rest /\ rest ⊆ down n /\ (forall e, e ∈ rest -> port s e = 0)
  | JSelf _ => final n = false
  | JDone => True
  | JFinal => final n = true
  | JClear rest => final n = true /\ (forall e, e ∈ rest -> is_Some (nodes s !! fst e))
  end.
Record inv (s : st) : Prop := {
  i_node : forall i n, nodes s !! i = Some n -> ninv s i n;
  i_job : forall t i p, jobs s !! t = Some (i, p) -> jinv s i p;
  i_snd : forall i, i ∈ snd_h s -> exists n, nodes s !! i = Some n /\ ups n = [None];
  i_rcv : forall i b, (i, b) ∈ rcv_h s -> is_Some (nodes s !! i);
  i_pend : forall i, PRecv i ∈ pends s \/ PSend i ∈ pends s -> is_Some (nodes s !! i)
}.

(** ** how the quantities change *)
Section change.
  Context (s : st) (k : nat).
  Lemma q_node i n n' : nodes s !! i = Some n ->
    own (set_node i n' s) k = own s k /\ bc (set_node i n' s) k = bc s k /\
    credit (set_node i n' s) k + cnode k n = credit s k + cnode k n' /\
    npend (set_node i n' s) k = npend s k /\ sndc (set_node i n' s) k + downf k n = sndc s k + downf k n' /\
    nrcv (set_node i n' s) k = nrcv s k.
  Proof.
    intros H. unfold own, bc, credit, npend, sndc, nrcv. simpl.
    pose proof (sumf_insert (cnode k) _ _ _ n' H). pose proof (sumf_insert (downf k) _ _ _ n' H). lia.
  Qed.
  Lemma q_job t j j' : jobs s !! t = Some j -> let s' := set_jobs (<[t := j']> (jobs s)) s in
    own s' k + ownf k j = own s k + ownf k j' /\ bc s' k + bcf k j = bc s k + bcf k j' /\
    credit s' k + cjob (dead s) k j = credit s k + cjob (dead s) k j' /\
    npend s' k = npend s k /\ sndc s' k + clrf k j = sndc s k + clrf k j' /\ nrcv s' k = nrcv s k.
  Proof.
    intros H. unfold own, bc, credit, npend, sndc, nrcv. simpl.
    pose proof (sumf_insert (ownf k) _ _ _ j' H). pose proof (sumf_insert (bcf k) _ _ _ j' H).
    pose proof (sumf_insert (cjob (dead s) k) _ _ _ j' H). pose proof (sumf_insert (clrf k) _ _ _ j' H). lia.
  Qed.
  Lemma q_end t j : jobs s !! t = Some j -> let s' := end_job t s in
    own s' k + ownf k j = own s k /\ bc s' k + bcf k j = bc s k /\ credit s' k + cjob (dead s) k j = credit s k /\
    npend s' k = npend s k /\ sndc s' k + clrf k j = sndc s k /\ nrcv s' k = nrcv s k.
  Proof.
    intros H. unfold own, bc, credit, npend, sndc, nrcv. simpl.
    pose proof (sumf_delete (ownf k) _ _ _ H). pose proof (sumf_delete (bcf k) _ _ _ H).
    pose proof (sumf_delete (cjob (dead s) k) _ _ _ H). pose proof (sumf_delete (clrf k) _ _ _ H). lia.
  Qed.
  Lemma q_run b i : let s' := run_if b i s in
    own s' k = own s k + b2n (b && (i =? k)) /\ bc s' k = bc s k /\ credit s' k = credit s k /\
    npend s' k = npend s k /\ sndc s' k = sndc s k /\ nrcv s' k = nrcv s k.
  Proof.
    unfold run_if. destruct b; simpl; [|lia]. unfold own, bc, credit, npend, sndc, nrcv. simpl. rewrite !sumf_app. simpl.
    unfold ownf, bcf, cjob, clrf. simpl. destruct (i =? k); simpl; lia.
  Qed.
End change.
Lemma run_nodes b i s : nodes (run_if b i s) = nodes s.
Proof. by destruct b. Qed.
Lemma run_dead b i s : dead (run_if b i s) = dead s.
Proof. by destruct b. Qed.
Lemma run_pends b i s : pends (run_if b i s) = pends s.
Proof. by destruct b. Qed.
Lemma run_snd b i s : snd_h (run_if b i s) = snd_h s.
Proof. by destruct b. Qed.
Lemma run_rcv b i s : rcv_h (run_if b i s) = rcv_h s.
Proof. by destruct b. Qed.
Lemma run_jobs b i s : jobs (run_if b i s) = jobs s ++ (if b then [(i, JPend)] else []).
Proof. destruct b; [done|]. simpl. by rewrite app_nil_r. Qed.

(** ** queues *)
Lemma plen_append p m q p' : plen (q_append p m q) p' = plen q p' + (if (p =? p') && (p <? length (qs q)) then 1 else 0).
Proof.
  unfold plen. rewrite append_lookup. destruct (qs q !! p') as [c|] eqn:E; simpl.
  - apply lookup_lt_Some in E. destruct (Nat.eqb_spec p p') as [->|]; simpl; [|lia]. rewrite app_length. simpl.
    destruct (Nat.ltb_spec p' (length (qs q))); lia.
  - apply lookup_ge_None in E. destruct (Nat.eqb_spec p p') as [->|]; simpl; [|lia]. destruct (Nat.ltb_spec p' (length (qs q))); lia.
Qed.
Lemma cnode_append k n p m : length (qs (que n)) = length (ups n) ->
  cnode k (with_que (q_append p m (que n)) n) = cnode k n + b2n (isup k n p).
Proof.
  intros L. unfold cnode. cbn [ups with_que que].
  destruct (decide (p < length (ups n))) as [Hp|Hp].
  - apply (sumf_seq_one _ _ p); [done| |].
    + intros i Hi N. unfold isup. cbn [ups with_que que]. case_match; [|done]. rewrite plen_append.
      destruct (Nat.eqb_spec p i) as [->|]; [done|]. simpl. lia.
    + unfold isup. cbn [ups with_que que]. destruct (ups n !! p) as [[u|]|]; simpl; try lia. destruct (u =? k); simpl; [|lia].
      rewrite plen_append, Nat.eqb_refl. destruct (Nat.ltb_spec p (length (qs (que n)))); simpl; lia.
  - assert (isup k n p = false) as ->. { unfold isup. by rewrite (proj2 (lookup_ge_None (ups n) p)) by lia. }
    simpl. rewrite Nat.add_0_r. apply sumf_ext. intros i Hi. apply elem_of_list_In, in_seq in Hi. unfold isup. cbn [ups with_que que].
    case_match; [|done]. rewrite plen_append. destruct (Nat.eqb_spec p i) as [->|]; simpl; lia.
Qed.
Lemma q_sizes_length st q : length (q_sizes st q) = length (qs q).
Proof. destruct st; simpl; rewrite ?map_length, ?imap_length; done. Qed.
(** what is taken from the queues goes to the calls of clear_to_send *)
Lemma cnode_take k n ms q' : bsize n = 1 -> length (qs (que n)) = length (ups n) -> (strat n = Default -> length (ups n) = 1) ->
  (forall p u c, ups n !! p = Some (Some u) -> qs (que n) !! p = Some c -> length c <= 1) ->
  q_take (strat n) (que n) = Some (ms, q') -> cnt k (do_cts n q') + cnode k (with_que q' n) = cnode k n.
Proof.
  intros B L Df P T. apply take_spec in T. pose proof (taken_length _ _ _ _ T) as L'.
  unfold cnt, do_cts. rewrite sumf_omap, sumf_zip by (rewrite q_sizes_length; lia).
  unfold cnode. cbn [ups with_que que]. apply sumf_add. intros p Hp. apply elem_of_list_In, in_seq in Hp.
  unfold isup. cbn [ups with_que que]. destruct (lookup_lt_is_Some_2 (ups n) p) as [u Hu]; [lia|]. rewrite Hu.
  destruct (lookup_lt_is_Some_2 (q_sizes (strat n) q') p) as [z Hz]; [rewrite q_sizes_length; lia|]. rewrite Hz, B.
  change ((Z.of_nat 1 - 1) mod 2 ^ 64)%Z with 0%Z.
  destruct u as [u|]; [|by destruct (z <=? 0)%Z]. destruct (lookup_lt_is_Some_2 (qs (que n)) p) as [c Hc]; [lia|]. specialize (P p u c Hu Hc).
  unfold plen. rewrite Hc.
  destruct (lookup_lt_is_Some_2 (qs q') p) as [c' Hc']; [lia|]. rewrite Hc'.
  assert ((z <=? 0)%Z = true /\ length c = 1 /\ length c' = 0 \/ (z <=? 0)%Z = false /\ c' = c) as G.
  { destruct (strat n) eqn:St; simpl in T, Hz.
    - destruct T as (p0 & m & c0 & H1 & _ & H2 & -> & _). specialize (Df eq_refl). assert (p = 0) as -> by lia.
      rewrite Hc in H1. injection H1 as ->. rewrite H2, list_lookup_insert in Hc' by (eapply lookup_lt_Some; done). injection Hc' as ->.
      rewrite list_lookup_fmap, H2, list_lookup_insert in Hz by (eapply lookup_lt_Some; done). injection Hz as <-. simpl in P. left.
      simpl. split; [|lia]. apply Z.leb_le. lia.
    - destruct T as (_ & _ & T). destruct (T p) as (m & c0 & H1 & _ & H2); [lia|]. rewrite Hc in H1. injection H1 as ->.
      rewrite Hc' in H2. injection H2 as ->. rewrite list_lookup_fmap, Hc' in Hz. injection Hz as <-. simpl in P. left. simpl. split; [|lia]. apply Z.leb_le. lia.
    - destruct T as (p0 & m & c0 & H1 & _ & H2 & _ & H3). rewrite list_lookup_imap, Hc', H3 in Hz. simpl in Hz. injection Hz as <-.
      destruct (Nat.eqb_spec p p0) as [->|N].
      + rewrite Hc in H1. injection H1 as ->. rewrite H2, list_lookup_insert in Hc' by (eapply lookup_lt_Some; done). injection Hc' as ->.
        simpl in P. left. split; [apply Z.leb_le; lia|]. simpl. lia.
      + right. split; [done|]. rewrite H2, list_lookup_insert_ne in Hc' by done. congruence.
    - destruct T as (p0 & m & c0 & H1 & _ & H2 & _ & H3). rewrite list_lookup_imap, Hc', H3 in Hz. simpl in Hz. injection Hz as <-.
      destruct (Nat.eqb_spec p p0) as [->|N].
      + rewrite Hc in H1. injection H1 as ->. rewrite H2, list_lookup_insert in Hc' by (eapply lookup_lt_Some; done). injection Hc' as ->.
        simpl in P. left. split; [apply Z.leb_le; lia|]. simpl. lia.
      + right. split; [done|]. rewrite H2, list_lookup_insert_ne in Hc' by done. congruence. }
  destruct G as [(-> & -> & ->)|(-> & ->)]; destruct (u =? k); simpl; lia.
Qed.
