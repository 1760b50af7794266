(** The steps of the model, one by one, in states satisfying the invariant. *)
From Coq Require Import List Bool ZArith Lia Arith.
From stdpp Require Import list.
From Verif.Channel Require Import Queue QueueProof Model Sum Inv InvStep InvStep2 InvStep3 InvRun.

(** nothing changes but the counters of senders and receivers *)
Definition hrel (n n' : node) : Prop := exists a b, n' = with_rcount b (with_scount a n).
(** steps of jobs, pending critical sections, and sends *)
Inductive jmove (s : st) : st -> list event -> Prop :=
  | M_client i m n : i ∈ snd_h s -> nodes s !! i = Some n -> deadb i s = false -> ups n = [None] ->
      jmove s (run_if (en_run n) i (set_node i (enq 0 m n) s)) [Appended i 0 m]
  | M_precv k i n : pends s !! k = Some (PRecv i) -> nodes s !! i = Some n ->
      let b := (negb (empty_q n) || closeq n) && negb (running n) in
      jmove s (run_if b i (set_node i (with_running (running n || b) n) (set_pends (delete k (pends s)) s))) []
  | M_psend k i n : pends s !! k = Some (PSend i) -> nodes s !! i = Some n ->
      let b := (rcount n =? 0) && negb (running n) in
      jmove s (run_if b i (set_node i (with_running (running n || b) (with_close true (final n) n)) (set_pends (delete k (pends s)) s))) []
  | M_dead t i : jobs s !! t = Some (i, JPend) -> deadb i s = true -> jmove s (end_job t s) []
  | M_take t i n ms q' : nodes s !! i = Some n -> jobs s !! t = Some (i, JPend) -> deadb i s = false -> q_take (strat n) (que n) = Some (ms, q') ->
      jmove s (set_job t i (JCts (do_cts n q') false (Some ms)) (set_node i (with_que q' n) s)) [Popped i ms]
  | M_none t i n : nodes s !! i = Some n -> jobs s !! t = Some (i, JPend) -> deadb i s = false -> empty_q n = true ->
      jmove s (set_job t i (JCts [] false None) (set_node i (with_close false (closeq n) n) s)) []
  | M_cts0 t i u todo m nu : nodes s !! u = Some nu -> jobs s !! t = Some (i, JCts (u :: todo) false m) -> final nu = false ->
      jmove s (set_job t i (JCts (u :: todo) true m) s) []
  | M_cts1 t i u todo m nu : nodes s !! u = Some nu -> jobs s !! t = Some (i, JCts (u :: todo) true m) -> 
      jmove s (set_job t i (JCts todo false m) (run_if (cl_run nu) u (set_node u (cleared nu) s))) []
  | M_refuse t i ok1 ms : jobs s !! t = Some (i, JCts [] ok1 (Some ms)) -> has_error ms = true -> jmove s (end_job t s) [Refused i ms]
  | M_invoke t i ok1 ms : jobs s !! t = Some (i, JCts [] ok1 (Some ms)) -> has_error ms = false -> jmove s (set_job t i (JInvoke ms) s) [Invoke i ms]
  | M_jdone t i ok1 : jobs s !! t = Some (i, JCts [] ok1 None) -> jmove s (set_job t i JDone s) []
  | M_susp t i n o rest b : nodes s !! i = Some n -> jobs s !! t = Some (i, JSusp o rest b) ->
      jmove s (set_job t i (JSend o rest) (set_node i (with_susp (if b then S (length rest) else 1) n) s)) []
  | M_send_nil t i o : jobs s !! t = Some (i, JSend o []) -> jmove s (set_job t i (JSelf false) s) []
  | M_send_dead t i o e rest : jobs s !! t = Some (i, JSend o (e :: rest)) -> deadb e.1 s = true -> jmove s (set_job t i (JSend o rest) s) []
  | M_send t i o d p rest nd : jobs s !! t = Some (i, JSend o ((d, p) :: rest)) -> nodes s !! d = Some nd -> deadb d s = false ->
      jmove s (set_job t i (JSend o rest) (run_if (en_run nd) d (set_node d (enq p o nd) s))) [Appended d p o]
  | M_self0 t i : jobs s !! t = Some (i, JSelf false) -> jmove s (set_job t i (JSelf true) s) []
  | M_self1 t i n : nodes s !! i = Some n -> jobs s !! t = Some (i, JSelf true) ->
      jmove s (end_job t (run_if (cl_run n) i (set_node i (cleared n) s))) []
  | M_dfinal t i n : nodes s !! i = Some n -> jobs s !! t = Some (i, JDone) -> final n = true ->
      jmove s (set_job t i JFinal (set_node i (with_running false n) s)) []
  | M_dagain t i n : nodes s !! i = Some n -> jobs s !! t = Some (i, JDone) -> final n = false ->
      jmove s (run_if (dn_run n) i (end_job t (set_node i (with_running (dn_run n) n) s))) []
  | M_final t i n : nodes s !! i = Some n -> jobs s !! t = Some (i, JFinal) ->
      jmove s (set_job t i (JClear (down n)) (set_node i (with_down [] n) s)) [Closed i]
  | M_clear_dead t i e rest : jobs s !! t = Some (i, JClear (e :: rest)) -> deadb e.1 s = true -> jmove s (set_job t i (JClear rest) s) []
  | M_clear t i d p rest n k : jobs s !! t = Some (i, JClear ((d, p) :: rest)) -> nodes s !! d = Some n -> deadb d s = false -> scount n = S k ->
      jmove s (set_job t i (JClear rest) (rms d k n s)) []
  | M_clear_end t i n : nodes s !! i = Some n -> jobs s !! t = Some (i, JClear []) -> jmove s (end_job t (set_node i (with_proc false n) s)) []
  | M_ret t i n ms o : nodes s !! i = Some n -> jobs s !! t = Some (i, JInvoke ms) ->
      jmove s (set_job t i (JSusp o (down n) (min_free (down n) s <=? 1)%Z) s) [Result i o]
  | M_destroy i : deadb i s = false -> ownedb i s = false -> jmove s (St (nodes s) (dead s ++ [i]) (jobs s) (pends s) (snd_h s) (rcv_h s)) [].
Inductive move (s : st) : st -> list event -> Prop :=
  | M_new st us v sn s' ev : us <> [] -> (st = Default -> length us = 1) ->
      (forall p u, us !! p = Some (Some u) -> u < length (nodes s)) ->
      (sn = [] /\ us = map Some (omap id us) \/ us = [None] /\ sn = [length (nodes s)]) ->
      map_senders (length (nodes s)) 0 (omap id us) (St (nodes s ++ [new_node st us v 1]) (dead s) (jobs s) (pends s) (snd_h s ++ sn) (rcv_h s ++ [(length (nodes s), false)])) = Some (s', ev) -> move s s' ev
  | M_id ev : ev = [] \/ ev = [Threw] -> move s s ev
  | M_hand s' i n n' : nodes s !! i = Some n -> hrel n n' -> nodes s' = <[i := n']> (nodes s) -> jobs s' = jobs s -> dead s' = dead s -> move s s' []
  | M_hand0 s' : nodes s' = nodes s -> jobs s' = jobs s -> dead s' = dead s -> move s s' []
  | M_job s' ev : jmove s s' ev -> move s s' ev.

Lemma hrel_s a n : hrel n (with_scount a n).
Proof. exists a, (rcount n). by destruct n. Qed.
Lemma hrel_r b n : hrel n (with_rcount b n).
Proof. exists (scount n), b. by destruct n. Qed.
Lemma job_moves s t i p s' ev : inv s -> jobs s !! t = Some (i, p) -> job_step t i p s = Some (s', ev) -> jmove s s' ev.
Proof.
  intros I Ht H. pose proof (i_job s I _ _ _ Ht) as (n & Hn & J). pose proof (i_node s I i n Hn) as Ni. unfold job_step in H. rewrite Hn in H.
  destruct p as [|[|u todo] ok1 m|ms|o rest b|o [|e rest]|ok1| | |[|e rest]].
  - destruct (deadb i s) eqn:De.
    { injection H as <- <-. by eapply M_dead. }
    unfold pop_from_queue in H. destruct (empty_q n) eqn:Em.
    { injection H as <- <-. by apply M_none. }
    destruct (take_ok _ _ Em) as (ms & q' & T & _). unfold q_take in T. unfold empty_q in Em. rewrite Em in T.
    destruct (q_front (strat n) (que n)) as [[ms1 q1]|] eqn:F; [|done]. injection T as -> <-. injection H as <- <-.
    apply (M_take s t i n ms); try done. unfold q_take. by rewrite Em, F.
  - destruct J as [_ J]. destruct m as [ms|].
    + destruct (has_error ms) eqn:E. { injection H as <- <-. by eapply M_refuse. }
      destruct (proc n) eqn:Pr; [|by rewrite (n_proc _ _ _ Ni Pr) in J]. injection H as <- <-. by eapply M_invoke.
    + injection H as <- <-. by eapply M_jdone.
  - destruct J as [Fu J]. apply Forall_cons in Fu as Fu'. destruct Fu' as [[nu Hu] Fu']. destruct ok1.
    + unfold clear2 in H. rewrite Hu in H. injection H as <- <-. by apply M_cts1.
    + rewrite Hu in H. injection H as <- <-. destruct (final nu) eqn:F.
      * exfalso. pose proof (i_node s I u nu Hu) as Nu. destruct (n_final _ _ _ Nu F) as [_ Z]. pose proof (n_credit _ _ _ Nu) as C.
        unfold credit in C. pose proof (sumf_lookup (cjob (dead s) u) _ _ _ Ht) as X. unfold cjob in X at 1. unfold cnt in X. simpl in X. rewrite Nat.eqb_refl in X. simpl in X. lia.
      * by eapply M_cts0.
  - done.
  - injection H as <- <-. by apply M_susp.
  - injection H as <- <-. by eapply M_send_nil.
  - destruct (enqueue _ _ _ _) as [[s1 e1]|] eqn:E; [|done]. injection H as <- <-. apply enqueue_eq in E as [(De & -> & ->)|(De & nd & Hd & -> & ->)].
    + by eapply M_send_dead.
    + destruct e as [d p]. by apply M_send.
  - destruct ok1.
    + unfold clear2 in H. rewrite Hn in H. injection H as <- <-. by apply M_self1.
    + rewrite J in H. injection H as <- <-. by apply M_self0.
  - injection H as <- <-. destruct (final n) eqn:F.
    + assert (negb (empty_q n) || closeq n = false) as Z.
      { destruct (negb (empty_q n) || closeq n) eqn:Z; [|done]. rewrite (nonfinal s i n) in F; [done|done|].
        apply orb_true_iff in Z as [Z|Z]; [left; by apply negb_true_iff|by right]. }
      rewrite Z. by apply M_dfinal.
    + by apply M_dagain.
  - injection H as <- <-. by apply M_final.
  - injection H as <- <-. by apply M_clear_end.
  - destruct (remove_sender _ _) as [[s1 e1]|] eqn:E; [|done]. injection H as <- <-. destruct e as [d p].
    apply remove_sender_eq in E as [(De & -> & ->)|(De & nd & Hd & [(Z & _)|(k & Z & -> & ->)])]; simpl in *.
    + by eapply M_clear_dead.
    + exfalso. pose proof (n_snd _ _ _ (i_node s I d nd Hd) De) as X. unfold sndc in X. pose proof (sumf_lookup (clrf d) _ _ _ Ht) as Y.
      unfold clrf in Y at 1. unfold cnt in Y. simpl in Y. rewrite Nat.eqb_refl in Y. simpl in Y. lia.
    + by eapply M_clear.
Qed.
Lemma remove_receiver_moves s h i n hs : inv s -> rcv_h s !! h = Some (i, false) -> nodes s !! i = Some n ->
  forall s' ev, remove_receiver i (set_rcv hs s) = Some (s', ev) -> move s s' ev.
Proof.
  intros I Hh Hn s' ev H. unfold remove_receiver in H. simpl in H. rewrite Hn in H. pose proof (i_node s I i n Hn) as Ni.
  assert (1 <= nrcv s i) as G. { pose proof (sumf_lookup (rcvf i) _ _ _ Hh) as X. unfold rcvf in X at 1. simpl in X. rewrite Nat.eqb_refl in X. done. }
  destruct (rvoid n) eqn:V.
  - injection H as <- <-. by apply M_hand0.
  - pose proof (n_rcv _ _ _ Ni V) as L. destruct (rcount n) as [|[|c]] eqn:Rc; [lia| |]; injection H as <- <-; (eapply (M_hand s _ i n); [done|apply hrel_r|done..]).
Qed.
Lemma rms_hand s i n k hs : nodes s !! i = Some n -> move s (rms i k n (set_snd hs s)) [].
Proof. intros Hn. eapply (M_hand s _ i n); [done|apply (hrel_s k)|by rewrite rms_nodes|by rewrite rms_jobs|by rewrite rms_dead]. Qed.
(** labels of [jmove] *)
Definition job_label (l : label) : bool := match l with LSend _ _ | LPend _ | LJob _ | LRet _ _ | LDestroy _ => true | _ => false end.
Lemma step_jmoves s l s' ev : inv s -> job_label l = true -> step s l = Some (s', ev) -> jmove s s' ev \/ s' = s /\ ev = [].
Proof.
  intros I B H. destruct l as [|h v b|k hs v|h m|h|h|h|h|h|h|h|k|t|t o|i]; simpl in H; try done.
  - destruct (snd_h s !! h) as [i|] eqn:Hh; [|done]. apply enqueue_eq in H as [(De & -> & ->)|(De & n & Hn & -> & ->)]; [auto|]. left.
    apply elem_of_list_lookup_2 in Hh. apply M_client; try done. apply (i_snd s I) in Hh as (n' & X & Y). congruence.
  - left. destruct (pends s !! k) as [p|] eqn:Hk; [|done]. destruct p as [i|i]; destruct (nodes s !! i) as [n|] eqn:Hn; try done; injection H as <- <-.
    + by apply M_precv.
    + by apply M_psend.
  - left. destruct (jobs s !! t) as [[i p]|] eqn:Ht; [|done]. by eapply job_moves.
  - left. destruct (jobs s !! t) as [[i p]|] eqn:Ht; [|done]. destruct p; try done. destruct (nodes s !! i) as [n|] eqn:Hn; [|done]. injection H as <- <-.
    by eapply M_ret.
  - left. destruct (nodes s !! i) as [n|]; [|done]. destruct (deadb i s || ownedb i s) eqn:E; [done|]. injection H as <- <-. apply orb_false_iff in E as [??]. by apply M_destroy.
Qed.
Theorem step_moves s l s' ev : inv s -> buf1 l -> step s l = Some (s', ev) -> move s s' ev.
Proof.
  intros I B H. destruct (job_label l) eqn:Jl.
  { destruct (step_jmoves s l s' ev I Jl H) as [M|[-> ->]]; [by apply M_job|apply M_id; auto]. }
  destruct l as [|h v b|k hs v|h m|h|h|h|h|h|h|h|k|t|t o|i]; simpl in H; try done.
  - injection H as <- <-. apply (M_new s Default [None] false [length (nodes s)]); try done; [|auto]. intros [|p] u; simpl; done.
  - destruct (rcv_h s !! h) as [[u r]|] eqn:Hh; [|done]. destruct r.
    { injection H as <- <-. apply M_id. auto. }
    simpl in B. subst b. apply (M_new s Default [Some u] v []); try done; [|auto|by rewrite app_nil_r].
    intros [|p] u'; simpl; [|done]. intros [= ->]. apply lookup_lt_is_Some. eapply (i_rcv s I). by eapply elem_of_list_lookup_2.
  - destruct k; try done; destruct hs as [|h0 hs]; try done; destruct (handles (h0 :: hs) s) as [us|] eqn:Hus; try done.
    all: assert (length us = S (length hs)) as Lu by (apply mapM_length in Hus; simpl in Hus; done).
    all: assert (forall p u, us !! p = Some u -> u < length (nodes s)) as Lt by
      (intros p u Hp; apply mapM_Some in Hus; eapply Forall2_lookup_r in Hp; [|exact Hus]; destruct Hp as (x & _ & Hx);
       destruct (rcv_h s !! x) as [[u' b]|] eqn:E; [|done]; simpl in Hx; injection Hx as ->; apply lookup_lt_is_Some; eapply (i_rcv s I); by eapply elem_of_list_lookup_2).
    1: apply (M_new s Zip (map Some us) v []). 6: apply (M_new s RoundRobin (map Some us) v []). 11: apply (M_new s Unordered (map Some us) v []).
    all: try done; try (by destruct us); try (by rewrite omap_some, app_nil_r); try (left; by rewrite omap_some).
    all: intros p u Hp; rewrite list_lookup_fmap in Hp; destruct (us !! p) as [u'|] eqn:E; [|done]; injection Hp as ->; by eapply Lt.
  - destruct (snd_h s !! h) as [i|] eqn:Hh; [|done]. unfold add_sender in H.
    change (deadb i (set_snd (snd_h s ++ [i]) s)) with (deadb i s) in H. destruct (deadb i s) eqn:De.
    { injection H as <- <-. by apply M_hand0. }
    simpl in H. destruct (nodes s !! i) as [n|] eqn:Hn; [|done]. injection H as <- <-. eapply (M_hand s _ i n); [done|apply hrel_s|done..].
  - destruct (snd_h s !! h) as [i|] eqn:Hh; [|done]. apply remove_sender_eq in H as [(De & -> & ->)|(De & n & Hn & [(Z & _)|(k & Z & -> & ->)])].
    + by apply M_hand0.
    + exfalso. simpl in Hn. pose proof (n_snd _ _ _ (i_node s I i n Hn) De) as X. unfold sndc in X. assert (0 < cnt i (snd_h s)); [|lia].
      apply cnt_pos. by eapply elem_of_list_lookup_2.
    + by apply rms_hand.
  - destruct (snd_h s !! h) as [i|] eqn:Hh; [|done]. injection H as <- <-. by apply M_hand0.
  - destruct (rcv_h s !! h) as [[i r]|] eqn:Hh; [|done]. unfold add_receiver in H. simpl in H. apply elem_of_list_lookup_2 in Hh as Hi.
    destruct (i_rcv s I i r Hi) as [n Hn]. rewrite Hn in H.
    destruct (rvoid n) eqn:V; injection H as <- <-; [by apply M_hand0|]. eapply (M_hand s _ i n); [done|apply hrel_r|done..].
  - destruct (rcv_h s !! h) as [[i r]|] eqn:Hh; [|done]. apply elem_of_list_lookup_2 in Hh as Hi. destruct (i_rcv s I i r Hi) as [n Hn]. destruct r.
    { injection H as <- <-. by apply M_hand0. }
    by eapply (remove_receiver_moves s h i n).
  - destruct (rcv_h s !! h) as [[i r]|] eqn:Hh; [|done]. apply elem_of_list_lookup_2 in Hh as Hi. destruct (i_rcv s I i r Hi) as [n Hn]. destruct r.
    { injection H as <- <-. apply M_id. auto. }
    by eapply (remove_receiver_moves s h i n).
  - destruct (rcv_h s !! h) as [[i r]|] eqn:Hh; [|done]. injection H as <- <-. by apply M_hand0.
Qed.
