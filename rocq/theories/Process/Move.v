(** The cases of a step. *)
From Coq Require Import List Bool Arith Lia.
From stdpp Require Import list.
From Verif.Process Require Import Model Spec Count.

Inductive move (c : conf) (s : st) : label -> st -> list event -> Prop :=
  | m_send m : scount s <> 0 -> (rcount s <> 0 \/ running s = true /\ active s = false) ->
      move c s (LSend m) (set_queue (queue s ++ [m]) s) [Sent m]
  | m_send_run m : scount s <> 0 -> rcount s = 0 -> (running s = false \/ active s = true) ->
      move c s (LSend m) (add_job JRun (set_running true (set_queue (queue s ++ [m]) s))) [Sent m]
  | m_copys : scount s <> 0 -> move c s LCopyS (set_counts (S (scount s)) (rcount s) s) []
  | m_drops n : scount s = S (S n) -> move c s LDropS (set_counts (S n) (rcount s) s) []
  | m_drops_last : scount s = 1 -> move c s LDropS (set_pends (pends s ++ [PSend]) (set_counts 0 (rcount s) s)) [Dropped]
  | m_ready n : rcount s = S (S n) -> move c s LReady (set_counts (scount s) (S n) s) []
  | m_ready_last : rcount s = 1 -> move c s LReady (set_pends (pends s ++ [PRecv]) (set_counts (scount s) 0 s)) []
  | m_copyr : rcount s <> 0 -> move c s LCopyR (set_counts (scount s) (S (rcount s)) s) []
  | m_map : rcount s <> 0 -> move c s LMap (set_down (S (ndown s)) (proc s) s) [Attached]
  | m_cts n : owed s = S n -> move c s LCts (add_job JCts (set_owed n s)) [Ack]
  | m_psend k : pends s !! k = Some PSend -> (rcount s <> 0 \/ running s = true) ->
      move c s (LPend k) (set_close true (final s) (set_pends (delete k (pends s)) s)) []
  | m_psend_run k : pends s !! k = Some PSend -> rcount s = 0 -> running s = false ->
      move c s (LPend k) (add_job JRun (set_running true (set_close true (final s) (set_pends (delete k (pends s)) s)))) []
  | m_precv k : pends s !! k = Some PRecv -> (running s = true \/ queue s = [] /\ void_arg c = false /\ closeq s = false) ->
      move c s (LPend k) (set_pends (delete k (pends s)) s) []
  | m_precv_run k : pends s !! k = Some PRecv -> running s = false -> (queue s <> [] \/ void_arg c = true \/ closeq s = true) ->
      move c s (LPend k) (add_job JRun (set_running true (set_pends (delete k (pends s)) s))) []
  | m_lock k : jobs s !! k = Some JRun -> tlock s = false -> move c s (LJob k true) (set_job k JTop (set_lock true false s)) []
  | m_spin k p ok : jobs s !! k = Some p -> (p = JRun \/ p = JTimer) -> (ok = false \/ tlock s = true) -> move c s (LJob k ok) s []
  | m_top_ub k ok : jobs s !! k = Some JTop -> proc s = false -> move c s (LJob k ok) s [Ub]
  | m_top_yield k ok : jobs s !! k = Some JTop -> proc s = true -> (pst s).1 = Yield -> move c s (LJob k ok) (set_job k JDecide s) []
  | m_top_return k ok : jobs s !! k = Some JTop -> proc s = true -> (pst s).1 = Await -> has_await c = false ->
      move c s (LJob k ok) (set_job k (JEnd Step) s) []
  | m_top_empty k ok : jobs s !! k = Some JTop -> proc s = true -> (pst s).1 = Await -> has_await c = true -> queue s = [] -> has_close c = false ->
      move c s (LJob k ok) (set_job k JDecide (set_close false (closeq s) s)) []
  | m_top_close k ok : jobs s !! k = Some JTop -> proc s = true -> (pst s).1 = Await -> has_await c = true -> queue s = [] -> has_close c = true ->
      move c s (LJob k ok) (set_job k (JCall Step (CClose true)) (set_close false (closeq s) s)) [Begin (CClose true)]
  | m_top_val k ok v q : jobs s !! k = Some JTop -> proc s = true -> (pst s).1 = Await -> has_await c = true -> queue s = Val v :: q ->
      move c s (LJob k ok) (set_job k (JCall Step (CAwait v)) (set_queue q s)) [Took (Val v); Up; Begin (CAwait v)]
  | m_top_err k ok e q : jobs s !! k = Some JTop -> proc s = true -> (pst s).1 = Await -> has_await c = true -> queue s = Err e :: q -> has_set_error c = true ->
      move c s (LJob k ok) (set_job k (JCall Step (CSetError e)) (set_queue q s)) [Took (Err e); Up; Begin (CSetError e)]
  | m_top_err_close k ok e q : jobs s !! k = Some JTop -> proc s = true -> (pst s).1 = Await -> has_await c = true -> queue s = Err e :: q ->
      has_set_error c = false -> has_close c = true ->
      move c s (LJob k ok) (set_job k (JCall Step (CClose false)) (set_queue q s)) [Took (Err e); Up; Begin (CClose false)]
  | m_top_err_skip k ok e q : jobs s !! k = Some JTop -> proc s = true -> (pst s).1 = Await -> has_await c = true -> queue s = Err e :: q ->
      has_set_error c = false -> has_close c = false ->
      move c s (LJob k ok) (set_job k JTop (set_queue q s)) [Took (Err e); Up]
  | m_yield k ok : jobs s !! k = Some JDecide -> (pst s = (Yield, Now) \/ pst s = (Await, Now)) ->
      move c s (LJob k ok) (set_job k (JCall Step CYield) s) [Begin CYield]
  | m_later k ok : jobs s !! k = Some JDecide -> (pst s).1 = Yield -> (pst s).2 <> Now ->
      move c s (LJob k ok) (add_job JDelay (set_job k (JEnd Step) s)) []
  | m_forever k ok : jobs s !! k = Some JDecide -> pst s = (Await, Forever) -> move c s (LJob k ok) (set_job k JDone s) []
  | m_timeout k ok : jobs s !! k = Some JDecide -> pst s = (Await, Later) ->
      move c s (LJob k ok) (add_job JTimer (set_job k (JEnd Step) (set_lock (tlock s) true s))) []
  | m_bcast k ok w o : jobs s !! k = Some (JBcast w o) -> move c s (LJob k ok) (set_job k (JSusp w o (ndown s)) s) []
  | m_susp k ok w o n : jobs s !! k = Some (JSusp w o n) -> move c s (LJob k ok) (set_job k (JSend w o 0 n) (set_susp (S n) s)) []
  | m_out k ok w o i n : jobs s !! k = Some (JSend w o i n) -> i < n -> i < ndown s ->
      move c s (LJob k ok) (set_job k (JSend w o (S i) n) (set_owed (S (owed s)) s)) [Out i o]
  | m_out_ub k ok w o i n : jobs s !! k = Some (JSend w o i n) -> i < n -> ndown s <= i -> move c s (LJob k ok) s [Ub]
  | m_sent k ok w o i n : jobs s !! k = Some (JSend w o i n) -> n <= i -> move c s (LJob k ok) (set_job k (JSelf w) s) []
  | m_self_final k ok w : jobs s !! k = Some (JSelf w) -> final s = true -> move c s (LJob k ok) (set_job k (JEnd w) s) []
  | m_self k ok w : jobs s !! k = Some (JSelf w) -> final s = false -> move c s (LJob k ok) (set_job k (JSelf2 w) s) []
  | m_self2_ub k ok w : jobs s !! k = Some (JSelf2 w) -> proc s = false -> move c s (LJob k ok) (set_job k (JEnd w) s) [Ub]
  | m_self2_more k ok w n : jobs s !! k = Some (JSelf2 w) -> proc s = true -> pred (susp s) = S n -> move c s (LJob k ok) (set_job k (JEnd w) (set_susp (S n) s)) []
  | m_self2_run k ok w : jobs s !! k = Some (JSelf2 w) -> proc s = true -> pred (susp s) = 0 -> ((pst s).1 = Yield \/ queue s <> [] \/ closeq s = true) ->
      move c s (LJob k ok) (add_job JRun (set_job k (JEnd w) (set_susp 0 s))) []
  | m_self2_stop k ok w : jobs s !! k = Some (JSelf2 w) -> proc s = true -> pred (susp s) = 0 -> (pst s).1 = Await -> queue s = [] -> closeq s = false ->
      move c s (LJob k ok) (set_job k (JEnd w) (set_running false (set_susp 0 s))) []
  | m_end_step k ok : jobs s !! k = Some (JEnd Step) -> move c s (LJob k ok) (end_job k (set_lock false (active s) s)) []
  | m_end_delay k ok : jobs s !! k = Some (JEnd Delay) -> move c s (LJob k ok) (end_job k s) []
  | m_end_timeout k ok : jobs s !! k = Some (JEnd Timeout) -> move c s (LJob k ok) (end_job k (set_lock false false s)) []
  | m_done_run k ok : jobs s !! k = Some JDone -> (queue s <> [] \/ closeq s = true) ->
      move c s (LJob k ok) (add_job JRun (set_job k (if final s then JFinal else JEnd Step) (set_running true s))) []
  | m_done k ok : jobs s !! k = Some JDone -> queue s = [] -> closeq s = false ->
      move c s (LJob k ok) (set_job k (if final s then JFinal else JEnd Step) (set_running false s)) []
  | m_final k ok : jobs s !! k = Some JFinal -> move c s (LJob k ok) (set_job k (JEnd Step) (set_down 0 false s)) [Closed]
  | m_delay k ok : jobs s !! k = Some JDelay -> proc s = true -> move c s (LJob k ok) (set_job k (JCall Delay CYield) s) [Begin CYield]
  | m_delay_gone k ok : jobs s !! k = Some JDelay -> proc s = false -> move c s (LJob k ok) (end_job k s) []
  | m_timer k : jobs s !! k = Some JTimer -> tlock s = false -> proc s = true -> (pst s).1 = Await ->
      move c s (LJob k true) (set_job k (JCall Timeout CYield) (set_lock true (active s) s)) [Begin CYield]
  | m_timer_cancelled k : jobs s !! k = Some JTimer -> tlock s = false -> proc s = true -> (pst s).1 = Yield -> move c s (LJob k true) (end_job k s) []
  | m_timer_ub k : jobs s !! k = Some JTimer -> tlock s = false -> proc s = false -> move c s (LJob k true) (end_job k s) [Ub]
  | m_cts_final k ok : jobs s !! k = Some JCts -> final s = true -> move c s (LJob k ok) (end_job k s) []
  | m_cts1 k ok : jobs s !! k = Some JCts -> final s = false -> move c s (LJob k ok) (set_job k JCts2 s) []
  | m_cts2_ub k ok : jobs s !! k = Some JCts2 -> proc s = false -> move c s (LJob k ok) (end_job k s) [Ub]
  | m_cts2_more k ok n : jobs s !! k = Some JCts2 -> proc s = true -> pred (susp s) = S n -> move c s (LJob k ok) (end_job k (set_susp (S n) s)) []
  | m_cts2_run k ok : jobs s !! k = Some JCts2 -> proc s = true -> pred (susp s) = 0 -> ((pst s).1 = Yield \/ queue s <> [] \/ closeq s = true) ->
      move c s (LJob k ok) (add_job JRun (end_job k (set_susp 0 s))) []
  | m_cts2_stop k ok : jobs s !! k = Some JCts2 -> proc s = true -> pred (susp s) = 0 -> (pst s).1 = Await -> queue s = [] -> closeq s = false ->
      move c s (LJob k ok) (end_job k (set_running false (set_susp 0 s))) []
  | m_throw k w cc e p : jobs s !! k = Some (JCall w cc) ->
      move c s (LRet k (Throw e p)) (set_job k (JBcast w (Err e)) (set_pst p s)) [End p; Result (Err e)]
  | m_ret_yield k w v p : jobs s !! k = Some (JCall w CYield) ->
      move c s (LRet k (Ret v p)) (set_job k (JBcast w (Val v)) (set_pst p s)) [End p; Result (Val v)]
  | m_ret_close k w v p : jobs s !! k = Some (JCall w (CClose true)) -> move c s (LRet k (Ret v p)) (set_job k JDecide (set_pst p s)) [End p]
  | m_ret k w cc v p : jobs s !! k = Some (JCall w cc) -> cc <> CYield -> cc <> CClose true ->
      move c s (LRet k (Ret v p)) (set_job k JTop (set_pst p s)) [End p].

Lemma run_eta s b : running s = b -> set_running b s = s.
Proof. by destruct s; simpl; intros ->. Qed.
Lemma nil_false {A} (l : list A) : is_nil l = false -> l <> [].
Proof. by destruct l. Qed.
Lemma nil_true {A} (l : list A) : is_nil l = true -> l = [].
Proof. by destruct l. Qed.
Ltac pick := match goal with |- move _ _ ?l ?s ?e => idtac end; econstructor; eauto.

Lemma clear2_self c k w s ok s' e : jobs s !! k = Some (JSelf2 w) -> clear2 k (Some (JEnd w)) s = (s', e) -> move c s (LJob k ok) s' e.
Proof.
  intros Hk H. unfold clear2 in H. cbn zeta in H. destruct (proc s) eqn:P; [|injection H as <- <-; by eapply m_self2_ub].
  destruct (pred (susp s)) as [|n] eqn:En; [|injection H as <- <-; by eapply m_self2_more].
  destruct (is_yield (pst (set_susp 0 s)) || negb (is_nil (queue (set_susp 0 s))) || closeq (set_susp 0 s)) eqn:B; injection H as <- <-.
  - apply m_self2_run; try done. cbn in B. apply orb_true_iff in B as [B|B]; [apply orb_true_iff in B as [B|B]|].
    + left. unfold is_yield in B. by destruct (pst s).1.
    + right; left. apply nil_false. by apply negb_true_iff.
    + by right; right.
  - cbn in B. apply orb_false_iff in B as [[B1 B2]%orb_false_iff B3].
    apply m_self2_stop; try done; [unfold is_yield in B1; by destruct (pst s).1|apply nil_true; by apply negb_false_iff].
Qed.
Lemma clear2_cts c k s ok s' e : jobs s !! k = Some JCts2 -> clear2 k None s = (s', e) -> move c s (LJob k ok) s' e.
Proof.
  intros Hk H. unfold clear2 in H. cbn zeta in H. destruct (proc s) eqn:P; [|injection H as <- <-; by eapply m_cts2_ub].
  destruct (pred (susp s)) as [|n] eqn:En; [|injection H as <- <-; by eapply m_cts2_more].
  destruct (is_yield (pst (set_susp 0 s)) || negb (is_nil (queue (set_susp 0 s))) || closeq (set_susp 0 s)) eqn:B; injection H as <- <-.
  - apply m_cts2_run; try done. cbn in B. apply orb_true_iff in B as [B|B]; [apply orb_true_iff in B as [B|B]|].
    + left. unfold is_yield in B. by destruct (pst s).1.
    + right; left. apply nil_false. by apply negb_true_iff.
    + by right; right.
  - cbn in B. apply orb_false_iff in B as [[B1 B2]%orb_false_iff B3].
    apply m_cts2_stop; try done; [unfold is_yield in B1; by destruct (pst s).1|apply nil_true; by apply negb_false_iff].
Qed.
Lemma step_move c s l s' e : step c s l = Some (s', e) -> move c s l s' e.
Proof.
  destruct l as [m| | | | | | |k|k ok|k r]; simpl; intros H.
  - destruct (scount s =? 0) eqn:Sc; [done|]. apply Nat.eqb_neq in Sc.
    destruct ((rcount s =? 0) && (negb (running s) || active s)) eqn:B; injection H as <- <-.
    + apply andb_true_iff in B as [B1 B2]. apply Nat.eqb_eq in B1. rewrite orb_true_r. apply m_send_run; try done.
      apply orb_true_iff in B2 as [B2|B2]; [left; by apply negb_true_iff|by right].
    + rewrite orb_false_r. replace (set_running _ _) with (set_queue (queue s ++ [m]) s) by (by destruct s).
      apply m_send; [done|]. apply andb_false_iff in B as [B|B]; [left; by apply Nat.eqb_neq|right].
      apply orb_false_iff in B as [B1%negb_false_iff B2]. done.
  - destruct (scount s =? 0) eqn:Sc; [done|]. apply Nat.eqb_neq in Sc. injection H as <- <-. by constructor.
  - destruct (scount s) as [|[|n]] eqn:Sc; [done| |]; injection H as <- <-; by constructor.
  - destruct (rcount s) as [|[|n]] eqn:Sc; [done| |]; injection H as <- <-; by constructor.
  - destruct (rcount s =? 0) eqn:Sc; [done|]. apply Nat.eqb_neq in Sc. injection H as <- <-. by constructor.
  - destruct (rcount s =? 0) eqn:Sc; [done|]. apply Nat.eqb_neq in Sc. injection H as <- <-. by constructor.
  - destruct (owed s) as [|n] eqn:Sc; [done|]; injection H as <- <-; by constructor.
  - destruct (pends s !! k) as [[]|] eqn:Hk; [| |done].
    + destruct (rcount s =? 0) eqn:Rb; pose proof Rb as Rc; [apply Nat.eqb_eq in Rc|apply Nat.eqb_neq in Rc]; (destruct (running s) eqn:R; cbn in H; rewrite ?Rb, ?R in H; cbn in H; injection H as <- <-).
      * replace (set_running _ _) with (set_close true (final s) (set_pends (delete k (pends s)) s)) by (by destruct s; cbn in *; rewrite R). apply m_psend; auto.
      * apply m_psend_run; auto.
      * replace (set_running _ _) with (set_close true (final s) (set_pends (delete k (pends s)) s)) by (by destruct s; cbn in *; rewrite R). apply m_psend; auto.
      * replace (set_running _ _) with (set_close true (final s) (set_pends (delete k (pends s)) s)) by (by destruct s; cbn in *; rewrite R). apply m_psend; auto.
    + destruct (running s) eqn:R; cbn in H.
      * rewrite R, andb_false_r in H. cbn in H. injection H as <- <-.
        replace (set_running _ _) with (set_pends (delete k (pends s)) s) by (by destruct s; cbn in *; rewrite R). apply m_precv; auto.
      * rewrite R, andb_true_r in H. cbn in H.
        destruct (negb (is_nil (queue s)) || void_arg c || closeq s) eqn:B; injection H as <- <-.
        -- apply m_precv_run; try done. apply orb_true_iff in B as [B|B]; [apply orb_true_iff in B as [B|B]|]; auto.
           left. apply nil_false. by apply negb_true_iff.
        -- replace (set_running _ _) with (set_pends (delete k (pends s)) s) by (by destruct s; cbn in *; rewrite R). apply m_precv; [done|right].
           apply orb_false_iff in B as [[B1 B2]%orb_false_iff B3]. split; [apply nil_true; by apply negb_false_iff|done].
  - destruct (jobs s !! k) as [p|] eqn:Hk; [|done]. destruct p; unfold job_step in H; try done.
    + destruct ok, (tlock s) eqn:T; cbn in H; injection H as <- <-; try (by eapply m_spin; eauto). by apply m_lock.
    + destruct (proc s) eqn:P; [|injection H as <- <-; by apply m_top_ub].
      unfold is_yield in H. destruct ((pst s).1) eqn:M; [|injection H as <- <-; by apply m_top_yield].
      destruct (has_await c) eqn:A; [|injection H as <- <-; by apply m_top_return].
      unfold dequeue in H. cbn zeta in H. destruct (queue s) as [|[v|x] q] eqn:Q.
      * destruct (has_close c) eqn:C; injection H as <- <-; [by apply m_top_close|by apply m_top_empty].
      * injection H as <- <-. by apply m_top_val.
      * destruct (has_set_error c) eqn:Hs; [injection H as <- <-; by apply m_top_err|].
        destruct (has_close c) eqn:C; injection H as <- <-; [by apply m_top_err_close|by apply m_top_err_skip].
    + destruct (pst s) as [[] []] eqn:P; injection H as <- <-.
      all: first [by apply m_yield; auto | by apply m_later; rewrite ?P | by apply m_forever | by apply m_timeout].
    + injection H as <- <-. by apply m_bcast.
    + injection H as <- <-. by apply m_susp.
    + destruct (i <? n) eqn:L; [apply Nat.ltb_lt in L|apply Nat.ltb_ge in L].
      * destruct (i <? ndown s) eqn:L2; [apply Nat.ltb_lt in L2|apply Nat.ltb_ge in L2]; injection H as <- <-; [by apply m_out|by eapply m_out_ub].
      * injection H as <- <-. by eapply m_sent.
    + injection H as <- <-. destruct (final s) eqn:F; [by eapply m_self_final|by eapply m_self].
    + apply clear2_self with (w := w); [done|]. by injection H as <-.
    + injection H as <- <-. destruct w; [by apply m_end_step|by apply m_end_delay|by apply m_end_timeout].
    + injection H as <- <-. destruct (negb (is_nil (queue s)) || closeq s) eqn:B.
      * apply m_done_run; [done|]. apply orb_true_iff in B as [B|B]; [left; apply nil_false; by apply negb_true_iff|by right].
      * apply orb_false_iff in B as [B1 B2]. apply m_done; try done. apply nil_true; by apply negb_false_iff.
    + injection H as <- <-. by apply m_final.
    + destruct (proc s) eqn:P; injection H as <- <-; [by apply m_delay|by apply m_delay_gone].
    + destruct ok, (tlock s) eqn:T; cbn in H; [injection H as <- <-; by eapply m_spin; eauto| |injection H as <- <-; by eapply m_spin; eauto..].
      unfold is_yield in H. destruct (proc s) eqn:P; [|injection H as <- <-; by apply m_timer_ub].
      destruct ((pst s).1) eqn:M; injection H as <- <-; [by apply m_timer|by apply m_timer_cancelled].
    + injection H as <- <-. destruct (final s) eqn:F; [by eapply m_cts_final|by eapply m_cts1].
    + apply clear2_cts; [done|]. by injection H as <-.
  - destruct (jobs s !! k) as [[]|] eqn:Hk; try done. destruct r as [v p|x p]; cbn in H; [|injection H as <- <-; by eapply m_throw].
    destruct c0 as [| |[]|]; injection H as <- <-; first [by eapply m_ret_yield | by eapply m_ret_close | by eapply m_ret].
Qed.
