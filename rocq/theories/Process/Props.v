(** Properties of processes with yield(): C57-C62. *)
From Coq Require Import List Bool Arith.
From stdpp Require Import list.
From Verif.Process Require Import Model Spec Final Rest Wake.

(** ** a run that meets the hypotheses: a process with await, close and set_error, one process downstream. It is sent a value,
    an error and another value; it yields at once after the first and later after the second, where it throws; then the
    sender goes away *)
Definition full : conf := Conf true true true false.
Definition ex_1 : list label :=
  [LMap; LReady; LPend 0; LSend (Val 3); LJob 0 true; LJob 0 true; LRet 0 (Ret 0 (Yield, Now)); LJob 0 true; LJob 0 true;
   LRet 0 (Ret 5 (Await, Forever)); LJob 0 true; LJob 0 true; LJob 0 true; LJob 0 true; LJob 0 true; LJob 0 true; LJob 0 true;
   LCts; LJob 0 true; LJob 0 true].
Definition ex_2 : list label :=
  [LSend (Err 9); LSend (Val 4); LJob 0 true; LJob 0 true; LRet 0 (Ret 0 (Await, Forever)); LJob 0 true; LRet 0 (Ret 0 (Yield, Later));
   LJob 0 true; LJob 0 true; LJob 0 true; LJob 0 true; LRet 0 (Throw 7 (Await, Forever)); LJob 0 true; LJob 0 true; LJob 0 true; LJob 0 true;
   LJob 0 true; LJob 0 true; LJob 0 true; LCts; LJob 0 true; LJob 0 true].
Definition ex_3 : list label :=
  [LDropS; LPend 0; LJob 0 true; LJob 0 true; LRet 0 (Ret 0 (Await, Forever)); LJob 0 true; LJob 0 true; LJob 0 true; LJob 0 true].
Definition ends (r : option (st * list event)) (f : st -> list event -> Prop) : Prop :=
  match r with Some (s, tr) => f s tr | None => False end.
Example ex_run : ends (run full (init (Await, Forever)) (ex_1 ++ ex_2 ++ ex_3)) (fun s tr =>
  rest s /\ rcount s = 0 /\ dropped tr = 1 /\ ended tr = 1 /\ attached tr = 1 /\
  sents tr = [Val 3; Err 9; Val 4] /\ handed tr = [Val 3; Err 9; Val 4] /\ results tr = [Val 5; Err 7] /\ outs 0 tr = [Val 5; Err 7]).
Proof. vm_compute. auto 20. Qed.
Example ex_avoids : sane full /\ avoids timed (Await, Forever) (ex_1 ++ ex_2 ++ ex_3).
Proof. split; [done|]. split; [done|]. by repeat constructor. Qed.
Example ex_prompt : avoids delayed (Await, Forever) (ex_1 ++ ex_3) /\
  ends (run full (init (Await, Forever)) (ex_1 ++ ex_3)) (fun s tr => handed tr = [Val 3] /\ ended tr = 1).
Proof. split; [split; [done|]; by repeat constructor|]. vm_compute. auto. Qed.

(** ** C57: messages are handed over in order, once; calls do not overlap *)
Theorem C57_order c p ls s tr : run c (init p) ls = Some (s, tr) -> exists later, wanted c (sents tr) = handed tr ++ later.
Proof. exact (order c p ls s tr). Qed.
Theorem C57_all c p ls s tr : has_await c = true -> run c (init p) ls = Some (s, tr) -> rest s -> rcount s = 0 -> handed tr = wanted c (sents tr).
Proof. exact (all_handed c p ls s tr). Qed.
Theorem C57_untimed_partial c p ls s tr : sane c -> avoids timed p ls -> run c (init p) ls = Some (s, tr) -> follows any p tr.
Proof. exact (fun W A R => due_any p tr (exclusive c p ls s tr W A R)). Qed.
Theorem C57_undelayed_partial c p ls s tr : avoids delayed p ls -> run c (init p) ls = Some (s, tr) -> follows any p tr.
Proof. exact (exclusive_prompt c p ls s tr). Qed.
(** two messages arrive while a timeout is pending: two steps, two delayed yields, both executed at once *)
Definition await_only : conf := Conf true false false false.
Definition timed_1 : list label :=
  [LReady; LPend 0; LSend (Val 1); LJob 0 true; LJob 0 true; LRet 0 (Ret 0 (Await, Later)); LJob 0 true; LJob 0 true; LJob 0 true].
Definition two_yields : list label :=
  timed_1 ++ [LSend (Val 2); LSend (Val 3); LJob 1 true; LJob 1 true; LRet 1 (Ret 0 (Yield, Later)); LJob 1 true; LJob 1 true; LJob 1 true;
   LJob 1 true; LJob 1 true; LJob 1 true; LJob 2 true; LJob 3 true].
Theorem C57_refuted : exists c p ls s tr, run c (init p) ls = Some (s, tr) /\ ~ follows any p tr.
Proof.
  exists await_only, (Await, Forever), two_yields.
  destruct (run await_only (init (Await, Forever)) two_yields) as [[s tr]|] eqn:E; [|by vm_compute in E].
  exists s, tr. split; [done|]. intros N. apply N. vm_compute in E. by injection E as <- <-.
Qed.
(** a message that arrives just before a process begins to wait with a timeout is not noticed until the time is up *)
Definition window : list label :=
  [LReady; LPend 0; LSend (Val 1); LJob 0 true; LJob 0 true; LRet 0 (Ret 0 (Await, Later)); LJob 0 true; LSend (Val 2); LJob 0 true; LJob 0 true].
Theorem C57_waits_refuted : exists c p ls s tr, has_await c = true /\ run c (init p) ls = Some (s, tr) /\ jobs s = [JTimer] /\ pends s = [] /\
  owed s = 0 /\ rcount s = 0 /\ timed (pst s) = true /\ sents tr = [Val 1; Val 2] /\ handed tr = [Val 1].
Proof.
  exists await_only, (Await, Forever), window.
  destruct (run await_only (init (Await, Forever)) window) as [[s tr]|] eqn:E; [|by vm_compute in E].
  exists s, tr. split; [done|]. split; [done|]. vm_compute in E. by injection E as <- <-.
Qed.
(** the timeouts of C57_all: the same process at rest *)
Example ex_timed_rest : ends (run await_only (init (Await, Forever)) (window ++ [LJob 0 true; LRet 0 (Ret 7 (Await, Forever)); LJob 0 true; LJob 0 true;
    LJob 0 true; LJob 0 true; LJob 0 true; LJob 0 true; LJob 0 true; LJob 0 true; LRet 0 (Ret 0 (Await, Forever)); LJob 0 true; LJob 0 true; LJob 0 true; LJob 0 true]))
  (fun s tr => rest s /\ rcount s = 0 /\ handed tr = [Val 1; Val 2]).
Proof. vm_compute. auto. Qed.

(** ** C58: await, set_error and close are called in the await state, yield when it is due *)
Theorem C58_partial c p ls s tr : sane c -> avoids timed p ls -> run c (init p) ls = Some (s, tr) -> follows due p tr.
Proof. exact (exclusive c p ls s tr). Qed.
Definition due_or_timed (p : pstate) (c : call) : bool := due p c || (timed p && match c with CYield => true | _ => false end).
(** a message cancels the timeout; the process then waits for ever; the timeout yields all the same *)
Definition stale : list label :=
  timed_1 ++ [LSend (Val 2); LJob 1 true; LJob 1 true; LRet 1 (Ret 0 (Await, Forever)); LJob 1 true; LJob 1 true; LJob 1 true; LJob 1 true;
   LJob 0 true].
Theorem C58_refuted : exists c p ls s tr, run c (init p) ls = Some (s, tr) /\ follows any p tr /\ ~ follows due_or_timed p tr.
Proof.
  exists await_only, (Await, Forever), stale.
  destruct (run await_only (init (Await, Forever)) stale) as [[s tr]|] eqn:E; [|by vm_compute in E].
  exists s, tr. split; [done|]. vm_compute in E. injection E as <- <-. split; [by vm_compute|]. intros N. by apply N.
Qed.

(** ** C59: every process downstream gets every result, in order; back pressure *)
Theorem C59_results_partial c p ls s tr : sane c -> avoids timed p ls -> run c (init p) ls = Some (s, tr) ->
  forall j, j < attached tr -> exists r, results tr = outs j tr ++ r /\ length r <= 1 /\ (rest s -> r = []).
Proof. exact (downstream c p ls s tr). Qed.
Theorem C59_pace_partial c p ls s tr : sane c -> avoids timed p ls -> run c (init p) ls = Some (s, tr) -> paced tr.
Proof. exact (backpressure c p ls s tr). Qed.
(** the result of the later yield overtakes the other *)
Definition overtaken : list label :=
  LMap :: two_yields ++ [LRet 2 (Ret 10 (Await, Forever)); LRet 3 (Ret 20 (Await, Forever));
   LJob 3 true; LJob 3 true; LJob 3 true; LJob 2 true; LJob 2 true; LJob 2 true].
Theorem C59_order_refuted : exists c p ls s tr, run c (init p) ls = Some (s, tr) /\ attached tr = 1 /\
  results tr = [Val 10; Val 20] /\ outs 0 tr = [Val 20; Val 10].
Proof.
  exists await_only, (Await, Forever), overtaken.
  destruct (run await_only (init (Await, Forever)) overtaken) as [[s tr]|] eqn:E; [|by vm_compute in E].
  exists s, tr. split; [done|]. vm_compute in E. by injection E as <- <-.
Qed.
(** the stale timeout yields although the process downstream has not taken the last result *)
Definition unpaced : list label :=
  LMap :: timed_1 ++ [LSend (Val 2); LJob 1 true; LJob 1 true; LRet 1 (Ret 0 (Yield, Now)); LJob 1 true; LJob 1 true; LRet 1 (Ret 8 (Await, Forever));
   LJob 1 true; LJob 1 true; LJob 1 true; LJob 1 true; LJob 1 true; LJob 1 true; LJob 1 true; LJob 0 true].
Theorem C59_pace_refuted : exists c p ls s tr, run c (init p) ls = Some (s, tr) /\ follows any p tr /\ ~ paced tr.
Proof.
  exists await_only, (Await, Forever), unpaced.
  destruct (run await_only (init (Await, Forever)) unpaced) as [[s tr]|] eqn:E; [|by vm_compute in E].
  exists s, tr. split; [done|]. vm_compute in E. injection E as <- <-. split; [by vm_compute|]. intros N. by apply N.
Qed.

(** ** C60: closing *)
(** close() is called after the last message, with all senders gone *)
Theorem C60_called_partial c p ls s tr : sane c -> has_await c = true -> has_close c = true -> avoids timed p ls ->
  run c (init p) ls = Some (s, tr) -> rest s -> rcount s = 0 -> dropped tr = 1 ->
  exists t1 t2, tr = t1 ++ Begin (CClose true) :: t2 /\ dropped t1 = 1 /\ handed t1 = wanted c (sents tr).
Proof. exact (close_called c p ls s tr). Qed.
(** and then the processes downstream are told, if close() leaves the process waiting for ever *)
Theorem C60_closes_partial c p ls s tr : sane c -> has_await c = true -> has_close c = true -> avoids timed p ls ->
  run c (init p) ls = Some (s, tr) -> rest s -> rcount s = 0 -> dropped tr = 1 -> ended tr = 1 \/ stays_open tr.
Proof. exact (closes c p ls s tr). Qed.
Theorem C60_closes_without_partial c p ls s tr : sane c -> has_await c = true -> has_close c = false -> avoids timed p ls -> avoids prompt p ls ->
  run c (init p) ls = Some (s, tr) -> rest s -> rcount s = 0 -> dropped tr = 1 -> ended tr = 1.
Proof. exact (closes2 c p ls s tr). Qed.
Example ex_without : avoids prompt (Await, Forever) (ex_1 ++ [LDropS; LPend 0; LJob 0 true; LJob 0 true; LJob 0 true; LJob 0 true; LJob 0 true; LJob 0 true]) /\
  ends (run await_only (init (Await, Forever)) (ex_1 ++ [LDropS; LPend 0; LJob 0 true; LJob 0 true; LJob 0 true; LJob 0 true; LJob 0 true; LJob 0 true]))
    (fun s tr => rest s /\ rcount s = 0 /\ dropped tr = 1 /\ ended tr = 1).
Proof. split; [split; [done|]; by repeat constructor|]. vm_compute. auto 10. Qed.
(** never before that, and once *)
Theorem C60_last c p ls s tr : sane c -> avoids timed p ls -> run c (init p) ls = Some (s, tr) -> ended tr = 1 ->
  dropped tr = 1 /\ handed tr = wanted c (sents tr).
Proof. exact (closed_last c p ls s tr). Qed.
Theorem C60_once c p ls s tr : sane c -> avoids timed p ls -> run c (init p) ls = Some (s, tr) -> ended tr <= 1.
Proof. exact (fun W A R => proj1 (closed_once c p ls s tr W A R)). Qed.
(** close() is called whenever the queue is empty *)
Definition closings (tr : list event) : nat := length (List.filter (fun e => match e with Begin (CClose _) => true | _ => false end) tr).
Definition close_often : list label :=
  [LReady; LPend 0; LSend (Val 1); LJob 0 true; LJob 0 true; LRet 0 (Ret 0 (Await, Forever)); LJob 0 true; LRet 0 (Ret 0 (Await, Forever));
   LJob 0 true; LJob 0 true; LJob 0 true].
Theorem C60_often_refuted : exists c p ls s tr, sane c /\ avoids timed p ls /\ run c (init p) ls = Some (s, tr) /\
  dropped tr = 0 /\ closings tr = 1.
Proof.
  exists full, (Await, Forever), close_often.
  destruct (run full (init (Await, Forever)) close_often) as [[s tr]|] eqn:E; [|by vm_compute in E].
  exists s, tr. split; [done|]. split; [split; [done|]; by repeat constructor|]. split; [done|]. vm_compute in E. by injection E as <- <-.
Qed.
(** close() leaves the process with something to yield: it is yielded, but the processes downstream are never told of the end *)
Definition unclosed : list label :=
  [LMap; LReady; LPend 0; LDropS; LPend 0; LJob 0 true; LJob 0 true; LRet 0 (Ret 0 (Yield, Now)); LJob 0 true; LRet 0 (Ret 6 (Await, Forever));
   LJob 0 true; LJob 0 true; LJob 0 true; LJob 0 true; LJob 0 true; LJob 0 true; LCts; LJob 0 true].
Theorem C60_refuted : exists c p ls s tr, sane c /\ avoids timed p ls /\ run c (init p) ls = Some (s, tr) /\
  rest s /\ rcount s = 0 /\ dropped tr = 1 /\ outs 0 tr = [Val 6] /\ ended tr = 0 /\
  forall ls' s' tr', run c s ls' = Some (s', tr') -> ended tr' = 0.
Proof.
  exists full, (Await, Forever), unclosed.
  destruct (run full (init (Await, Forever)) unclosed) as [[s tr]|] eqn:E; [|by vm_compute in E].
  exists s, tr. split; [done|]. split; [split; [done|]; by repeat constructor|]. split; [done|]. vm_compute in E. injection E as <- <-.
  do 5 (split; [done|]). intros ls' s' tr' R. eapply stuck_run in R; [by destruct R|done].
Qed.
(** a process without await() never closes *)
Theorem C60_generator_never c p ls s tr : sane c -> has_await c = false -> avoids timed p ls -> run c (init p) ls = Some (s, tr) ->
  ended tr = 0.
Proof. exact (fun W A Av R => proj1 (generator c p ls s tr W A Av R)). Qed.

(** ** C61: no undefined behaviour *)
Theorem C61_partial c p ls s tr : sane c -> avoids timed p ls -> run c (init p) ls = Some (s, tr) -> ~ In Ub tr.
Proof. exact (fun W A R => proj2 (closed_once c p ls s tr W A R)). Qed.
(** a timeout that fires after the process has closed asks for the state of a process that is gone *)
Definition too_late : list label :=
  removelast stale ++ [LDropS; LPend 0; LJob 1 true; LJob 1 true; LJob 1 true; LJob 1 true; LJob 1 true; LJob 1 true; LJob 0 true].
Theorem C61_refuted : exists c p ls s tr, sane c /\ run c (init p) ls = Some (s, tr) /\ In Ub tr.
Proof.
  exists await_only, (Await, Forever), too_late.
  destruct (run await_only (init (Await, Forever)) too_late) as [[s tr]|] eqn:E; [|by vm_compute in E].
  exists s, tr. split; [done|]. split; [done|]. vm_compute in E. injection E as <- <-. cbn. auto 40.
Qed.

(** ** C62: left alone, the process comes to rest, if not in a function of the user *)
Theorem C62_terminates c p ls s tr : run c (init p) ls = Some (s, tr) -> exists N, forall n s', works c s n s' -> n <= N.
Proof. exact (terminates c p ls s tr). Qed.
Theorem C62_unblocked c p ls s tr : run c (init p) ls = Some (s, tr) ->
  (forall l s' e, own l = true -> step c s l = Some (s', e) -> s' = s /\ ~ In Ub e) -> pends s = [] /\ (jobs s = [] \/ in_call s).
Proof. exact (unblocked c p ls s tr). Qed.
Example ex_works : ends (run full (init (Await, Forever)) [LReady; LPend 0; LSend (Val 3)]) (fun s _ => exists s2, works full s 2 s2 /\ in_call s2).
Proof.
  vm_compute. eexists. split.
  - eapply (works_step _ _ (LJob 0 true)); [done|vm_compute; reflexivity|done|].
    eapply (works_step _ _ (LJob 0 true)); [done|vm_compute; reflexivity|done|]. apply works_none.
  - eexists _, _. cbn. by left.
Qed.
(** a process with yield() only that has waited once is marked as running for ever: nothing starts it again *)
Definition generator_run : list label :=
  [LReady; LPend 0; LJob 0 true; LJob 0 true; LJob 0 true; LRet 0 (Ret 5 (Await, Forever)); LJob 0 true; LJob 0 true; LJob 0 true; LJob 0 true;
   LJob 0 true; LJob 0 true; LDropS; LPend 0; LJob 0 true; LJob 0 true; LJob 0 true].
Theorem C62_refuted : exists c p ls s tr, sane c /\ avoids timed p ls /\ run c (init p) ls = Some (s, tr) /\ rest s /\ dropped tr = 1 /\
  running s = true /\ forall ls' s' tr', run c s ls' = Some (s', tr') -> results tr' = [] /\ ended tr' = 0.
Proof.
  exists (Conf false false false true), (Yield, Now), generator_run.
  destruct (run (Conf false false false true) (init (Yield, Now)) generator_run) as [[s tr]|] eqn:E; [|by vm_compute in E].
  exists s, tr. split; [done|]. split; [split; [done|]; by repeat constructor|]. split; [done|]. vm_compute in E. injection E as <- <-.
  do 3 (split; [done|]). intros ls' s' tr' R. eapply stuck_run in R; [by destruct R as (? & ? & ?)|done].
Qed.
Print Assumptions C57_order.
Print Assumptions C57_all.
Print Assumptions C57_waits_refuted.
Print Assumptions C57_untimed_partial.
Print Assumptions C57_undelayed_partial.
Print Assumptions C57_refuted.
Print Assumptions C58_partial.
Print Assumptions C58_refuted.
Print Assumptions C59_results_partial.
Print Assumptions C59_pace_partial.
Print Assumptions C59_order_refuted.
Print Assumptions C59_pace_refuted.
Print Assumptions C60_called_partial.
Print Assumptions C60_closes_partial.
Print Assumptions C60_closes_without_partial.
Print Assumptions C60_last.
Print Assumptions C60_once.
Print Assumptions C60_often_refuted.
Print Assumptions C60_refuted.
Print Assumptions C60_generator_never.
Print Assumptions C61_partial.
Print Assumptions C61_refuted.
Print Assumptions C62_terminates.
Print Assumptions C62_unblocked.
Print Assumptions C62_refuted.
