(** C30-C36: futures, continuations, abandonment, cancellation, reduction, reference counts. [run init ls = Some (s, tr)]:
    tr is what happened in some execution (any client, any schedule) and s is the state it has reached. *)
From Coq Require Import List Bool.
From stdpp Require Import list relations.
From Verif.Future Require Import Model Spec Thm.

(** ** C30: a future is resolved at most once and its result never changes *)
Theorem C30_once ls s tr c : run init ls = Some (s, tr) -> at_most_once (fun v => exists o, v = Resolved c o) tr.
Proof. exact (resolved_once ls s tr c). Qed.
(** What an observer sees is what the future has been resolved with, or nothing if it has not been. *)
Theorem C30_observe ls s tr c : run init ls = Some (s, tr) ->
  always (fun before v => forall r, v = Got c r ->
    match r with Some o => Resolved c o ∈ before | None => forall o, Resolved c o ∉ before end) tr.
Proof. exact (observe ls s tr c). Qed.
Theorem C30_stable ls s tr c o : run init ls = Some (s, tr) ->
  forall t1 t2 r, tr = t1 ++ Got c (Some o) :: t2 -> Got c r ∈ t2 -> r = Some o.
Proof. exact (stable ls s tr c o). Qed.
(** Nobody reads a value that has been moved out. *)
Theorem C30_not_moved ls s tr c : run init ls = Some (s, tr) -> GotMoved c ∉ tr.
Proof. exact (not_moved ls s tr c). Qed.
(** No step of the code is undefined (second set, unset function called, unready result read, dead state locked), unless a
    function returns an invalid future. *)
Theorem C30_no_ub ls s tr : run init ls = Some (s, tr) -> (forall i, L i ANull ∉ ls) -> Ub ∉ tr.
Proof. exact (no_ub_run ls s tr). Qed.

(** Two continuations of a task that throws, and a recover behind the first of them. *)
Definition C30_labels : list label :=
  [LPackage []; LThen 0 []; LThen 0 []; LRecover 1 []; L 0 (ACopy 0); L 1 AExec; L 1 AInvoke; L 0 (AGet false); L 5 AStep;
   L 5 (AThrow 7); L 0 (AGet false); L 6 AStep; L 7 AInvoke; L 6 AStep; L 7 AStep; L 8 AInvoke; L 8 AStep; L 9 AStep;
   L 10 AInvoke; L 11 AStep; L 11 (AVal 5); L 4 (AGet true); L 3 (AGet false)].
Example C30_ex : exists s tr, run init C30_labels = Some (s, tr) /\
  tr = [New 0 User; New 1 (Then 0); New 2 (Then 0); New 3 (Recover 1); Got 0 None; Called 0 None; Returned 0 (RExc 7);
        Resolved 0 (Exc (Err 7)); Got 0 (Some (Exc (Err 7))); Handed 1; Handed 2; Skipped 1; Resolved 1 (Exc (Err 7));
        Handed 3; Skipped 2; Resolved 2 (Exc (Err 7)); Called 3 (Some (Exc (Err 7))); Returned 3 (RVal 5);
        Resolved 3 (Val 5); Got 0 (Some (Exc (Err 7))); Got 3 (Some (Val 5))].
Proof. eexists _, _. split; vm_compute; reflexivity. Qed.

(** ** C31: continuations *)
Theorem C31_once ls s tr d : run init ls = Some (s, tr) -> at_most_once (fun v => v = Handed d) tr.
Proof. exact (handed_once' ls s tr d). Qed.
Theorem C31_called_once ls s tr c : run init ls = Some (s, tr) ->
  at_most_once (fun v => exists a, v = Called c a) tr /\ at_most_once (fun v => exists r, v = Returned c r) tr.
Proof. exact (once_called ls s tr c). Qed.
Theorem C31_after ls s tr : run init ls = Some (s, tr) ->
  always (fun before v => forall d, v = Handed d -> exists a o, follows before d a /\ Resolved a o ∈ before) tr.
Proof. exact (handed_after ls s tr). Qed.
(** A continuation of a ready future, attached before, during or after its completion, has been handed over, unless it is
    being handed over right now or nobody is interested in it any more (C34). *)
Theorem C31_none_lost ls s tr d a o : run init ls = Some (s, tr) -> follows tr d a -> Resolved a o ∈ tr ->
  (forall h l, Hand h l ∈ rs s -> KTask d ∉ l) -> Handed d ∈ tr \/ Freed d ∈ tr.
Proof. exact (handed_fate ls s tr d a o). Qed.
(** Those attached before completion are handed over in the order in which they were attached. *)
Theorem C31_order ls s tr a : run init ls = Some (s, tr) -> handed_of a tr `prefix_of` early a tr.
Proof. exact (handed_order' ls s tr a). Qed.
Theorem C31_order_all ls s tr a o : run init ls = Some (s, tr) -> Resolved a o ∈ tr -> (forall l, Hand (Some a) l ∉ rs s) ->
  handed_of a tr = early a tr.
Proof. exact (handed_all' ls s tr a o). Qed.

Example C31_ex : exists s tr, run init C30_labels = Some (s, tr) /\ early 0 tr = [1; 2] /\ handed_of 0 tr = [1; 2] /\ early 1 tr = [3].
Proof. eexists _, _. split; [vm_compute; reflexivity|]. vm_compute. done. Qed.

(** ** C32: exceptions propagate along then-chains and stop at recover *)
(** What a user's function is called with: then-functions only with a value, which is the antecedent's; recover-functions with
    the antecedent, whatever its outcome. *)
Theorem C32_called ls s tr : run init ls = Some (s, tr) ->
  always (fun before v => forall c arg, v = Called c arg -> exists k, New c k ∈ before /\
    match k with
    | User => arg = None
    | Then a => exists w, arg = Some (Val w) /\ Resolved a (Val w) ∈ before
    | Recover a => exists o, arg = Some o /\ Resolved a o ∈ before
    | Forward _ _ => False
    end) tr.
Proof. exact (called_with ls s tr). Qed.
Theorem C32_propagate ls s tr c a e : run init ls = Some (s, tr) -> New c (Then a) ∈ tr -> Resolved a (Exc e) ∈ tr ->
  (forall arg, Called c arg ∉ tr) /\ forall o, Resolved c o ∈ tr -> o = Exc e \/ Abandoned c ∈ tr /\ o = Exc Broken.
Proof. exact (propagate ls s tr c a e). Qed.
Theorem C32_chain ls s tr a c e : run init ls = Some (s, tr) -> (forall d, Abandoned d ∉ tr) -> Resolved a (Exc e) ∈ tr ->
  then_chain tr a c -> (forall arg, Called c arg ∉ tr) /\ forall o, Resolved c o ∈ tr -> o = Exc e.
Proof. exact (propagate_chain ls s tr a c e). Qed.
(** A future has the result of its function. *)
Theorem C32_result ls s tr c r : run init ls = Some (s, tr) -> Returned c r ∈ tr ->
  match r with
  | RVal v => Resolved c (Val v) ∈ tr
  | RExc e => Resolved c (Exc (Err e)) ∈ tr
  | RFut q => forall o, Resolved c o ∈ tr -> Resolved q o ∈ tr
  end.
Proof. exact (result ls s tr c r). Qed.
(** ... and every result comes from somewhere: the function, the future it returned, the antecedent's exception, or
    abandonment (the last case: the library's own forwarding continuations, C35, that have no user-visible result). *)
Theorem C32_origin ls s tr c o : run init ls = Some (s, tr) -> Resolved c o ∈ tr ->
  (exists v, o = Val v /\ Returned c (RVal v) ∈ tr) \/ (exists e, o = Exc (Err e) /\ Returned c (RExc e) ∈ tr) \/
  (exists q, Returned c (RFut q) ∈ tr /\ Resolved q o ∈ tr) \/
  (exists a e, New c (Then a) ∈ tr /\ o = Exc e /\ Resolved a (Exc e) ∈ tr) \/
  (Abandoned c ∈ tr /\ (o = Exc Broken \/ New c User ∈ tr /\ exists n, o = Exc (Err n))) \/
  exists t q, New c (Forward t q) ∈ tr.
Proof. exact (origin ls s tr c o). Qed.

(** In C30_ex: 1 and 2 fail with 0's exception, 3 recovers. A longer chain: *)
Example C32_ex : exists s tr, run init
    [LPackage []; LThen 0 []; LThen 1 []; L 1 AInvoke; L 3 AStep; L 3 (AThrow 7); L 4 AStep; L 5 AInvoke; L 5 AStep; L 6 AStep;
     L 7 AInvoke; L 7 AStep] = Some (s, tr) /\
  then_chain tr 0 2 /\ forallb (fun e => match e with Abandoned _ => false | _ => true end) tr = true /\
  Resolved 0 (Exc (Err 7)) ∈ tr /\ Resolved 2 (Exc (Err 7)) ∈ tr.
Proof.
  eexists _, _. split; [vm_compute; reflexivity|]. split; [eapply chain_more; [eapply chain_one|]|split; [reflexivity|split]].
  all: apply elem_of_list_In; simpl; tauto.
Qed.

(** ** C33: abandoning a promise breaks it *)
(** Destroying an unused packaged_task, by client or executor, resolves the future, if it still exists. *)
Theorem C33_drop ls s tr i c x : run init ls = Some (s, tr) -> rs s !! i = Some (Tok c) \/ rs s !! i = Some (Job c) ->
  get_cell s c = Some x -> (forall t q l, fn x <> Some (Forward t q, l)) ->
  exists s', step s (L i ADrop) = Some (s', [Abandoned c; Resolved c (Exc Broken)]).
Proof. exact (drop_breaks ls s tr i c x). Qed.
(** When nothing is going on any more and no packaged_task is left, every future there is is ready, unless futures wait for
    each other in a cycle, or a packaged_task was overwritten. *)
Theorem C33_all_ready_partial ls s tr : run init ls = Some (s, tr) -> only_futures s -> none_lost tr -> no_cycle tr ->
  forall c, Fut c ∈ rs s -> exists o, Resolved c o ∈ tr.
Proof. exact (quiet_ready ls s tr). Qed.
(** Overwriting a packaged_task by move assignment leaves the future unresolved for ever. *)
Theorem C33_overwrite_refuted : exists ls s tr, run init ls = Some (s, tr) /\ rs s = [Fut 0] /\
  forall ls' s' tr' o, run s ls' = Some (s', tr') -> Resolved 0 o ∉ tr ++ tr'.
Proof.
  eexists [LPackage []; L 1 AOverwrite], _, _. split; [vm_compute; reflexivity|]. split; [reflexivity|].
  intros ls' s' tr' o R. eapply (lost_for_ever [LPackage []; L 1 AOverwrite]); [vm_compute; reflexivity|by right; left|exact R].
Qed.

(** A packaged_task with two continuations behind it is dropped. *)
Definition C33_labels : list label :=
  [LPackage []; LThen 0 []; LRecover 1 []; L 1 ADrop; L 3 AStep; L 4 ADrop; L 3 AStep; L 4 AStep; L 5 AStep; L 3 AStep; L 3 AStep; L 3 AStep;
   L 3 AInvoke; L 3 AStep; L 3 (AVal 1); L 3 AStep; L 3 AStep; L 3 AStep; L 3 AStep; L 3 AStep].
Example C33_ex : exists s tr, run init C33_labels = Some (s, tr) /\ rs s = [Fut 0; Fut 1; Fut 2] /\ none_lost tr /\ no_cycle tr /\
  Resolved 0 (Exc Broken) ∈ tr /\ Resolved 1 (Exc Broken) ∈ tr /\ Resolved 2 (Val 1) ∈ tr.
Proof.
  eexists _, _. split; [vm_compute; reflexivity|]. split; [reflexivity|]. split; [by apply lost_none|].
  split; [by apply (rank_no_cycle id)|]. repeat split; apply elem_of_list_In; simpl; tauto.
Qed.

(** ** C34: dropping the last future cancels the task *)
(** Once no future (nor anything else, C36) refers to a task's state it is destroyed, and its function is never called after. *)
Theorem C34_cancel ls s tr c k : run init ls = Some (s, tr) -> New c k ∈ tr -> ~ keeps s c ->
  Freed c ∈ tr /\ forall ls' s' tr', run s ls' = Some (s', tr') -> (forall a, Called c a ∉ tr') /\ forall o, Resolved c o ∉ tr'.
Proof. exact (cancel ls s tr c k). Qed.
Theorem C34_end ls s tr : run init ls = Some (s, tr) ->
  always (fun before v => forall c,
    (exists a, v = Called c a) \/ (exists o, v = Resolved c o) \/ (exists r, v = Got c r) \/ v = Freed c -> Freed c ∉ before) tr.
Proof. exact (freed_end ls s tr). Qed.
(** A packaged_task has no effect on its own account only if its state is gone. *)
Theorem C34_cancelled ls s tr : run init ls = Some (s, tr) -> always (fun before v => forall c, v = Cancelled c -> Freed c ∈ before) tr.
Proof. exact (cancelled_freed ls s tr). Qed.
(** A detached future is not cancelled: it lives until it is resolved. *)
Theorem C34_detached ls s tr c : run init ls = Some (s, tr) -> Detached c ∈ tr \/ (exists k, DetachedF k c ∈ tr) ->
  (forall o, Resolved c o ∉ tr) -> alive s c /\ Freed c ∉ tr.
Proof. exact (detached_kept ls s tr c). Qed.
(** detach(f) calls f at most once, with the future's result, *)
Theorem C34_detached_called ls s tr : run init ls = Some (s, tr) ->
  always (fun before v => forall k o, v = DetCalled k o -> exists c, DetachedF k c ∈ before /\ Resolved c o ∈ before) tr /\
  forall k, at_most_once (fun v => exists o, v = DetCalled k o) tr.
Proof. exact (detached_called ls s tr). Qed.
(** ... and has called it when all is done. *)
Theorem C34_detached_all ls s tr k c : run init ls = Some (s, tr) -> only_futures s -> none_lost tr -> no_cycle tr ->
  DetachedF k c ∈ tr -> exists o, DetCalled k o ∈ tr.
Proof. exact (detached_will ls s tr k c). Qed.

(** A task that has captured the future of another: dropping its future cancels it and, the other future being dropped too,
    cancels the other one as well. *)
Example C34_ex : exists s tr, run init
    [LPackage []; LPackage [0]; L 0 ADrop; L 2 ADrop; L 0 AStep; L 1 AStep; L 2 AStep; L 0 AInvoke; L 0 ADrop] = Some (s, tr) /\
  rs s = [] /\ tr = [New 0 User; New 1 User; Freed 1; Freed 0; Cancelled 0; Cancelled 1].
Proof. eexists _, _. split; [vm_compute; reflexivity|]. split; reflexivity. Qed.
(** The same with the second future detached instead of dropped; the function detached is called. *)
Example C34_ex_detach : exists s tr, run init
    [LPackage []; LPackage [0]; L 0 ADrop; L 2 ADetachF; L 0 AStep; L 0 AExec; L 1 AInvoke; L 1 AStep; L 1 (AVal 3); L 2 AStep;
     L 3 AStep; L 1 AStep; L 2 AStep; L 3 AStep; L 2 AStep; L 1 AStep; L 0 ADrop; L 0 AStep; L 0 AStep; L 0 AStep] = Some (s, tr) /\
    only_futures s /\ DetachedF 0 1 ∈ tr /\ DetCalled 0 (Val 3) ∈ tr /\
    none_lost tr /\ no_cycle tr.
Proof.
  eexists _, _. split; [vm_compute; reflexivity|]. split; [by intros r ?%elem_of_nil|]. split; [apply elem_of_list_In; simpl; tauto|].
  split; [apply elem_of_list_In; simpl; tauto|].
  split; [by apply lost_none|by apply (rank_no_cycle id)].
Qed.

(** ** C35: a task that returns a future yields a flat future *)
Theorem C35_flat ls s tr c q : run init ls = Some (s, tr) -> Returned c (RFut q) ∈ tr ->
  always (fun before v => forall o, v = Resolved c o -> Resolved q o ∈ before) tr.
Proof. exact (flat ls s tr c q). Qed.
Theorem C35_ready ls s tr c q o : run init ls = Some (s, tr) -> only_futures s -> none_lost tr -> no_cycle tr ->
  Returned c (RFut q) ∈ tr -> Resolved q o ∈ tr -> Resolved c o ∈ tr \/ Freed c ∈ tr.
Proof. exact (flat_live ls s tr c q o). Qed.
(** An invalid (default-constructed or moved-from) inner future is dereferenced. *)
Theorem C35_invalid_refuted : exists ls s tr, run init ls = Some (s, tr) /\ Ub ∈ tr.
Proof. eexists [LPackage []; L 1 AInvoke; L 1 AStep; L 1 ANull], _, _. split; [vm_compute; reflexivity|by right; right; left]. Qed.

(** The inner future is resolved after the outer function has returned. *)
Definition C35_labels : list label :=
  [LPackage []; LPackage [0]; L 3 AInvoke; L 3 AStep; L 3 (ACopy 0); L 3 (AFut 0); L 3 AStep; L 3 AStep; L 4 AStep; L 3 ADrop; L 3 AStep;
   L 1 AInvoke; L 2 AStep; L 2 (AVal 9); L 3 AStep; L 4 AInvoke; L 4 AStep; L 4 AStep; L 5 AStep; L 5 AStep; L 5 AStep].
Example C35_ex : exists s tr, run init C35_labels = Some (s, tr) /\ no_cycle tr /\
  tr = [New 0 User; New 1 User; Called 1 None; New 2 (Forward (Some 1) 0); Returned 1 (RFut 0); Called 0 None;
        Returned 0 (RVal 9); Resolved 0 (Val 9); Handed 2; Skipped 2; Resolved 1 (Val 9); Resolved 2 (Val 0)].
Proof. eexists _, _. split; [vm_compute; reflexivity|]. split; [by apply (rank_no_cycle id)|reflexivity]. Qed.

(** ** C36: shared states live exactly as long as something refers to them *)
Theorem C36_refcount ls s tr c : run init ls = Some (s, tr) -> alive s c <-> keeps s c.
Proof. exact (alive_keeps ls s tr c). Qed.
Theorem C36_freed ls s tr c k : run init ls = Some (s, tr) -> New c k ∈ tr -> Freed c ∈ tr <-> ~ alive s c.
Proof. exact (freed_alive ls s tr c k). Qed.
(** When all is done and the client holds no futures, no shared state remains: unless futures wait for each other in a cycle,
    or a packaged_task was overwritten. *)
Theorem C36_empty_partial ls s tr : run init ls = Some (s, tr) -> rs s = [] -> none_lost tr -> no_cycle tr ->
  forall c k, New c k ∈ tr -> Freed c ∈ tr.
Proof. exact (final_empty ls s tr). Qed.
(** A function that returns a continuation of its own future: nothing refers to the three states but themselves. *)
Theorem C36_cycle_refuted : exists ls s tr, run init ls = Some (s, tr) /\ none_lost tr /\ rs s = [] /\
  alive s 0 /\ alive s 1 /\ alive s 2.
Proof.
  eexists [LPackage []; LThen 0 []; L 1 AInvoke; L 2 AStep; L 2 (AFut 1); L 2 AStep; L 2 AStep; L 1 ADrop; L 1 AStep; L 0 ADrop;
           L 0 AStep], _, _.
  split; [vm_compute; reflexivity|]. split; [by apply lost_none|]. split; [reflexivity|]. repeat split; eexists; reflexivity.
Qed.
Example C36_ex : exists s tr, run init (C33_labels ++ [L 0 ADrop; L 1 ADrop; L 2 ADrop; L 0 AStep; L 0 AStep; L 0 AStep]) = Some (s, tr) /\
  rs s = [] /\ none_lost tr /\ no_cycle tr /\ Freed 0 ∈ tr /\ Freed 1 ∈ tr /\ Freed 2 ∈ tr.
Proof.
  eexists _, _. split; [vm_compute; reflexivity|]. split; [reflexivity|]. split; [by apply lost_none|].
  split; [by apply (rank_no_cycle id)|]. repeat split; apply elem_of_list_In; simpl; tauto.
Qed.

Print Assumptions C30_once.
Print Assumptions C30_observe.
Print Assumptions C30_stable.
Print Assumptions C30_not_moved.
Print Assumptions C30_no_ub.
Print Assumptions C31_once.
Print Assumptions C31_called_once.
Print Assumptions C31_after.
Print Assumptions C31_none_lost.
Print Assumptions C31_order.
Print Assumptions C31_order_all.
Print Assumptions C32_called.
Print Assumptions C32_propagate.
Print Assumptions C32_chain.
Print Assumptions C32_result.
Print Assumptions C32_origin.
Print Assumptions C33_drop.
Print Assumptions C33_all_ready_partial.
Print Assumptions C33_overwrite_refuted.
Print Assumptions C34_cancel.
Print Assumptions C34_end.
Print Assumptions C34_cancelled.
Print Assumptions C34_detached.
Print Assumptions C34_detached_called.
Print Assumptions C34_detached_all.
Print Assumptions C35_flat.
Print Assumptions C35_ready.
Print Assumptions C35_invalid_refuted.
Print Assumptions C36_refcount.
Print Assumptions C36_freed.
Print Assumptions C36_empty_partial.
Print Assumptions C36_cycle_refuted.
