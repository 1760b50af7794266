(** C37-C40: when_all and when_any. [run v vd (init n) ls = Some (s, tr)]: an execution, up to some point, of a call with n
    arguments, those i with vd i being void, under some schedule and with some outcomes. *)
From Coq Require Import List Bool.
From stdpp Require Import list.
From Verif.When Require Import Model Spec Inv.

(** ** C37: when_all of an argument pack *)
(** What is delivered is what the arrivals up to that moment call for. *)
Theorem C37_result vd n ls s tr : 0 < n -> run PackAll vd (init n) ls = Some (s, tr) ->
  forall t1 r t2, tr = t1 ++ Result r :: t2 -> spec_all n vd (arrivals t1) = Some r.
Proof. exact (fun Hn R => t_prefix PackAll vd n Hn ls s tr R). Qed.
Theorem C37_once vd n ls s tr : 0 < n -> run PackAll vd (init n) ls = Some (s, tr) -> length (results tr) <= 1.
Proof. exact (fun Hn R => t_once PackAll vd n Hn ls s tr R). Qed.
(** No argument arrives twice. *)
Theorem C37_arrivals vd n ls s tr : 0 < n -> run PackAll vd (init n) ls = Some (s, tr) ->
  NoDup (arrivals tr).*1 /\ forall i, i ∈ (arrivals tr).*1 -> i < n.
Proof. exact (fun Hn R => t_arrivals PackAll vd n Hn ls s tr R). Qed.
(** Once the arrivals determine the result and nothing is in progress, it has been delivered, unless the client has dropped it. *)
Theorem C37_delivered vd n ls s tr r : 0 < n -> run PackAll vd (init n) ls = Some (s, tr) -> at_rest s -> Dropped ∉ tr ->
  spec_all n vd (arrivals tr) = Some r -> Result r ∈ tr.
Proof. exact (fun Hn R => t_settled PackAll vd n Hn ls s tr R r). Qed.
(** Until then no argument is forgotten: its continuation can start at any time, unless the executor has destroyed it. *)
Theorem C37_waiting vd n ls s tr i : 0 < n -> run PackAll vd (init n) ls = Some (s, tr) -> Dropped ∉ tr -> att s = None ->
  spec_all n vd (arrivals tr) = None -> i < n -> i ∉ (arrivals tr).*1 ->
  LostCont i ∈ tr \/ (exists o, conts s !! i = Some (Begun o) \/ conts s !! i = Some (Lock o)) \/
  forall o, exists s', step PackAll vd s (LStart i o) = Some (s', []).
Proof. exact (fun Hn R => t_waiting PackAll vd n Hn ls s tr R i). Qed.
(** Afterwards, or when the client has dropped the result, no argument is kept. *)
Theorem C37_released vd n ls s tr i : 0 < n -> run PackAll vd (init n) ls = Some (s, tr) -> at_rest s ->
  Dropped ∈ tr \/ spec_all n vd (arrivals tr) <> None -> held s i = false.
Proof. exact (fun Hn R => t_released PackAll vd n Hn ls s tr R i). Qed.
(** What is in progress can go on, and every execution comes to rest. *)
Theorem C37_progress vd n ls s tr : 0 < n -> run PackAll vd (init n) ls = Some (s, tr) -> length ls <= 5 * n + 3 /\
  (~ at_rest s -> exists l s' e, step PackAll vd s l = Some (s', e) /\
     match l with LRecover | LHold | LLock _ | LCrit _ | LCall | LEnd => True | _ => False end).
Proof. exact (fun Hn R => conj (t_finite PackAll vd n ls s tr Hn R) (t_progress PackAll vd n Hn ls s tr R)). Qed.
(** No second call of _f, no context changed while it is read, no empty optional read, no null exception rethrown. *)
Theorem C37_no_ub vd n ls s tr : 0 < n -> run PackAll vd (init n) ls = Some (s, tr) -> Ub ∉ tr /\ Result RUb ∉ tr.
Proof. exact (fun Hn R => t_no_ub PackAll vd n Hn ls s tr R). Qed.
(** With the first failure the other arguments attached so far are let go at once, but for continuations already running. *)
Theorem C37_release_now vd n ls s tr i x s' e : 0 < n -> run PackAll vd (init n) ls = Some (s, tr) -> spec_all n vd (arrivals tr) = None ->
  conts s !! i = Some (Lock (Exc x)) -> step PackAll vd s (LCrit i) = Some (s', e) ->
  forall j, j <> i -> held s' j = true ->
    att s = Some (j, true) \/ exists o', conts s !! j = Some (Begun o') \/ conts s !! j = Some (Lock o').
Proof. exact (fun Hn R SP C H => t_release_now PackAll vd n ls s tr i (Exc x) s' e Hn R SP C H Logic.I). Qed.
(** Three arguments, the second void; the first is ready while it is being attached; they arrive out of order. *)
Example C37_ex_all: exists s, run PackAll (fun i => i =? 1) (init 3)
    [LRecover; LStart 0 (Val 10); LLock 0; LHold; LRecover; LHold; LRecover; LHold; LCrit 0; LStart 2 (Val 12); LLock 2; LCrit 2; LStart 1 (Val 0); LLock 1; LCrit 1; LCall; LEnd] = Some (s, [Arrived 0 (Val 10); Arrived 2 (Val 12); Arrived 1 (Val 0); Result (RCall [10; 12] None)]) /\ at_rest s.
Proof.
  eexists. split; [vm_compute; reflexivity|]. repeat split. intros c H. repeat (apply elem_of_cons in H as [-> |H]; [done|]). by apply elem_of_nil in H.
Qed.
(** The second argument fails while the third is being attached; the third fails later. *)
Example C37_ex_fail: exists s, run PackAll (fun _ => false) (init 3)
    [LRecover; LHold; LRecover; LHold; LRecover; LStart 1 (Exc 7); LLock 1; LCrit 1; LStart 2 (Exc 8); LHold; LCall; LLock 2; LEnd; LCrit 2] = Some (s, [Arrived 1 (Exc 7); Result (RExc 7); Arrived 2 (Exc 8)]) /\ at_rest s.
Proof.
  eexists. split; [vm_compute; reflexivity|]. repeat split. intros c H. repeat (apply elem_of_cons in H as [-> |H]; [done|]). by apply elem_of_nil in H.
Qed.
(** A continuation destroyed by the executor is not noticed: the result never comes. (The specification above has no failure
    for it: the argument itself did not fail.) *)
Example C37_ex_lost: exists s, run PackAll (fun _ => false) (init 2) [LRecover; LHold; LRecover; LHold; LLose 0; LStart 1 (Val 3); LLock 1; LCrit 1] =
    Some (s, [LostCont 0; Arrived 1 (Val 3)]) /\ at_rest s /\ forall l, l <> LDrop -> step PackAll (fun _ => false) s l = None.
Proof.
  eexists. split; [vm_compute; reflexivity|]. split.
  - repeat split. intros c H. repeat (apply elem_of_cons in H as [-> |H]; [done|]). by apply elem_of_nil in H.
  - intros l Hl. destruct l as [| |[|[|i]] o|[|[|i]]|[|[|i]]| | | |[|[|i]]]; done.
Qed.

(** ** C38: when_any of an argument pack *)
(** What is delivered is what the arrivals up to that moment call for. *)
Theorem C38_result vd n ls s tr : 0 < n -> run PackAny vd (init n) ls = Some (s, tr) ->
  forall t1 r t2, tr = t1 ++ Result r :: t2 -> spec_any n false (arrivals t1) = Some r.
Proof. exact (fun Hn R => t_prefix PackAny vd n Hn ls s tr R). Qed.
Theorem C38_once vd n ls s tr : 0 < n -> run PackAny vd (init n) ls = Some (s, tr) -> length (results tr) <= 1.
Proof. exact (fun Hn R => t_once PackAny vd n Hn ls s tr R). Qed.
(** No argument arrives twice. *)
Theorem C38_arrivals vd n ls s tr : 0 < n -> run PackAny vd (init n) ls = Some (s, tr) ->
  NoDup (arrivals tr).*1 /\ forall i, i ∈ (arrivals tr).*1 -> i < n.
Proof. exact (fun Hn R => t_arrivals PackAny vd n Hn ls s tr R). Qed.
(** Once the arrivals determine the result and nothing is in progress, it has been delivered, unless the client has dropped it. *)
Theorem C38_delivered vd n ls s tr r : 0 < n -> run PackAny vd (init n) ls = Some (s, tr) -> at_rest s -> Dropped ∉ tr ->
  spec_any n false (arrivals tr) = Some r -> Result r ∈ tr.
Proof. exact (fun Hn R => t_settled PackAny vd n Hn ls s tr R r). Qed.
(** Until then no argument is forgotten: its continuation can start at any time, unless the executor has destroyed it. *)
Theorem C38_waiting vd n ls s tr i : 0 < n -> run PackAny vd (init n) ls = Some (s, tr) -> Dropped ∉ tr -> att s = None ->
  spec_any n false (arrivals tr) = None -> i < n -> i ∉ (arrivals tr).*1 ->
  LostCont i ∈ tr \/ (exists o, conts s !! i = Some (Begun o) \/ conts s !! i = Some (Lock o)) \/
  forall o, exists s', step PackAny vd s (LStart i o) = Some (s', []).
Proof. exact (fun Hn R => t_waiting PackAny vd n Hn ls s tr R i). Qed.
(** Afterwards, or when the client has dropped the result, no argument is kept. *)
Theorem C38_released vd n ls s tr i : 0 < n -> run PackAny vd (init n) ls = Some (s, tr) -> at_rest s ->
  Dropped ∈ tr \/ spec_any n false (arrivals tr) <> None -> held s i = false.
Proof. exact (fun Hn R => t_released PackAny vd n Hn ls s tr R i). Qed.
(** What is in progress can go on, and every execution comes to rest. *)
Theorem C38_progress vd n ls s tr : 0 < n -> run PackAny vd (init n) ls = Some (s, tr) -> length ls <= 5 * n + 3 /\
  (~ at_rest s -> exists l s' e, step PackAny vd s l = Some (s', e) /\
     match l with LRecover | LHold | LLock _ | LCrit _ | LCall | LEnd => True | _ => False end).
Proof. exact (fun Hn R => conj (t_finite PackAny vd n ls s tr Hn R) (t_progress PackAny vd n Hn ls s tr R)). Qed.
(** No second call of _f, no context changed while it is read, no empty optional read, no null exception rethrown. *)
Theorem C38_no_ub vd n ls s tr : 0 < n -> run PackAny vd (init n) ls = Some (s, tr) -> Ub ∉ tr /\ Result RUb ∉ tr.
Proof. exact (fun Hn R => t_no_ub PackAny vd n Hn ls s tr R). Qed.
(** ** C38_void: when_any of an argument pack of void futures *)
(** What is delivered is what the arrivals up to that moment call for. *)
Theorem C38_void_result vd n ls s tr : 0 < n -> run PackAnyVoid vd (init n) ls = Some (s, tr) ->
  forall t1 r t2, tr = t1 ++ Result r :: t2 -> spec_any n true (arrivals t1) = Some r.
Proof. exact (fun Hn R => t_prefix PackAnyVoid vd n Hn ls s tr R). Qed.
Theorem C38_void_once vd n ls s tr : 0 < n -> run PackAnyVoid vd (init n) ls = Some (s, tr) -> length (results tr) <= 1.
Proof. exact (fun Hn R => t_once PackAnyVoid vd n Hn ls s tr R). Qed.
(** No argument arrives twice. *)
Theorem C38_void_arrivals vd n ls s tr : 0 < n -> run PackAnyVoid vd (init n) ls = Some (s, tr) ->
  NoDup (arrivals tr).*1 /\ forall i, i ∈ (arrivals tr).*1 -> i < n.
Proof. exact (fun Hn R => t_arrivals PackAnyVoid vd n Hn ls s tr R). Qed.
(** Once the arrivals determine the result and nothing is in progress, it has been delivered, unless the client has dropped it. *)
Theorem C38_void_delivered vd n ls s tr r : 0 < n -> run PackAnyVoid vd (init n) ls = Some (s, tr) -> at_rest s -> Dropped ∉ tr ->
  spec_any n true (arrivals tr) = Some r -> Result r ∈ tr.
Proof. exact (fun Hn R => t_settled PackAnyVoid vd n Hn ls s tr R r). Qed.
(** Until then no argument is forgotten: its continuation can start at any time, unless the executor has destroyed it. *)
Theorem C38_void_waiting vd n ls s tr i : 0 < n -> run PackAnyVoid vd (init n) ls = Some (s, tr) -> Dropped ∉ tr -> att s = None ->
  spec_any n true (arrivals tr) = None -> i < n -> i ∉ (arrivals tr).*1 ->
  LostCont i ∈ tr \/ (exists o, conts s !! i = Some (Begun o) \/ conts s !! i = Some (Lock o)) \/
  forall o, exists s', step PackAnyVoid vd s (LStart i o) = Some (s', []).
Proof. exact (fun Hn R => t_waiting PackAnyVoid vd n Hn ls s tr R i). Qed.
(** Afterwards, or when the client has dropped the result, no argument is kept. *)
Theorem C38_void_released vd n ls s tr i : 0 < n -> run PackAnyVoid vd (init n) ls = Some (s, tr) -> at_rest s ->
  Dropped ∈ tr \/ spec_any n true (arrivals tr) <> None -> held s i = false.
Proof. exact (fun Hn R => t_released PackAnyVoid vd n Hn ls s tr R i). Qed.
(** What is in progress can go on, and every execution comes to rest. *)
Theorem C38_void_progress vd n ls s tr : 0 < n -> run PackAnyVoid vd (init n) ls = Some (s, tr) -> length ls <= 5 * n + 3 /\
  (~ at_rest s -> exists l s' e, step PackAnyVoid vd s l = Some (s', e) /\
     match l with LRecover | LHold | LLock _ | LCrit _ | LCall | LEnd => True | _ => False end).
Proof. exact (fun Hn R => conj (t_finite PackAnyVoid vd n ls s tr Hn R) (t_progress PackAnyVoid vd n Hn ls s tr R)). Qed.
(** No second call of _f, no context changed while it is read, no empty optional read, no null exception rethrown. *)
Theorem C38_void_no_ub vd n ls s tr : 0 < n -> run PackAnyVoid vd (init n) ls = Some (s, tr) -> Ub ∉ tr /\ Result RUb ∉ tr.
Proof. exact (fun Hn R => t_no_ub PackAnyVoid vd n Hn ls s tr R). Qed.
(** A failure, then a success, then a further one. *)
Example C38_ex_any: exists s, run PackAny (fun _ => false) (init 3)
    [LRecover; LHold; LRecover; LHold; LRecover; LHold; LStart 2 (Exc 5); LLock 2; LCrit 2; LStart 1 (Val 11); LLock 1; LCrit 1; LStart 0 (Val 10); LLock 0; LCall; LCrit 0; LEnd] = Some (s, [Arrived 2 (Exc 5); Arrived 1 (Val 11); Result (RCall [11] (Some 1)); Arrived 0 (Val 10)]) /\ at_rest s.
Proof.
  eexists. split; [vm_compute; reflexivity|]. repeat split. intros c H. repeat (apply elem_of_cons in H as [-> |H]; [done|]). by apply elem_of_nil in H.
Qed.
(** All fail. *)
Example C38_ex_fail: exists s, run PackAnyVoid (fun _ => true) (init 2)
    [LRecover; LHold; LRecover; LHold; LStart 1 (Exc 5); LLock 1; LCrit 1; LStart 0 (Exc 4); LLock 0; LCrit 0; LCall; LEnd] = Some (s, [Arrived 1 (Exc 5); Arrived 0 (Exc 4); Result (RExc 4)]) /\ at_rest s.
Proof.
  eexists. split; [vm_compute; reflexivity|]. repeat split. intros c H. repeat (apply elem_of_cons in H as [-> |H]; [done|]). by apply elem_of_nil in H.
Qed.

(** ** C39: when_all of a range *)
(** What is delivered is what the arrivals up to that moment call for. *)
Theorem C39_result vd n ls s tr : 0 < n -> run RangeAll vd (init n) ls = Some (s, tr) ->
  forall t1 r t2, tr = t1 ++ Result r :: t2 -> spec_all n vd (arrivals t1) = Some r.
Proof. exact (fun Hn R => t_prefix RangeAll vd n Hn ls s tr R). Qed.
Theorem C39_once vd n ls s tr : 0 < n -> run RangeAll vd (init n) ls = Some (s, tr) -> length (results tr) <= 1.
Proof. exact (fun Hn R => t_once RangeAll vd n Hn ls s tr R). Qed.
(** No argument arrives twice. *)
Theorem C39_arrivals vd n ls s tr : 0 < n -> run RangeAll vd (init n) ls = Some (s, tr) ->
  NoDup (arrivals tr).*1 /\ forall i, i ∈ (arrivals tr).*1 -> i < n.
Proof. exact (fun Hn R => t_arrivals RangeAll vd n Hn ls s tr R). Qed.
(** Once the arrivals determine the result and nothing is in progress, it has been delivered, unless the client has dropped it. *)
Theorem C39_delivered vd n ls s tr r : 0 < n -> run RangeAll vd (init n) ls = Some (s, tr) -> at_rest s -> Dropped ∉ tr ->
  spec_all n vd (arrivals tr) = Some r -> Result r ∈ tr.
Proof. exact (fun Hn R => t_settled RangeAll vd n Hn ls s tr R r). Qed.
(** Until then no argument is forgotten: its continuation can start at any time, unless the executor has destroyed it. *)
Theorem C39_waiting vd n ls s tr i : 0 < n -> run RangeAll vd (init n) ls = Some (s, tr) -> Dropped ∉ tr -> att s = None ->
  spec_all n vd (arrivals tr) = None -> i < n -> i ∉ (arrivals tr).*1 ->
  LostCont i ∈ tr \/ (exists o, conts s !! i = Some (Begun o) \/ conts s !! i = Some (Lock o)) \/
  forall o, exists s', step RangeAll vd s (LStart i o) = Some (s', []).
Proof. exact (fun Hn R => t_waiting RangeAll vd n Hn ls s tr R i). Qed.
(** Afterwards, or when the client has dropped the result, no argument is kept. *)
Theorem C39_released vd n ls s tr i : 0 < n -> run RangeAll vd (init n) ls = Some (s, tr) -> at_rest s ->
  Dropped ∈ tr \/ spec_all n vd (arrivals tr) <> None -> held s i = false.
Proof. exact (fun Hn R => t_released RangeAll vd n Hn ls s tr R i). Qed.
(** What is in progress can go on, and every execution comes to rest. *)
Theorem C39_progress vd n ls s tr : 0 < n -> run RangeAll vd (init n) ls = Some (s, tr) -> length ls <= 5 * n + 3 /\
  (~ at_rest s -> exists l s' e, step RangeAll vd s l = Some (s', e) /\
     match l with LRecover | LHold | LLock _ | LCrit _ | LCall | LEnd => True | _ => False end).
Proof. exact (fun Hn R => conj (t_finite RangeAll vd n ls s tr Hn R) (t_progress RangeAll vd n Hn ls s tr R)). Qed.
(** No second call of _f, no context changed while it is read, no empty optional read, no null exception rethrown. *)
Theorem C39_no_ub vd n ls s tr : 0 < n -> run RangeAll vd (init n) ls = Some (s, tr) -> Ub ∉ tr /\ Result RUb ∉ tr.
Proof. exact (fun Hn R => t_no_ub RangeAll vd n Hn ls s tr R). Qed.
(** With the first failure the other arguments attached so far are let go at once, but for continuations already running. *)
Theorem C39_release_now vd n ls s tr i x s' e : 0 < n -> run RangeAll vd (init n) ls = Some (s, tr) -> spec_all n vd (arrivals tr) = None ->
  conts s !! i = Some (Lock (Exc x)) -> step RangeAll vd s (LCrit i) = Some (s', e) ->
  forall j, j <> i -> held s' j = true ->
    att s = Some (j, true) \/ exists o', conts s !! j = Some (Begun o') \/ conts s !! j = Some (Lock o').
Proof. exact (fun Hn R SP C H => t_release_now RangeAll vd n ls s tr i (Exc x) s' e Hn R SP C H Logic.I). Qed.
Example C39_ex_empty : empty_range RangeAll = Some (ECall []).
Proof. reflexivity. Qed.
Example C39_ex_all: exists s, run RangeAll (fun _ => false) (init 3)
    [LRecover; LHold; LRecover; LHold; LStart 1 (Val 11); LLock 1; LCrit 1; LRecover; LHold; LStart 2 (Val 12); LLock 2; LCrit 2; LStart 0 (Val 10); LLock 0; LCrit 0; LCall; LEnd] = Some (s, [Arrived 1 (Val 11); Arrived 2 (Val 12); Arrived 0 (Val 10); Result (RCall [10; 11; 12] None)]) /\ at_rest s.
Proof.
  eexists. split; [vm_compute; reflexivity|]. repeat split. intros c H. repeat (apply elem_of_cons in H as [-> |H]; [done|]). by apply elem_of_nil in H.
Qed.
(** A value arrives while the failure is being delivered. *)
Example C39_ex_fail: exists s, run RangeAll (fun _ => false) (init 2)
    [LRecover; LHold; LRecover; LHold; LStart 1 (Val 11); LLock 1; LStart 0 (Exc 7); LLock 0; LCrit 0; LCall; LCrit 1; LEnd] = Some (s, [Arrived 0 (Exc 7); Result (RExc 7); Arrived 1 (Val 11)]) /\ at_rest s.
Proof.
  eexists. split; [vm_compute; reflexivity|]. repeat split. intros c H. repeat (apply elem_of_cons in H as [-> |H]; [done|]). by apply elem_of_nil in H.
Qed.

(** ** C40: when_any of a range *)
(** What is delivered is what the arrivals up to that moment call for. *)
Theorem C40_result vd n ls s tr : 0 < n -> run RangeAny vd (init n) ls = Some (s, tr) ->
  forall t1 r t2, tr = t1 ++ Result r :: t2 -> spec_any n (vd 0) (arrivals t1) = Some r.
Proof. exact (fun Hn R => t_prefix RangeAny vd n Hn ls s tr R). Qed.
Theorem C40_once vd n ls s tr : 0 < n -> run RangeAny vd (init n) ls = Some (s, tr) -> length (results tr) <= 1.
Proof. exact (fun Hn R => t_once RangeAny vd n Hn ls s tr R). Qed.
(** No argument arrives twice. *)
Theorem C40_arrivals vd n ls s tr : 0 < n -> run RangeAny vd (init n) ls = Some (s, tr) ->
  NoDup (arrivals tr).*1 /\ forall i, i ∈ (arrivals tr).*1 -> i < n.
Proof. exact (fun Hn R => t_arrivals RangeAny vd n Hn ls s tr R). Qed.
(** Once the arrivals determine the result and nothing is in progress, it has been delivered, unless the client has dropped it. *)
Theorem C40_delivered vd n ls s tr r : 0 < n -> run RangeAny vd (init n) ls = Some (s, tr) -> at_rest s -> Dropped ∉ tr ->
  spec_any n (vd 0) (arrivals tr) = Some r -> Result r ∈ tr.
Proof. exact (fun Hn R => t_settled RangeAny vd n Hn ls s tr R r). Qed.
(** Until then no argument is forgotten: its continuation can start at any time, unless the executor has destroyed it. *)
Theorem C40_waiting vd n ls s tr i : 0 < n -> run RangeAny vd (init n) ls = Some (s, tr) -> Dropped ∉ tr -> att s = None ->
  spec_any n (vd 0) (arrivals tr) = None -> i < n -> i ∉ (arrivals tr).*1 ->
  LostCont i ∈ tr \/ (exists o, conts s !! i = Some (Begun o) \/ conts s !! i = Some (Lock o)) \/
  forall o, exists s', step RangeAny vd s (LStart i o) = Some (s', []).
Proof. exact (fun Hn R => t_waiting RangeAny vd n Hn ls s tr R i). Qed.
(** Afterwards, or when the client has dropped the result, no argument is kept. *)
Theorem C40_released vd n ls s tr i : 0 < n -> run RangeAny vd (init n) ls = Some (s, tr) -> at_rest s ->
  Dropped ∈ tr \/ spec_any n (vd 0) (arrivals tr) <> None -> held s i = false.
Proof. exact (fun Hn R => t_released RangeAny vd n Hn ls s tr R i). Qed.
(** What is in progress can go on, and every execution comes to rest. *)
Theorem C40_progress vd n ls s tr : 0 < n -> run RangeAny vd (init n) ls = Some (s, tr) -> length ls <= 5 * n + 3 /\
  (~ at_rest s -> exists l s' e, step RangeAny vd s l = Some (s', e) /\
     match l with LRecover | LHold | LLock _ | LCrit _ | LCall | LEnd => True | _ => False end).
Proof. exact (fun Hn R => conj (t_finite RangeAny vd n ls s tr Hn R) (t_progress RangeAny vd n Hn ls s tr R)). Qed.
(** No second call of _f, no context changed while it is read, no empty optional read, no null exception rethrown. *)
Theorem C40_no_ub vd n ls s tr : 0 < n -> run RangeAny vd (init n) ls = Some (s, tr) -> Ub ∉ tr /\ Result RUb ∉ tr.
Proof. exact (fun Hn R => t_no_ub RangeAny vd n Hn ls s tr R). Qed.
(** With the first success the other arguments attached so far are let go at once, but for continuations already running. *)
Theorem C40_release_now vd n ls s tr i x s' e : 0 < n -> run RangeAny vd (init n) ls = Some (s, tr) -> spec_any n (vd 0) (arrivals tr) = None ->
  conts s !! i = Some (Lock (Val x)) -> step RangeAny vd s (LCrit i) = Some (s', e) ->
  forall j, j <> i -> held s' j = true ->
    att s = Some (j, true) \/ exists o', conts s !! j = Some (Begun o') \/ conts s !! j = Some (Lock o').
Proof. exact (fun Hn R SP C H => t_release_now RangeAny vd n ls s tr i (Val x) s' e Hn R SP C H Logic.I). Qed.
Example C40_ex_empty : empty_range RangeAny = Some EBroken.
Proof. reflexivity. Qed.
(** A failure, a success and one that comes too late. *)
Example C40_ex_any: exists s, run RangeAny (fun _ => false) (init 3)
    [LRecover; LHold; LStart 0 (Exc 7); LLock 0; LCrit 0; LRecover; LStart 1 (Val 11); LLock 1; LCrit 1; LCall; LHold; LRecover; LHold; LStart 2 (Val 12); LEnd; LLock 2] = Some (s, [Arrived 0 (Exc 7); Arrived 1 (Val 11); Result (RCall [11] (Some 1))]) /\ at_rest s.
Proof.
  eexists. split; [vm_compute; reflexivity|]. repeat split. intros c H. repeat (apply elem_of_cons in H as [-> |H]; [done|]). by apply elem_of_nil in H.
Qed.
(** All fail. *)
Example C40_ex_fail: exists s, run RangeAny (fun _ => false) (init 2)
    [LRecover; LHold; LRecover; LHold; LStart 0 (Exc 7); LLock 0; LCrit 0; LStart 1 (Exc 8); LLock 1; LCrit 1; LCall; LEnd] = Some (s, [Arrived 0 (Exc 7); Arrived 1 (Exc 8); Result (RExc 8)]) /\ at_rest s.
Proof.
  eexists. split; [vm_compute; reflexivity|]. repeat split. intros c H. repeat (apply elem_of_cons in H as [-> |H]; [done|]). by apply elem_of_nil in H.
Qed.

Print Assumptions C37_result.
Print Assumptions C37_once.
Print Assumptions C37_arrivals.
Print Assumptions C37_delivered.
Print Assumptions C37_waiting.
Print Assumptions C37_released.
Print Assumptions C37_progress.
Print Assumptions C37_no_ub.
Print Assumptions C37_release_now.
Print Assumptions C38_result.
Print Assumptions C38_once.
Print Assumptions C38_arrivals.
Print Assumptions C38_delivered.
Print Assumptions C38_waiting.
Print Assumptions C38_released.
Print Assumptions C38_progress.
Print Assumptions C38_no_ub.
Print Assumptions C38_void_result.
Print Assumptions C38_void_once.
Print Assumptions C38_void_arrivals.
Print Assumptions C38_void_delivered.
Print Assumptions C38_void_waiting.
Print Assumptions C38_void_released.
Print Assumptions C38_void_progress.
Print Assumptions C38_void_no_ub.
Print Assumptions C39_result.
Print Assumptions C39_once.
Print Assumptions C39_arrivals.
Print Assumptions C39_delivered.
Print Assumptions C39_waiting.
Print Assumptions C39_released.
Print Assumptions C39_progress.
Print Assumptions C39_no_ub.
Print Assumptions C39_release_now.

Print Assumptions C40_result.
Print Assumptions C40_once.
Print Assumptions C40_arrivals.
Print Assumptions C40_delivered.
Print Assumptions C40_waiting.
Print Assumptions C40_released.
Print Assumptions C40_progress.
Print Assumptions C40_no_ub.
Print Assumptions C40_release_now.

