(** C74: the reports of a progress_tracker. *)
From Coq Require Import List Bool Arith ZArith Lia.
From stdpp Require Import list.
From Verif.Signal Require Import Model Spec Proof.

(** Each completed invocation reports at most once, in all executions, and exactly once when no thread is in task_done. *)
Theorem C74_once ls s tr : run init ls = Some (s, tr) ->
  NoDup ((fun r => r.1.1) <$> reports tr) /\
  (forall i, i ∈ (fun r => r.1.1) <$> reports tr -> i < finished tr) /\
  (at_rest s -> (fun r => r.1.1) <$> reports tr ≡ₚ seq 0 (finished tr)).
Proof. exact (once ls s tr). Qed.

(** What a report says was the case at a moment after the completion it reports and before the report. *)
Theorem C74_says ls s tr tr1 tr2 i n d : run init ls = Some (s, tr) -> tr = tr1 ++ Report i n d :: tr2 ->
  (exists a b, tr1 = a ++ b /\ Done i ∈ a /\ n = (tracked a mod 2 ^ 64)%Z) /\
  (exists a b, tr1 = a ++ b /\ Done i ∈ a /\ d = finished a) /\
  i < d <= finished tr1.
Proof. exact (says ls s tr tr1 tr2 i n d). Qed.

(** The number of all completions is reported, with the right number of steps if that has not changed since. *)
Theorem C74_final ls s tr : run init ls = Some (s, tr) -> at_rest s -> 0 < finished tr ->
  exists n, Report (finished tr - 1) n (finished tr) ∈ tr /\
    (forall tr1 tr2, tr = tr1 ++ Done (finished tr - 1) :: tr2 -> Added ∉ tr2 -> Gone ∉ tr2 -> n = (tracked tr mod 2 ^ 64)%Z).
Proof. exact (final ls s tr). Qed.

(** The threads in task_done can always come to the end of it, without any further invocation. *)
Theorem C74_rest s : exists ls s' tr, run s ls = Some (s', tr) /\ at_rest s' /\ completed s' = completed s.
Proof. exact (comes_to_rest s). Qed.

(** If no two invocations are in task_done at a time then the reports say 1, 2, 3, ... *)
Theorem C74_in_order_partial ls s tr : run init ls = Some (s, tr) -> one_at_a_time tr ->
  (fun r => r.2) <$> reports tr = seq 1 (length (reports tr)).
Proof. exact (ordered ls s tr). Qed.

(** Otherwise progress is reported going back: the last report, begun after the end of the other, says that 1 of 2 is done. *)
Theorem C74_back_refuted : exists ls s tr n, run init ls = Some (s, tr) /\ at_rest s /\ finished tr = 2 /\
  exists tr1 i j, tr = tr1 ++ [Report i n 2; Reported i; Report j n 1; Reported j].
Proof.
  exists [Add; Add; Finish; ReadSteps 0; ReadCompleted 0; Finish; ReadSteps 1; ReadCompleted 1; Signal 1; End 1; Signal 0; End 0].
  eexists _, _, 2%Z. split; [vm_compute; reflexivity|]. split; [intros k; vm_compute; auto|]. split; [reflexivity|].
  exists [Added; Added; Done 0; Done 1], 1, 0. reflexivity.
Qed.

(** And a number can be passed over: nobody is told that 1 of 2 is done; 2 of 2 is reported twice. *)
Theorem C74_missed_refuted : exists ls s tr, run init ls = Some (s, tr) /\ at_rest s /\ finished tr = 2 /\
  (fun r => r.2) <$> reports tr = [2; 2].
Proof.
  exists [Add; Add; Finish; Finish; ReadSteps 0; ReadCompleted 0; Signal 0; End 0; ReadCompleted 0; ReadSteps 0; Signal 0; End 0].
  eexists _, _. split; [vm_compute; reflexivity|]. split; [intros k; vm_compute; auto|]. split; reflexivity.
Qed.

(** And the callback can be called while it is running, by another thread. *)
Theorem C74_overlap_refuted : exists ls s tr tr1 tr2 n m d e i j, run init ls = Some (s, tr) /\
  tr = tr1 ++ Report i n d :: Report j m e :: tr2 /\ Reported i ∈ tr2 /\ Reported j ∈ tr2 /\ i <> j.
Proof.
  exists [Add; Add; Finish; Finish; ReadSteps 0; ReadCompleted 0; ReadSteps 1; ReadCompleted 1; Signal 0; Signal 1; End 0; End 0].
  eexists _, _, [Added; Added; Done 0; Done 1], [Reported 0; Reported 1], 2%Z, 2%Z, 2, 2, 0, 1.
  split; [vm_compute; reflexivity|]. split; [reflexivity|]. split; [by left|]. split; [right; by left|lia].
Qed.

(** An execution meeting the hypotheses: three tracked functions, one destroyed before the end, two invoked one after the
    other. *)
Example C74_example : exists ls s tr, run init ls = Some (s, tr) /\ at_rest s /\ one_at_a_time tr /\ finished tr = 2 /\
  reports tr = [(0, 3%Z, 1); (1, 2%Z, 2)].
Proof.
  exists [Add; Add; Add; Finish; ReadSteps 0; ReadCompleted 0; Signal 0; Drop; Finish; End 0; ReadCompleted 0; ReadSteps 0; Signal 0; End 0].
  eexists _, _. split; [vm_compute; reflexivity|]. split; [intros k; vm_compute; auto|].
  split; [apply oaat_spec; reflexivity|]. split; reflexivity.
Qed.

Print Assumptions C74_once.
Print Assumptions C74_says.
Print Assumptions C74_final.
Print Assumptions C74_rest.
Print Assumptions C74_in_order_partial.
Print Assumptions C74_back_refuted.
Print Assumptions C74_missed_refuted.
Print Assumptions C74_overlap_refuted.
