(** C77: annotate_counters::wait. [init k] is the state when wait(n) is called and there are k + 1 objects. *)
From Coq Require Import List Bool Arith ZArith Lia.
From stdpp Require Import list.
From Verif.Counters Require Import Model Spec Proof.

(** wait(n) returns only when n objects are left. *)
Theorem C77_returns n k ls s tr a b : run n (init k) ls = Some (s, tr) -> tr = a ++ Returned :: b -> live k a = Z.of_nat n.
Proof. exact (returns n k ls s tr a b). Qed.

(** When all is at rest and n objects are left, after a destruction, wait(n) has returned, unless a notification came between
    the evaluation of the predicate and the beginning of waiting. *)
Theorem C77_wakes_partial n k ls s tr : run n (init k) ls = Some (s, tr) -> at_rest n s -> live k tr = Z.of_nat n ->
  last_gone tr -> ~ gap tr -> waiter s = Out.
Proof. exact (wakes n k ls s tr). Qed.

(** The notification is made without the mutex, so it can come there: the last object is destroyed, nothing more will happen,
    and wait(0) waits. *)
Theorem C77_lost_refuted : exists ls s tr, run 0 (init 0) ls = Some (s, tr) /\ live 0 tr = 0%Z /\ last_gone tr /\
  waiter s = Blocked /\ (forall l, l <> Spurious -> step 0 s l = None).
Proof.
  exists [Wait; Dtor; Note; Wait]. eexists _, [Checked false; Gone; Noted; Blocks]. split; [vm_compute; reflexivity|].
  split; [done|]. split; [intros a b E; do 4 (destruct a as [|? a]; simplify_eq/=); by destruct a|]. split; [done|].
  intros l Hl. destruct l; done.
Qed.
(** Nobody is told that a copy has been made. *)
Theorem C77_made_refuted : exists ls s tr, run 2 (init 0) ls = Some (s, tr) /\ live 0 tr = 2%Z /\ ~ gap tr /\ at_rest 2 s /\ waiter s = Blocked.
Proof.
  exists [Wait; Wait; Copy]. eexists _, [Checked false; Blocks; Made]. split; [vm_compute; reflexivity|]. split; [done|].
  split; [|by split]. intros (a & b & c & E & F & _). destruct a as [|? [|? [|? a]]]; simplify_eq/=; try (by destruct a).
  destruct b as [|? [|? b]]; simplify_eq/=; try (by apply elem_of_nil in F); by destruct b.
Qed.
(** That n objects are left during the call is not enough. *)
Theorem C77_passed_refuted : exists ls s tr a b, run 1 (init 1) ls = Some (s, tr) /\ tr = a ++ b /\ live 1 a = 1%Z /\ ~ gap tr /\
  waiter s = Blocked /\ (forall l, l <> Spurious -> step 1 s l = None).
Proof.
  exists [Wait; Wait; Dtor; Dtor; Note; Note; Wait; Wait; Wait].
  eexists _, [Checked false; Blocks; Gone; Gone; Noted; Noted; Checked false; Blocks], [Checked false; Blocks; Gone], _.
  split; [vm_compute; reflexivity|]. split; [done|]. split; [done|]. split.
  - intros (a & b & c & E & F & G).
    assert (B : exists d, b ++ Blocks :: c = Blocks :: d).
    { do 9 (destruct a as [|? a]; simplify_eq/=; try (by eexists)). }
    destruct B as [d B]. destruct b as [|? b]; simplify_eq/=; [by apply elem_of_nil in F|apply G; by left].
  - split; [done|]. intros l Hl. destruct l; done.
Qed.
(** A destructor may notify when wait has returned and the counters are gone. *)
Theorem C77_ub_refuted : exists ls s tr, run 0 (init 0) ls = Some (s, tr) /\ Ub ∈ tr.
Proof.
  exists [Dtor; Wait; Free; Note]. eexists _, _. split; [vm_compute; reflexivity|]. apply elem_of_list_In. vm_compute. auto.
Qed.

(** An execution that meets the hypotheses: three objects, one more copy, wait(1). *)
Example C77_ex : exists ls s tr, run 1 (init 2) ls = Some (s, tr) /\ at_rest 1 s /\ live 2 tr = 1%Z /\ last_gone tr /\ ~ gap tr /\ Returned ∈ tr.
Proof.
  exists [Wait; Wait; Dtor; Note; Copy; Dtor; Wait; Dtor; Note; Note; Wait].
  eexists _, [Checked false; Blocks; Gone; Noted; Made; Gone; Gone; Noted; Noted; Checked true; Returned].
  split; [vm_compute; reflexivity|]. split; [by split|]. split; [done|]. split.
  - intros a b E. do 12 (destruct a as [|? a]; simplify_eq/=; try (by left)).
  - split; [|by do 10 right; left]. intros (a & b & c & E & F & G).
    assert (B : exists d, b ++ Blocks :: c = Blocks :: d).
    { do 12 (destruct a as [|? a]; simplify_eq/=; try (by eexists)). }
    destruct B as [d B]. destruct b as [|? b]; simplify_eq/=; [by apply elem_of_nil in F|apply G; by left].
Qed.

Print Assumptions C77_returns.
Print Assumptions C77_wakes_partial.
Print Assumptions C77_lost_refuted.
Print Assumptions C77_made_refuted.
Print Assumptions C77_passed_refuted.
Print Assumptions C77_ub_refuted.
