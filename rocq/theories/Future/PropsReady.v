(** C78: make_ready_future and make_exceptional_future. *)
From Coq Require Import List Bool.
From stdpp Require Import list.
From Verif.Future Require Import Model Ready ReadySpec ReadyProof.

(** make_ready_future(v, executor), whatever futures there are: the future is ready with v, nothing is given to an executor,
    and no function is called but that of 30 or 37. *)
Theorem C78_ready v s : exists s' tr c, run s (make_ready v s) = Some (s', tr) /\ makes s s' c (Val v) /\
  Resolved c (Val v) ∈ tr /\ (forall d, Handed d ∉ tr) /\ (forall d o, Called d o ∈ tr -> d = c) /\ hands_over s' c.
Proof. exact (ready_ok v s). Qed.
(** make_exceptional_future<T>(e, executor): the future is ready with e, and no function is called. *)
Theorem C78_exceptional e s : exists s' tr c, run s (make_exceptional e s) = Some (s', tr) /\ makes s s' c (Exc (Err e)) /\
  Resolved c (Exc (Err e)) ∈ tr /\ (forall d, Handed d ∉ tr) /\ (forall d o, Called d o ∉ tr) /\ hands_over s' c.
Proof. exact (exceptional_ok e s). Qed.
(** Two of them, one after the other; a continuation of each. *)
Example C78_ex : exists s1 s2 s3 t1 t2 t3, run init (make_ready 5 init) = Some (s1, t1) /\ run s1 (make_exceptional 7 s1) = Some (s2, t2) /\
  run s2 [LThen 0 []; L 3 AStep; LRecover 1 []; L 6 AStep; L 4 AInvoke; L 7 AStep] = Some (s3, t3) /\ Called 2 (Some (Val 5)) ∈ t3.
Proof. eexists _, _, _, _, _, _. repeat (split; [vm_compute; reflexivity|]). apply elem_of_list_In. vm_compute. tauto. Qed.

Print Assumptions C78_ready.
Print Assumptions C78_exceptional.
