(** C53: progress_tracker. *)
From stdpp Require Import gmap.
From Coq Require Import ZArith.
From Verif.Progress Require Import Model Proof.
Open Scope Z_scope.

(** steps() is the number of live tracked functions, over all histories without assignment. *)
Theorem C53_steps_partial os s : Forall no_assign os -> run init os = Some s -> alive s = true ->
  steps s = Z.of_nat (linked (clients s)) mod 2 ^ 64.
Proof. exact (steps_final os s). Qed.

(** With assignments: steps() is ahead by the number of assignments over a linked function, over all histories. *)
Theorem C53_steps_exact os s : run init os = Some s -> alive s = true ->
  steps s = Z.of_nat (linked (clients s) + lost init os) mod 2 ^ 64.
Proof. exact (exact_final os s). Qed.

(** completed() is the number of invocations that returned, over all histories. *)
Theorem C53_completed os s : run init os = Some s -> completed s = Z.of_nat (returns init os) mod 2 ^ 64.
Proof. exact (completed_final os s). Qed.

(** Assignment loses track: no function is left, steps() says 1. *)
Theorem C53_steps_with_assignment_refuted : exists os s, run init os = Some s /\ alive s = true /\
  linked (clients s) = 0%nat /\ steps s = 1.
Proof.
  exists [Wrap 0; Wrap 1; MoveAssign 0 1; Destroy 0; Destroy 1]; eexists.
  split; [vm_compute; reflexivity|]. vm_compute. auto.
Qed.
Theorem C53_steps_with_copy_assignment_refuted : exists os s, run init os = Some s /\ alive s = true /\
  linked (clients s) = 0%nat /\ steps s = 1.
Proof.
  exists [Wrap 0; Wrap 1; CopyAssign 0 1; Destroy 0; Destroy 1]; eexists.
  split; [vm_compute; reflexivity|]. vm_compute. auto.
Qed.

(** completed() exceeds steps() as soon as a finished function is destroyed. *)
Theorem C53_completed_bounded_refuted : exists os s, Forall no_assign os /\ run init os = Some s /\ alive s = true /\
  steps s < completed s.
Proof.
  exists [Wrap 0; Invoke 0; Destroy 0]; eexists.
  split; [repeat constructor|]. split; [vm_compute; reflexivity|]. vm_compute. auto.
Qed.

Example C53_ex := C53_steps_partial [Wrap 0; Copy 1 0; Move 2 0; Invoke 2; Destroy 0; Invoke 1]%nat _
  ltac:(repeat constructor) eq_refl eq_refl.
Example C53_ex_value : (steps <$> run init [Wrap 0; Copy 1 0; Move 2 0; Invoke 2; Destroy 0; Invoke 1]%nat) = Some 2.
Proof. reflexivity. Qed.

Example C53_exact_ex := C53_steps_exact [Wrap 0; Wrap 1; Copy 2 1; CopyAssign 0 1; MoveAssign 2 0; Destroy 0]%nat _ eq_refl eq_refl.
Example C53_exact_value : (fun s => (steps s, linked (clients s))) <$> run init [Wrap 0; Wrap 1; Copy 2 1; CopyAssign 0 1; MoveAssign 2 0; Destroy 0]%nat = Some (4, 2%nat).
Proof. reflexivity. Qed.

Print Assumptions C53_steps_partial.
Print Assumptions C53_steps_exact.
Print Assumptions C53_completed.
Print Assumptions C53_steps_with_assignment_refuted.
Print Assumptions C53_steps_with_copy_assignment_refuted.
Print Assumptions C53_completed_bounded_refuted.
