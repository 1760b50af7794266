(** C22: pre_exit handlers. *)
From stdpp Require Import list.
From Verif.PreExit Require Import Model Spec Proof.

(** Registrations [ps], oldest first; each handler registers the handlers of its plan when invoked. *)
Theorem C22_order ps fuel : size ps < fuel ->
  exists s, register_all (map to_handler ps) stack0 = Ok s /\
    pre_exit fuel s = Ok (order ps, Stack [] true) /\ destroy (Stack [] true) = Ok tt.
Proof. exact (pre_exit_order ps fuel). Qed.

Theorem C22_exactly_once ps : order ps ≡ₚ ids ps.
Proof. exact (exactly_once ps). Qed.

Theorem C22_twice_rejected fuel fuel' s t s' r : pre_exit fuel s = Ok (t, s') -> pre_exit fuel' s' <> Ok r.
Proof. exact (twice_rejected fuel fuel' s t s' r). Qed.

Theorem C22_late_registration_rejected fuel s t s' h : pre_exit fuel s = Ok (t, s') -> push s' h = Abort.
Proof. exact (late_rejected fuel s t s' h). Qed.

Theorem C22_nested_rejected fuel i a b st c r : pre_exit fuel (Stack (H i (a ++ Drain :: b) :: st) c) <> Ok r.
Proof. exact (nested_rejected fuel i a b st c r). Qed.

(** Any interleaving of registrations and of the pops of the draining thread(s): the handlers
    invoked are those a LIFO stack hands out, none twice; at closing all have been invoked, and
    nothing is accepted any more. *)
Theorem C22_any_threads ls c : crun c0 ls = Ok c ->
  c_run c = takes [] ls /\ c_pushed c ≡ₚ c_run c ++ c_stack c /\
  (c_closed c = true -> c_pushed c ≡ₚ c_run c /\ forall l, cstep c l = Abort).
Proof. exact (concurrent ls c). Qed.

(** 1 registered first; 2 registers 3 and 4 when run. *)
Example C22_ex : exists s, register_all (map to_handler [P 1 []; P 2 [P 3 []; P 4 []]]) stack0 = Ok s /\
  pre_exit 20 s = Ok ([2; 4; 3; 1], Stack [] true).
Proof. eexists. split; reflexivity. Qed.
Example C22_threads_ex := C22_any_threads [LPush 1; LPush 2; LPop; LPush 3; LPop; LPop; LPop] _ eq_refl.

Print Assumptions C22_order.
Print Assumptions C22_exactly_once.
Print Assumptions C22_twice_rejected.
Print Assumptions C22_late_registration_rejected.
Print Assumptions C22_nested_rejected.
Print Assumptions C22_any_threads.
