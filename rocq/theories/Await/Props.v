(** C41: await; C42: await_for. [run (init o) ls = Some (s, tr)]: an execution, up to some point, of a call on a future that is
    ready with o, or not ready (None), under some schedule of caller, completion, notification and spurious wake-ups. *)
From Coq Require Import List Bool Lia.
From stdpp Require Import list.
From Verif.Await Require Import Model Spec Proof ForModel ForSpec ForProof.

(** ** C41: await *)
(** What is returned (or rethrown) is what the future has been resolved with, by that time. *)
Theorem C41_result o0 ls s tr : run (init o0) ls = Some (s, tr) -> forall t1 o t2, tr = t1 ++ Returned o :: t2 ->
  option_list o0 ++ resolutions t1 = [o].
Proof. exact (fun R t1 o t2 => t_result o0 ls s tr t1 o t2 R). Qed.
Theorem C41_once o0 ls s tr : run (init o0) ls = Some (s, tr) -> length (returns tr) <= 1 /\ length (resolutions tr) <= 1.
Proof. exact (t_once o0 ls s tr). Qed.
(** No completion is missed: once the future is resolved, the caller or the continuation can go on until the caller has
    returned, without any spurious wake-up; and no execution is infinite but for spurious wake-ups. *)
Theorem C41_progress o0 ls s tr : run (init o0) ls = Some (s, tr) -> option_list o0 ++ resolutions tr <> [] -> returns tr = [] ->
  exists l s' e, (l = LWait \/ l = LCont) /\ step s l = Some (s', e).
Proof. exact (t_progress o0 ls s tr). Qed.
Theorem C41_finite o0 ls s tr : run (init o0) ls = Some (s, tr) -> length ls <= 13 + 3 * spurious ls.
Proof. exact (t_finite o0 ls s tr). Qed.
(** The caller's mutex, condition variable and result are not used once it has returned. *)
Theorem C41_no_ub o0 ls s tr : run (init o0) ls = Some (s, tr) -> Ub ∉ tr /\
  (returns tr <> [] -> forall s' e, step s LCont <> Some (s', e)).
Proof. exact (fun R => conj (t_no_ub o0 ls s tr R) (t_stack o0 ls s tr R)). Qed.
(** Ready at the call; ready only when the continuation is attached; after a spurious wake-up and a wait; notified while the
    caller, spuriously awake, waits for the mutex. *)
Example C41_ex_ready : exists s, run (init (Some (Exc 4))) [LWait] = Some (s, [Returned (Exc 4)]).
Proof. eexists. vm_compute. reflexivity. Qed.
Example C41_ex_inline : exists s, run (init None) [LWait; LResolve (Val 5); LWait; LCont; LCont; LCont; LCont; LWait; LWait; LWait] =
  Some (s, [Resolved (Val 5); Returned (Val 5)]).
Proof. eexists. vm_compute. reflexivity. Qed.
Example C41_ex_sleep : exists s, run (init None) [LWait; LWait; LWait; LWait; LSpurious; LWait; LWait; LResolve (Val 5); LCont; LCont; LCont; LCont; LWait; LWait; LWait] =
  Some (s, [Resolved (Val 5); Returned (Val 5)]).
Proof. eexists. vm_compute. reflexivity. Qed.
Example C41_ex_race : exists s, run (init None) [LWait; LWait; LWait; LResolve (Exc 5); LWait; LCont; LSpurious; LCont; LCont; LCont; LWait; LWait] =
  Some (s, [Resolved (Exc 5); Returned (Exc 5)]).
Proof. eexists. vm_compute. reflexivity. Qed.

(** ** C42: await_for *)
(** A ready future that is returned holds the result of the argument. *)
Theorem C42_ready o0 ls s tr : frun (finit o0) ls = Some (s, tr) -> forall t1 o t2, tr = t1 ++ RetReady o :: t2 ->
  option_list o0 ++ fresolutions t1 = [o].
Proof. exact (fun R t1 o t2 => f_ready o0 ls s tr t1 o t2 R). Qed.
(** A pending future is returned only after the timeout, *)
Theorem C42_timeout o0 ls s tr : frun (finit o0) ls = Some (s, tr) -> forall t1 t2, tr = t1 ++ RetHold :: t2 -> FTimeout ∈ t1.
Proof. exact (fun R t1 t2 => f_timeout o0 ls s tr t1 t2 R). Qed.
(** and it is never resolved but with the result of the argument. *)
Theorem C42_pending o0 ls s tr : frun (finit o0) ls = Some (s, tr) -> RetHold ∈ tr ->
  forall h, HoldResolved h ∈ tr -> exists o, h = Orig o /\ option_list o0 ++ fresolutions tr = [o].
Proof. exact (f_pending o0 ls s tr). Qed.
(** A completion is never dropped: once the threads have nothing left to do, a resolved argument has had its result
    returned, or passed on to the future that was returned. *)
Theorem C42_no_loss o0 ls s tr : frun (finit o0) ls = Some (s, tr) ->
  (forall s' e, fstep s FStep <> Some (s', e)) -> (forall s' e, fstep s FCont <> Some (s', e)) ->
  (option_list o0 ++ fresolutions tr = [] /\ (freturns tr = [] \/ freturns tr = [None] /\ holds tr = [])) \/
  exists o, option_list o0 ++ fresolutions tr = [o] /\ (freturns tr = [Some o] \/ freturns tr = [None] /\ holds tr = [Orig o]).
Proof. exact (f_rest o0 ls s tr). Qed.
(** The call returns: until it has, some thread can go on, or the argument is not resolved and the time is running. *)
Theorem C42_progress o0 ls s tr : frun (finit o0) ls = Some (s, tr) -> freturns tr = [] ->
  (exists s' e, fstep s FStep = Some (s', e)) \/ (exists s' e, fstep s FCont = Some (s', e)) \/
  (option_list o0 ++ fresolutions tr = [] /\ exists s', fstep s FExpire = Some (s', [FTimeout])).
Proof. exact (f_progress o0 ls s tr). Qed.
Theorem C42_finite o0 ls s tr : frun (finit o0) ls = Some (s, tr) -> length ls <= 17 + 3 * fspurious ls.
Proof. exact (f_finite o0 ls s tr). Qed.
Theorem C42_once o0 ls s tr : frun (finit o0) ls = Some (s, tr) ->
  length (freturns tr) <= 1 /\ length (holds tr) <= 1 /\ length (fresolutions tr) <= 1.
Proof. exact (f_once o0 ls s tr). Qed.
(** The guarded state is not used once it has been destroyed, and the outcome is there when it is read. *)
Theorem C42_no_ub o0 ls s tr : frun (finit o0) ls = Some (s, tr) -> FUb ∉ tr.
Proof. exact (f_no_ub o0 ls s tr). Qed.
(** The completion comes between the timeout and the caller's last look: it is returned although the time is up. *)
Example C42_ex_race : exists s, frun (finit None)
    [FStep; FStep; FStep; FStep; FExpire; FResolve (Val 3); FCont; FCont; FCont; FStep; FStep; FStep; FCont] =
  Some (s, [FTimeout; FResolved (Val 3); RetReady (Val 3); HoldResolved NotAnError]).
Proof. eexists. vm_compute. reflexivity. Qed.
(** The continuation has taken hold of the guarded state, but the caller decides first, and returns first. *)
Example C42_ex_late : exists s, frun (finit None)
    [FStep; FStep; FStep; FStep; FExpire; FResolve (Exc 3); FCont; FStep; FStep; FStep; FCont; FCont] =
  Some (s, [FTimeout; FResolved (Exc 3); RetHold; HoldResolved (Orig (Exc 3))]).
Proof. eexists. vm_compute. reflexivity. Qed.
(** The completion comes long after. *)
Example C42_ex_after : exists s, frun (finit None) [FStep; FStep; FStep; FStep; FSpurious; FStep; FStep; FExpire; FStep; FStep; FStep; FResolve (Val 8); FCont] =
  Some (s, [FTimeout; RetHold; FResolved (Val 8); HoldResolved (Orig (Val 8))]).
Proof. eexists. vm_compute. reflexivity. Qed.
(** The completion wakes the caller. *)
Example C42_ex_wake : exists s, frun (finit None) [FStep; FStep; FStep; FStep; FResolve (Val 8); FCont; FCont; FCont; FCont; FStep; FStep; FStep; FStep] =
  Some (s, [FResolved (Val 8); HoldResolved NotAnError; RetReady (Val 8)]).
Proof. eexists. vm_compute. reflexivity. Qed.

Print Assumptions C41_result.
Print Assumptions C41_once.
Print Assumptions C41_progress.
Print Assumptions C41_finite.
Print Assumptions C41_no_ub.
Print Assumptions C42_ready.
Print Assumptions C42_timeout.
Print Assumptions C42_pending.
Print Assumptions C42_no_loss.
Print Assumptions C42_progress.
Print Assumptions C42_finite.
Print Assumptions C42_once.
Print Assumptions C42_no_ub.
