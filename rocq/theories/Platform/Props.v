(** C86, C87: the executors and timers that use the operating system. *)
From Coq Require Import List Bool ZArith Lia.
From stdpp Require Import list.
From Verif.Platform Require Import Model Spec Proof.

(** ** C86: the Windows timer. [now], [t]: 100 ns since 1970; [d]: nanoseconds; [limit]: the last second for which gmtime_s succeeds *)
Section C86.
Open Scope Z_scope.
(** Once the duration is over the function may be executed, whatever the duration. *)
Theorem C86_prompt now d limit t : 0 <= now -> 0 <= d -> now * 100 + d <= t * 100 -> may_begin limit now d t.
Proof. exact (prompt now d limit t). Qed.
(** What is due earlier may be executed whenever what is due later may. *)
Theorem C86_order limit now d now' d' t : 0 <= now -> 0 <= d -> 0 <= d' -> now <= now' -> now * 100 + d <= now' * 100 + d' ->
  now' * 100 + d' < (limit + 1) * 1000000000 -> may_begin limit now' d' t -> may_begin limit now d t.
Proof. exact (order_ns limit now d now' d' t). Qed.
(** Not before, if the time is a whole number of milliseconds; *)
Theorem C86_exact_partial limit now d t : 0 <= now -> 0 <= d -> now * 100 + d < (limit + 1) * 1000000000 -> (1000000 | now * 100 + d) ->
  may_begin limit now d t -> now * 100 + d <= t * 100.
Proof. exact (exact_ns limit now d t). Qed.
(** less than a millisecond before in any case, *)
Theorem C86_bound limit now d t : 0 <= now -> 0 <= d -> now * 100 + d < (limit + 1) * 1000000000 -> may_begin limit now d t -> now * 100 + d - t * 100 < 1000000.
Proof. exact (early_ns limit now d t). Qed.
(** but before: at once, with a duration of 0.9 ms. *)
Theorem C86_early_refuted : exists limit now d t, 0 <= now /\ 0 <= d /\ now * 100 + d < (limit + 1) * 1000000000 /\ may_begin limit now d t /\ t * 100 < now * 100 + d /\ t = now.
Proof. exists 32535215999, 17632512000000000, 900000, 17632512000000000. unfold may_begin. repeat split; vm_compute; congruence. Qed.
(** A time after [limit] is now. *)
Theorem C86_far_refuted limit now d : 0 <= now -> 0 <= d -> 0 <= limit -> (limit + 1) * 1000000000 <= now * 100 + d -> may_begin limit now d now.
Proof. exact (far_ns limit now d). Qed.
(** 2025-11-16, one second and a half; the order of 1.5 s and 2 s; in a thousand years *)
Example C86_ex : let now := 17632512000000000 in let limit := 32535215999 in
  0 <= now /\ now * 100 + 1500000000 < (limit + 1) * 1000000000 /\ (1000000 | now * 100 + 1500000000) /\
  ~ may_begin limit now 1500000000 (now + 14999999) /\ may_begin limit now 1500000000 (now + 15000000) /\
  ~ may_begin limit now 2000000000 (now + 15000000) /\ may_begin limit now 1500000000 (now + 20000000) /\
  (limit + 1) * 1000000000 <= now * 100 + 1000 * 365 * 86400 * 1000000000.
Proof.
  unfold may_begin. repeat split; try (by vm_compute).
  - exists 1763251201500. by vm_compute.
  - intros [_ H]. by vm_compute in H.
  - intros [_ H]. by vm_compute in H.
Qed.
End C86.

(** ** C87 *)
(** Whatever is submitted, fails and is called back, in any order: a function is moved to the heap once; then it waits, or has been executed once
    and all that was made for it released, the function itself last, or it is not executed, and deleted once. *)
Theorem C87_history a s t n : runs a s t -> a <> WinTimer ->
  let h := of_call n t in h = [] \/ (kept n h /\ phases s !! n = Some Pending) \/ clean n h \/ unused n h.
Proof. exact (histories a s t n). Qed.
(** What waits can be called back, *)
Theorem C87_pending a s t n : runs a s t -> phases s !! n = Some Pending ->
  exists s' e, step a s (Fire n) = Some (s', e) /\ (Exec n ∈ e \/ (a = GcdTimer /\ shut s = true)) /\ Del n ∈ e.
Proof. exact (pending_fires a s t n). Qed.
(** and when nothing is left to call back, nothing is left at all. *)
Theorem C87_rest a s t n : runs a s t -> a <> WinTimer -> (forall m, step a s (Fire m) = None) -> New n ∈ t -> clean n (of_call n t) \/ unused n (of_call n t).
Proof. exact (rest a s t n). Qed.
(** The Windows timer: the system's objects are kept until the timer is destroyed, *)
Theorem C87_timers_refuted s t n : runs WinTimer s t -> Make n ∈ t -> shut s = false -> Close n ∉ t.
Proof. exact (timer_hist s t n). Qed.
(** the functions not executed by then are neither executed nor deleted, *)
Theorem C87_end_refuted s t n : runs WinTimer s t -> Make n ∈ t -> Exec n ∉ t -> shut s = true ->
  of_call n t = [New n; Make n; Close n] /\ step WinTimer s (Fire n) = None.
Proof. exact (timer_ends s t n). Qed.
(** nor is the function of a call that throws. *)
Theorem C87_throw_refuted s t n : runs WinTimer s t -> Throw n ∈ t -> Del n ∉ t /\ step WinTimer s (Fire n) = None.
Proof. exact (timer_refused s t n). Qed.
(** three calls, of which the system refuses the second: the pool, and the timer destroyed before the last is due *)
Fixpoint play (a : api) (s : st) (t : list ev) (ls : list label) : option (st * list ev) :=
  match ls with [] => Some (s, t) | l :: ls => match step a s l with Some (s', e) => play a s' (t ++ e) ls | None => None end end.
Lemma play_runs a ls s t s' t' : runs a s t -> play a s t ls = Some (s', t') -> runs a s' t'.
Proof.
  revert s t. induction ls as [|l ls IH]; simpl; intros s t R E; [by injection E as <- <-|].
  destruct (step a s l) as [[s1 e]|] eqn:ES; [|done]. eapply IH; [|done]. by eapply runs_step.
Qed.
Example C87_ex1 : exists s t, runs WinPool s t /\ (forall m, step WinPool s (Fire m) = None) /\
  of_call 0 t = [New 0; Make 0; Exec 0; Close 0; Del 0] /\ of_call 1 t = [New 1; Del 1; Throw 1] /\ of_call 2 t = [New 2; Make 2; Exec 2; Close 2; Del 2].
Proof.
  eexists _, _. split; [apply (play_runs WinPool [Call true; Call false; Call true; Fire 2; Fire 0; Shut] st0 []); [constructor|by vm_compute]|].
  split; [|by vm_compute]. intros [|[|[|m]]]; reflexivity.
Qed.
Example C87_ex2 : exists s t, runs WinTimer s t /\ shut s = true /\ Make 2 ∈ t /\ Exec 2 ∉ t /\ Throw 1 ∈ t /\ of_call 0 t = [New 0; Make 0; Exec 0; Del 0; Close 0].
Proof.
  eexists _, _. split; [apply (play_runs WinTimer [Call true; Call false; Call true; Fire 0; Shut] st0 []); [constructor|by vm_compute]|].
  repeat split; [by repeat (try (by left); right)| |by repeat (try (by left); right)].
  intros H. repeat (apply elem_of_cons in H as [H|H]; [discriminate|]). by apply elem_of_nil in H.
Qed.
Example C87_ex3 : exists s t, runs WinTimer s t /\ shut s = false /\ Make 0 ∈ t /\ Exec 0 ∈ t.
Proof.
  eexists _, _. split; [apply (play_runs WinTimer [Call true; Fire 0] st0 []); [constructor|by vm_compute]|].
  repeat split; by repeat (try (by left); right).
Qed.
Example C87_ex4 : exists s t, runs GcdTimer s t /\ of_call 0 t = [New 0; Exec 0; Del 0] /\ of_call 1 t = [New 1; Del 1] /\ phases s !! 2 = Some Pending.
Proof.
  eexists _, _. split; [apply (play_runs GcdTimer [Call true; Call true; Call true; Fire 0; Shut; Fire 1] st0 []); [constructor|by vm_compute]|].
  by vm_compute.
Qed.
Print Assumptions C86_prompt. Print Assumptions C86_order. Print Assumptions C86_exact_partial. Print Assumptions C86_bound.
Print Assumptions C86_early_refuted. Print Assumptions C86_far_refuted. Print Assumptions C87_history. Print Assumptions C87_pending.
Print Assumptions C87_rest. Print Assumptions C87_timers_refuted. Print Assumptions C87_end_refuted. Print Assumptions C87_throw_refuted.
