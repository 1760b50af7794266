(** Who uses the user's process, and when: C92. *)
From Coq Require Import List Bool Arith Lia.
From stdpp Require Import list.
From Verif.Process Require Import Model Spec Count Inv Final Props.

(** ** specification *)
(** calls a function of the user that may change the process (await, yield, close, set_error), or destroys it (823) *)
Definition changes (j : pc) : bool := match j with JCall _ _ | JFinal => true | _ => false end.
(** is about to look at it: state() (837, 925-928, 1009-1014, 1063) or whether it is still there (1080); a timeout does when it
    gets the mutex (1058-1063) *)
Definition looks (s : st) (j : pc) : bool :=
  match j with JTop | JDecide | JDelay | JSelf2 _ | JCts2 => true | JTimer => negb (tlock s) | _ => false end.
(** nobody uses the process while somebody else changes it *)
Definition undisturbed (s : st) : Prop := forall k1 k2 a b, k1 <> k2 -> jobs s !! k1 = Some a -> jobs s !! k2 = Some b ->
  changes a = true -> changes b = false /\ looks s b = false.

(** [looks] leaves nothing out: what other jobs do does not depend on state() or on whether the process is there *)
Definition as_if (q : pstate) (b : bool) (s : st) : st := set_pst q (set_down (ndown s) b s).
Theorem C92_looks c k ok j s q b : looks s j = false -> changes j = false ->
  job_step c k ok j (as_if q b s) = match job_step c k ok j s with Some (t, e) => Some (as_if q b t, e) | None => None end.
Proof.
  intros L C. destruct j; try done; cbn in *.
  all: rewrite ?L, ?andb_false_r; try done.
  all: try (unfold run_if; destruct (negb (is_nil (queue s)) || closeq s)).
  all: repeat (case_match; simplify_eq/=; try done).
Qed.

(** ** the theorem *)
Theorem C92_partial c p ls s tr : sane c -> avoids timed p ls -> run c (init p) ls = Some (s, tr) -> undisturbed s.
Proof.
  intros W A R k1 k2 a b N Ha Hb C. destruct (a_inv _ _ _ _ (all_run _ _ _ _ _ W A R)) as [_ _ It _ _ Itok _ Isu Io If _ _ Iact _ _ _].
  pose proof (cnt_two hw _ _ _ _ _ Ha Hb N). pose proof (cnt_two jf _ _ _ _ _ Ha Hb N).
  pose proof (cnt_le bw _ _ _ Hb). pose proof (cnt_le tm _ _ _ Hb). pose proof (cnt_le sh _ _ _ Hb). pose proof (cnt_le nf _ _ _ Hb).
  pose proof (b2n_le (running s)). unfold pos in *.
  destruct (final s).
  - specialize (If eq_refl) as (? & ? & _). destruct a; try done; destruct b; try done; cbn in *; lia.
  - specialize (Itok eq_refl). specialize (Isu eq_refl). specialize (Io eq_refl) as [_ ?].
    destruct a; try done; destruct b; try done; cbn in *; lia.
Qed.

(** states where this matters: the process downstream is ready before its predecessor has finished sending, and a job that
    looks at the process is beside the one that sends; and a call begins before the step that arranged for it has ended *)
Definition early_ready : list label := firstn 13 ex_1 ++ [LCts; LJob 1 true].
Definition early_call : list label := ex_1 ++ firstn 9 ex_2 ++ [LJob 1 true].
Example ex_use : ends (run full (init (Await, Forever)) early_ready) (fun s _ =>
    jobs s = [JSend Step (Val 5) 1 1; JCts2] /\ looks s JCts2 = true) /\
  ends (run full (init (Await, Forever)) early_call) (fun s _ => jobs s = [JEnd Step; JCall Delay CYield] /\ changes (JCall Delay CYield) = true).
Proof. vm_compute. auto. Qed.
Example ex_use_avoids : sane full /\ avoids timed (Await, Forever) early_ready /\ avoids timed (Await, Forever) early_call.
Proof. split; [done|]. split; (split; [done|]); by repeat constructor. Qed.

(** with a timeout: the process yields because of a timeout that is no longer meant, and the process downstream becomes
    ready: state() is called during yield() *)
Definition disturbed : list label := unpaced ++ [LCts; LJob 1 true].
Theorem C92_refuted : exists c p ls s tr, sane c /\ avoids delayed p ls /\ run c (init p) ls = Some (s, tr) /\
  jobs s = [JCall Timeout CYield; JCts2] /\ ~ undisturbed s.
Proof.
  exists await_only, (Await, Forever), disturbed.
  destruct (run await_only (init (Await, Forever)) disturbed) as [[s tr]|] eqn:E; [|by vm_compute in E].
  exists s, tr. split; [done|]. split; [split; [done|]; by repeat constructor|]. split; [done|].
  assert (J : jobs s = [JCall Timeout CYield; JCts2]) by (vm_compute in E; by injection E as <- <-).
  split; [done|]. intros U. by destruct (U 0 1 (JCall Timeout CYield) JCts2 ltac:(done) ltac:(by rewrite J) ltac:(by rewrite J) eq_refl).
Qed.
