(** Properties of futures of values that cannot be copied: C63-C65. *)
From Coq Require Import List Bool Arith.
From stdpp Require Import list.
From Verif.Unique Require Import Model Spec Trace Final.

Definition ends_in (r : option (st * list event)) (f : st -> list event -> Prop) : Prop :=
  match r with Some (s, tr) => f s tr | None => False end.

(** ** runs that meet the hypotheses. recover is attached while the task runs; it is given the future, and attaches then to
    it, which is ready by now; then gets the value, and the shared state is destroyed *)
Definition ex_chain : list label :=
  [LKeep; LC; LAttach KRecover; LResolve (Value 7); LC; LR; LR; LR; LRun 0; LAttach KThen; LC; LR; LC; LRun 0; LC; LC; LC].
Example ex_chain_run : ends_in (run init ex_chain) (fun s tr =>
  rest s /\ prom s = false /\ holder s = Nobody /\ attached tr = [0; 1] /\ fates tr = [0; 1] /\ started tr = [0; 1] /\
  resolved tr = [Value 7] /\ reads tr = [Slot (Full 7)] /\ gone tr = [tt] /\ GotThen 1 (Slot (Full 7)) ∈ tr).
Proof. vm_compute. repeat split. repeat (first [apply elem_of_list_here|apply elem_of_list_further]). Qed.
Example ex_chain_ok : LForget ∉ ex_chain /\ LGet ∉ ex_chain.
Proof. split; by rewrite elem_of_list_In; cbn; intuition. Qed.
(** detach() and the handle is dropped: the task goes on, its error is noted, and then the shared state is destroyed *)
Definition ex_keep : list label := [LKeep; LC; LReset; LResolve (Error 3); LR; LR; LR; LR].
Example ex_keep_run : ends_in (run init ex_keep) (fun s tr =>
  rest s /\ kept tr = [tt] /\ resolved tr = [Error 3] /\ gone tr = [tt]).
Proof. by vm_compute. Qed.
Example ex_keep_ok : forall k, LAttach k ∉ ex_keep.
Proof. intros k. rewrite elem_of_list_In. cbn. by intros [|[|[|[|[|[|[|[|]]]]]]]]. Qed.
(** the value is polled for, too early, in time, and too late *)
Definition ex_poll : list label := [LGet; LC; LResolve (Value 4); LR; LR; LGet; LC; LC; LGet; LC; LC; LR; LR; LReset].
Example ex_poll_run : ends_in (run init ex_poll) (fun s tr =>
  rest s /\ holder s <> Client /\ reads tr = [Slot (Full 4); Slot Hollow] /\ gone tr = [tt]).
Proof. by vm_compute. Qed.

(** ** C63: a continuation is called once, after the future is ready, whichever comes first *)
Theorem C63_once ls s tr : run init ls = Some (s, tr) -> NoDup (fates tr).
Proof. exact (once ls s tr). Qed.
Theorem C63_after ls s tr pre n post : run init ls = Some (s, tr) -> tr = pre ++ Started n :: post -> resolved pre <> [] /\ n ∈ attached pre.
Proof. exact (fun R => after ls s tr R pre n post). Qed.
(** missing: a promise overwritten by move assignment *)
Theorem C63_all_partial ls s tr n : run init ls = Some (s, tr) -> rest s -> prom s = false -> LForget ∉ ls -> n ∈ attached tr -> n ∈ fates tr.
Proof. exact (fun R Q P N => all_settled ls s tr R Q P N n). Qed.
Definition ex_forget : list label := [LAttach KDetach; LC; LForget].
Theorem C63_refuted : exists ls s tr, run init ls = Some (s, tr) /\ rest s /\ prom s = false /\ attached tr = [0] /\ fates tr = [] /\
  forall l, step s l = None.
Proof.
  exists ex_forget. destruct (run init ex_forget) as [[s tr]|] eqn:E; [|by vm_compute in E]. exists s, tr. split; [done|].
  vm_compute in E. injection E as <- <-. repeat split. by intros [].
Qed.
Print Assumptions C63_once.
Print Assumptions C63_after.
Print Assumptions C63_all_partial.
Print Assumptions C63_refuted.

(** ** C64: the value is handed over once *)
Theorem C64_resolved ls s tr : run init ls = Some (s, tr) -> length (resolved tr) <= 1.
Proof. exact (resolved_once ls s tr). Qed.
Theorem C64_reads ls s tr : run init ls = Some (s, tr) ->
  match resolved tr with [] => reads tr = [] | o :: _ => exists m, reads tr = given o m end.
Proof. exact (values ls s tr). Qed.
(** missing: futures that have been polled with get_try() *)
Theorem C64_then_partial ls s tr n g : run init ls = Some (s, tr) -> LGet ∉ ls -> GotThen n g ∈ tr ->
  exists o, resolved tr = [o] /\ g = intact o.
Proof. exact (then_value ls s tr n g). Qed.
Definition ex_polled : list label :=
  [LResolve (Value 7); LR; LR; LGet; LC; LC; LAttach KThen; LC; LC; LRun 0; LC; LC; LC; LR; LR].
Theorem C64_refuted : exists ls s tr, run init ls = Some (s, tr) /\ resolved tr = [Value 7] /\ GotThen 0 (Slot Hollow) ∈ tr.
Proof.
  exists ex_polled. destruct (run init ex_polled) as [[s tr]|] eqn:E; [|by vm_compute in E]. exists s, tr. split; [done|].
  vm_compute in E. injection E as <- <-. split; [done|]. repeat (first [apply elem_of_list_here|apply elem_of_list_further]).
Qed.
Print Assumptions C64_resolved.
Print Assumptions C64_reads.
Print Assumptions C64_then_partial.
Print Assumptions C64_refuted.

(** ** C65: the shared state is destroyed once, when the last user is gone, and not used any more; detach() is a user *)
Theorem C65_safe ls s tr : run init ls = Some (s, tr) -> bad s = false.
Proof. exact (safe ls s tr). Qed.
Theorem C65_once ls s tr : run init ls = Some (s, tr) -> length (gone tr) <= 1.
Proof. exact (gone_once ls s tr). Qed.
Theorem C65_not_early ls s tr : run init ls = Some (s, tr) -> holder s <> Nobody -> gone tr = [].
Proof. exact (not_early ls s tr). Qed.
(** missing: a promise overwritten by move assignment *)
Theorem C65_freed_partial ls s tr : run init ls = Some (s, tr) -> rest s -> prom s = false -> LForget ∉ ls -> holder s <> Client -> gone tr = [tt].
Proof. exact (freed ls s tr). Qed.
Theorem C65_leak_refuted : exists ls s tr, run init ls = Some (s, tr) /\ rest s /\ prom s = false /\ holder s <> Client /\ gone tr = [] /\
  forall l, step s l = None.
Proof.
  exists ex_forget. destruct (run init ex_forget) as [[s tr]|] eqn:E; [|by vm_compute in E]. exists s, tr. split; [done|].
  vm_compute in E. injection E as <- <-. repeat split; try done. by intros [].
Qed.
(** missing: futures to which a continuation is attached after detach() *)
Theorem C65_detached_partial ls s tr : run init ls = Some (s, tr) -> (forall k, LAttach k ∉ ls) -> kept tr <> [] -> gone tr <> [] -> resolved tr <> [].
Proof. exact (detached ls s tr). Qed.
Definition ex_detach_then : list label := [LKeep; LC; LAttach KThen; LC; LCancel].
Theorem C65_detached_refuted : exists ls s tr, run init ls = Some (s, tr) /\ LForget ∉ ls /\ kept tr <> [] /\ gone tr <> [] /\
  resolved tr = [] /\ prom s = true.
Proof.
  exists ex_detach_then. destruct (run init ex_detach_then) as [[s tr]|] eqn:E; [|by vm_compute in E]. exists s, tr. split; [done|].
  vm_compute in E. injection E as <- <-. repeat split; try done. by rewrite elem_of_list_In; cbn; intuition.
Qed.
Print Assumptions C65_safe.
Print Assumptions C65_once.
Print Assumptions C65_not_early.
Print Assumptions C65_freed_partial.
Print Assumptions C65_leak_refuted.
Print Assumptions C65_detached_partial.
Print Assumptions C65_detached_refuted.
