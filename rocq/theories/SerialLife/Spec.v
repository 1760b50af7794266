(** What is observed of a serial queue and its tasks. *)
From Coq Require Import List.
From stdpp Require Import list.
From Verif.SerialLife Require Import Model.

Definition enqs (tr : list event) : list nat := flat_map (fun e => match e with Enqueued i => [i] | _ => [] end) tr.
Definition starts (tr : list event) : list nat := flat_map (fun e => match e with Started i => [i] | _ => [] end) tr.
Definition ends (tr : list event) : list nat := flat_map (fun e => match e with Ended i => [i] | _ => [] end) tr.
Definition dead (tr : list event) : list nat := flat_map (fun e => match e with Destroyed i => [i] | _ => [] end) tr.
Definition drops (tr : list event) : list unit := flat_map (fun e => match e with JobDropped => [tt] | _ => [] end) tr.
Definition frees (tr : list event) : list unit := flat_map (fun e => match e with Freed => [tt] | _ => [] end) tr.
(** no call, no job *)
Definition rest (s : st) : Prop := calling s = 0 /\ jobs s = 0 /\ workers s = [].
(** steps that are not taken by users of the queue or by an executor that drops a job *)
Definition inner (l : label) : bool := match l with Submit | Begin | Work _ => true | _ => false end.
