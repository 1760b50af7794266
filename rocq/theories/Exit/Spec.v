(** What is observed of tasks and pre_exit. *)
From Coq Require Import List.
From stdpp Require Import list.
From Verif.Exit Require Import Model.

Definition submitted (tr : list event) : list nat := flat_map (fun e => match e with Submitted i => [i] | _ => [] end) tr.
Definition armed (tr : list event) : list nat := flat_map (fun e => match e with Armed i => [i] | _ => [] end) tr.
Definition started (tr : list event) : list nat := flat_map (fun e => match e with Started i => [i] | _ => [] end) tr.
Definition ended (tr : list event) : list nat := flat_map (fun e => match e with Ended i => [i] | _ => [] end) tr.
Definition lost (tr : list event) : list nat := flat_map (fun e => match e with Lost i => [i] | _ => [] end) tr.
Definition late_timer (tr : list event) : list unit := flat_map (fun e => match e with LateTimer => [tt] | _ => [] end) tr.
Definition returned (tr : list event) : list unit := flat_map (fun e => match e with Returned => [tt] | _ => [] end) tr.
(** the tasks submitted before pre_exit was called *)
Fixpoint in_time (tr : list event) : list nat :=
  match tr with
  | [] => []
  | Called :: _ => []
  | Submitted i :: tr => i :: in_time tr
  | _ :: tr => in_time tr
  end.
(** only tasks of one priority, and no timer *)
Definition plain (p : nat) (l : label) : Prop :=
  match l with Outside (Exec q) | Task _ (Exec q) => q = p | Outside Arm | Task _ Arm => False | _ => True end.
(** no task gives the timer a task *)
Definition no_arm (l : label) : Prop := match l with Task _ Arm => False | _ => True end.
(** nobody asks for anything; tasks that are there execute and end *)
Definition internal (l : label) : Prop := match l with Outside _ | Task _ _ => False | _ => True end.
