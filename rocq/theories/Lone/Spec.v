(** What is observed of a process whose results cannot be copied. *)
From Coq Require Import List.
From stdpp Require Import list.
From Verif.Lone Require Import Model.

Definition sent (tr : list event) : list nat := flat_map (fun e => match e with Sent v => [v] | _ => [] end) tr.
Definition began (tr : list event) : list nat := flat_map (fun e => match e with Began v => [v] | _ => [] end) tr.
Definition results (tr : list event) : list outcome := flat_map (fun e => match e with Result o => [o] | _ => [] end) tr.
(** to whom, what *)
Definition delivered (tr : list event) : list (nat * outcome) := flat_map (fun e => match e with Out d o => [(d, o)] | _ => [] end) tr.
Definition attached (tr : list event) : list nat := flat_map (fun e => match e with Attached d => [d] | _ => [] end) tr.
Definition closed (tr : list event) : list nat := flat_map (fun e => match e with Closed d => [d] | _ => [] end) tr.
Definition dropped (tr : list event) : list unit := flat_map (fun e => match e with Dropped => [tt] | _ => [] end) tr.
(** nothing is going on: no job, no call outside, no message that downstream has not dealt with *)
Definition rest (s : st) : Prop := jobs s = [] /\ pends s = [] /\ owed s = [].
(** the receiver is ready (or gone) *)
Definition is_ready (s : st) : Prop := rcount s = 0.
(** what the library, the user's function and downstream do; the environment sends and attaches nothing *)
Definition inner (l : label) : bool := match l with LCts _ | LPend _ | LJob _ | LRet _ _ => true | _ => false end.
