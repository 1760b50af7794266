(** What an observer of await sees: the resolutions of the future and the returns of the caller. *)
From Coq Require Import List.
From stdpp Require Import list.
From Verif.Await Require Import Model.

Definition resolutions (tr : list event) : list outcome := omap (fun e => match e with Resolved o => Some o | _ => None end) tr.
Definition returns (tr : list event) : list outcome := omap (fun e => match e with Returned o => Some o | _ => None end) tr.
(** the number of spurious wake-ups *)
Definition spurious (ls : list label) : nat := length (omap (fun l => match l with LSpurious => Some tt | _ => None end) ls).
