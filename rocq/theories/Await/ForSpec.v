(** What an observer of await_for sees. *)
From Coq Require Import List.
From stdpp Require Import list.
From Verif.Await Require Import Model ForModel.

(** the resolutions of the argument *)
Definition fresolutions (tr : list fevent) : list outcome := omap (fun e => match e with FResolved o => Some o | _ => None end) tr.
(** the returns: [Some o], a future that is ready with o; [None], the future hold *)
Definition freturns (tr : list fevent) : list (option outcome) :=
  omap (fun e => match e with RetReady o => Some (Some o) | RetHold => Some None | _ => None end) tr.
(** the resolutions of hold *)
Definition holds (tr : list fevent) : list held := omap (fun e => match e with HoldResolved h => Some h | _ => None end) tr.
Definition fspurious (ls : list flabel) : nat := length (omap (fun l => match l with FSpurious => Some tt | _ => None end) ls).
