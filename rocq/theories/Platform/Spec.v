(** What C86 and C87 say. *)
From Coq Require Import List Bool ZArith.
From stdpp Require Import list.
From Verif.Platform Require Import Model.

(** the call an event is about *)
Definition about (e : ev) : nat := match e with New n | Make n | Throw n | Exec n | Close n | Del n => n end.
(** what has happened to the function of the n-th call *)
Definition of_call (n : nat) (t : list ev) : list ev := filter (fun e => about e = n) t.
(** everything that was made for it has been released, the function after its execution *)
Definition clean (n : nat) (l : list ev) : Prop :=
  l = [New n; Exec n; Del n] \/ l = [New n; Make n; Exec n; Close n; Del n].
(** still to be executed *)
Definition kept (n : nat) (l : list ev) : Prop := l = [New n] \/ l = [New n; Make n].
(** executed never, deleted once *)
Definition unused (n : nat) (l : list ev) : Prop := l = [New n; Del n] \/ l = [New n; Del n; Throw n].
