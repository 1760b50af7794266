(** What C75 says: the order in which a pool starts its tasks, in terms of events. *)
From stdpp Require Import list.
From Verif.Executor Require Import Queue QueueSpec Pool PoolProof.

(** the priority with which task t was submitted: 0 is high, 1 medium, 2 low *)
Definition prios (ls : list label) : list nat := omap (fun l => match l with Execute p _ => Some p | _ => None end) ls.
Definition prio (ls : list label) (t : nat) : nat := default 0 (prios ls !! t).
Definition priorities_ok (ls : list label) : Prop := Forall (fun p => p < 4) (prios ls).

(** the submissions and starts of those tasks t with [home t = j], as operations on a queue *)
Fixpoint ops (pr home : nat -> nat) (j : nat) (tr : list event) : list (qop nat) :=
  match tr with
  | [] => []
  | Pushed t :: tr => (if home t =? j then [Push (pr t) t] else []) ++ ops pr home j tr
  | Started t :: tr => (if home t =? j then [Pop 0] else []) ++ ops pr home j tr
  | _ :: tr => ops pr home j tr
  end.
Definition started (home : nat -> nat) (j : nat) (tr : list event) : list nat := filter (fun t => home t = j) (starts tr).
(** the tasks of [home t = j] are started in order of priority, and of submission within a priority (QueueSpec.v) *)
Definition in_order (pr home : nat -> nat) (j : nat) (tr : list event) : Prop :=
  exists l, serves [] (ops pr home j tr) (started home j tr) l.
