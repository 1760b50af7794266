(** What is said of waiting inside the pool. *)
From Coq Require Import List.
From stdpp Require Import list.
From Verif.PoolWait Require Import Model.

(** steps the threads take by themselves, tasks return *)
Definition internal (l : label) : Prop := match l with Step _ _ | Poll _ _ _ | End _ | Resume _ => True | _ => False end.
(** none is left *)
Definition at_rest (m : nat) (s : st) : Prop := forall l, internal l -> step m s l = None.
(** a task awaits only tasks it has submitted itself: fork and join *)
Definition structured (tr : list event) : Prop :=
  forall tr1 x o tr2, tr = tr1 ++ Awaits (Some x) o :: tr2 -> exists y, o = Some y /\ Pushed (Some x) y ∈ tr1.
