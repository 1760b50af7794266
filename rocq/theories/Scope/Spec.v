(** What callers of scope rely on. *)
From Coq Require Import List.
From stdpp Require Import list.
From Verif.Scope Require Import Model.

(** what a function does, and how it ends, if nobody is in the way: scope makes a bracket around what f does and hands on
    how f ended; if the lock guard cannot be made f is not called *)
Fixpoint alone (c : cmd) : list event * outcome :=
  match c with
  | End r => ([], r)
  | Do a c => let '(l, r) := alone c in (Did a :: l, r)
  | Scope m None f k => let '(l1, r1) := alone f in let '(l2, r2) := alone (k r1) in (Enter m :: l1 ++ Leave m :: l2, r2)
  | Scope m (Some e) f k => alone (k (Thrown e))
  end.
(** what thread i did *)
Definition by_thread (i : nat) (tr : list (nat * event)) : list event :=
  flat_map (fun e => if e.1 =? i then [e.2] else []) tr.
(** between two entries for the same mutex the first one has left *)
Definition exclusive (tr : list (nat * event)) : Prop :=
  forall t1 i m t2 j t3, tr = t1 ++ (i, Enter m) :: t2 ++ (j, Enter m) :: t3 -> (i, Leave m) ∈ t2.
(** the thread has come to its end *)
Definition ended (t : thread) (r : outcome) : Prop := now t = End r /\ frames t = [].
(** the function never calls scope for a mutex while it is within a call for the same mutex, nor for a smaller one *)
Fixpoint rising (low : nat) (c : cmd) : Prop :=
  match c with
  | End _ => True
  | Do _ c => rising low c
  | Scope m None f k => low <= m /\ rising (S m) f /\ (forall r, rising low (k r))
  | Scope m (Some e) f k => forall r, rising low (k r)
  end.
