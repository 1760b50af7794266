(** What a user of task<> expects, without buffers or vtables. *)
From stdpp Require Import gmap.
From Verif.Task Require Import Model.

Section spec.
Context {V : Type}.
(** a task is empty, holds a function (inline or not), or has been moved from *)
Inductive content := Empty | Holds (inl : bool) (v : V) | Moved (inl : bool).
Definition taken (c : content) : content := match c with Holds b _ => Moved b | c => c end.

(** objects must exist, new ones must not; no task is assigned to or swapped with itself *)
Definition legal (w : gmap nat content) (o : op V) : Prop :=
  match o with
  | CtorEmpty t | Ctor t _ _ => w !! t = None
  | CtorMove t u => w !! t = None /\ is_Some (w !! u)
  | Assign t u | Swap t u => is_Some (w !! t) /\ is_Some (w !! u) /\ t <> u
  | AssignNull t | AssignFn t _ _ | Destroy t => is_Some (w !! t)
  end.
Definition get (w : gmap nat content) (t : nat) : content := default Empty (w !! t).
Definition astep (w : gmap nat content) (o : op V) : gmap nat content :=
  match o with
  | CtorEmpty t | AssignNull t => <[t := Empty]> w
  | Ctor t b v | AssignFn t b v => <[t := Holds b v]> w
  | CtorMove t u | Assign t u => <[t := get w u]> (<[u := taken (get w u)]> w)
  | Swap t u => <[t := get w u]> (<[u := get w t]> w)
  | Destroy t => delete t w
  end.
Fixpoint history (w : gmap nat content) (os : list (op V)) : Prop :=
  match os with [] => True | o :: os => legal w o /\ history (astep w o) os end.
Definition arun (w : gmap nat content) (os : list (op V)) : gmap nat content := fold_left astep os w.
End spec.
Arguments content : clear implicits.
Notation world V := (gmap nat (content V)).
