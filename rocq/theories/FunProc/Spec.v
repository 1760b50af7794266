(** What C91 says. *)
From Coq Require Import List.
From Verif.FunProc Require Import Model.
Import ListNotations.

Section Spec.
Context {S A R : Type} (f : S -> A -> S * outcome R).

(** the messages of a sequence of calls; how many results were asked for *)
Definition messages (os : list (op A)) : list A := flat_map (fun o => match o with Await a => [a] | Yield => [] end) os.
Definition asked (os : list (op A)) : nat := length (filter (fun o => match o with Await _ => false | Yield => true end) os).
(** The results of calling one function object with one message after the other, as a process that is a function does (channel.hpp:1085-1128). *)
Fixpoint threaded (s : S) (l : list A) : list (outcome R) :=
  match l with [] => [] | a :: l => let '(s', r) := f s a in r :: threaded s' l end.
(** The results of calling a new function object with each message. *)
Definition afresh (s : S) (l : list A) : list (outcome R) := map (fun a => snd (f s a)) l.
(** The calls of a function object do not depend on earlier ones. *)
Definition stateless (s : S) : Prop := exists P : S -> Prop, P s /\ forall s1 a, P s1 -> P (fst (f s1 a)) /\ snd (f s1 a) = snd (f s a).
End Spec.
