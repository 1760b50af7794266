(** What C74 says, in terms of events. *)
From Coq Require Import List Bool Arith ZArith.
From stdpp Require Import list.
From Verif.Signal Require Import Model.

(** how many invocations have been completed *)
Fixpoint finished (tr : list event) : nat :=
  match tr with [] => 0 | Done _ :: tr => S (finished tr) | _ :: tr => finished tr end.
(** how many tracked functions there are *)
Fixpoint tracked (tr : list event) : Z :=
  match tr with [] => 0 | Added :: tr => 1 + tracked tr | Gone :: tr => tracked tr - 1 | _ :: tr => tracked tr end%Z.
(** what is reported, in the order of the calls *)
Fixpoint reports (tr : list event) : list (nat * Z * nat) :=
  match tr with [] => [] | Report i n d :: tr => (i, n, d) :: reports tr | _ :: tr => reports tr end.
(** an invocation is completed only when the reports of those completed before have been made *)
Definition one_at_a_time (tr : list event) : Prop :=
  forall tr1 tr2 i j, tr = tr1 ++ Done i :: tr2 -> Done j ∈ tr1 -> exists n d, Report j n d ∈ tr1.
(** a decision procedure, for examples *)
Fixpoint oaat (prev tr : list event) : bool :=
  match tr with
  | [] => true
  | e :: tr =>
    match e with
    | Done _ => forallb (fun e' => match e' with
                                   | Done j => existsb (fun e2 => match e2 with Report i _ _ => i =? j | _ => false end) prev
                                   | _ => true
                                   end) prev
    | _ => true
    end && oaat (prev ++ [e]) tr
  end.
(** no thread is in the middle of task_done *)
Definition at_rest (s : st) : Prop :=
  forall k, step s (ReadSteps k) = None /\ step s (ReadCompleted k) = None /\ step s (Signal k) = None /\ step s (End k) = None.
