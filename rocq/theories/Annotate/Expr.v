(** Annotation expressions of any shape. *)
From stdpp Require Import list.
From Verif.Annotate Require Import Model.

Inductive expr := EExec (e : nat) | EBs (n : nat) | EFn (f : nat) | EAmp (x y : expr).
Fixpoint eval (x : expr) : val := match x with EExec e => VExec e | EBs n => VBs n | EFn f => VFn f | EAmp x y => amp (eval x) (eval y) end.
Fixpoint execs (x : expr) : list nat := match x with EExec e => [e] | EAmp x y => execs x ++ execs y | _ => [] end.
Fixpoint sizes (x : expr) : list nat := match x with EBs n => [n] | EAmp x y => sizes x ++ sizes y | _ => [] end.
Fixpoint fns (x : expr) : list nat := match x with EFn f => [f] | EAmp x y => fns x ++ fns y | _ => [] end.

(** what a value that can be attached or combined further holds *)
Definition good (F E S : list nat) (v : val) : Prop :=
  match v with
  | VExec e => F = [] /\ E = [e] /\ S = []
  | VBs n => F = [] /\ E = [] /\ S = [n]
  | VFn f => F = [f] /\ E = [] /\ S = []
  | VAnn oe ob => F = [] /\ exists e n, oe = Some e /\ ob = Some n /\ e ∈ E /\ n ∈ S
  | VEtp e (VFn f) => F = [f] /\ e ∈ E /\ S = []
  | VProc (VFn f) oe ob => F = [f] /\ (forall e, oe = Some e -> e ∈ E) /\ exists n, ob = Some n /\ n ∈ S
  | _ => True
  end.
Lemma good_amp F1 E1 S1 v1 F2 E2 S2 v2 : good F1 E1 S1 v1 -> good F2 E2 S2 v2 -> good (F1 ++ F2) (E1 ++ E2) (S1 ++ S2) (amp v1 v2).
Proof.
  intros H1 H2. destruct v1 as [e1|n1|f1|oe1 ob1|e1 w1|w1 oe1 ob1|], v2 as [e2|n2|f2|oe2 ob2|e2 w2|w2 oe2 ob2|]; try done; simpl in *.
  all: try (destruct w1; try done); try (destruct w2; try done).
  all: repeat match goal with H : _ /\ _ |- _ => destruct H | H : exists _, _ |- _ => destruct H | H : ?x = _ |- _ => is_var x; subst x end; simpl in *.
  all: rewrite ?app_nil_r; split; try done; repeat setoid_rewrite elem_of_app; repeat setoid_rewrite elem_of_list_singleton; eauto 12 with f_equal.
  all: try (split; [naive_solver|]; eauto 10).
Qed.
Lemma good_eval x : good (fns x) (execs x) (sizes x) (eval x).
Proof. induction x; simpl; try done. by apply good_amp. Qed.
Lemma nothing_invented d x f e b : attach d (eval x) = Some (f, e, b) -> fns x = [f] /\ (e ∈ execs x \/ e = d) /\ (b ∈ sizes x \/ sizes x = [] /\ b = 1).
Proof.
  intros H. pose proof (good_eval x) as G. destruct (eval x) as [| |f'| |e' w|w oe ob|]; try done; simpl in *.
  - injection H as <- <- <-. naive_solver.
  - destruct w; try done. injection H as <- <- <-. naive_solver.
  - destruct w; try done. destruct G as (? & Q & n & -> & ?). injection H as <- <- <-. split; [done|]. split; [|auto]. destruct oe as [o|]; simpl; [left; by apply Q|by right].
Qed.
