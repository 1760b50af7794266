(** A priority queue, FIFO within a priority: the queue is the list of what was submitted, in order, and a pop takes
    the earliest entry among those of the highest priority (0 is high, 1 medium, 2 low). *)
From stdpp Require Import list.
From Verif.Executor Require Import Queue.

Section spec.
Context {A : Type}.
Definition takes (l : list (nat * A)) (a : A) (l' : list (nat * A)) : Prop :=
  exists l1 p l2, l = l1 ++ (p, a) :: l2 /\ l' = l1 ++ l2 /\
    (forall x, x ∈ l1 -> p < x.1) /\ (forall x, x ∈ l2 -> p <= x.1).
Inductive serves : list (nat * A) -> list (qop A) -> list A -> list (nat * A) -> Prop :=
  | serves_nil l : serves l [] [] l
  | serves_push l p a os out l' : serves (l ++ [(p, a)]) os out l' -> serves l (Push p a :: os) out l'
  | serves_pop l k a l1 os out l' : takes l a l1 -> serves l1 os out l' -> serves l (Pop k :: os) (a :: out) l'.
Definition pushed (os : list (qop A)) : list A := omap (fun o => match o with Push _ a => Some a | Pop _ => None end) os.
Definition valid (os : list (qop A)) : Prop := Forall (fun o => match o with Push p _ => p < 4 | Pop _ => True end) os.
End spec.
