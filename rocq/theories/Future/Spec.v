(** What the theorems about futures say: about the trace of events of an execution, and about who holds what at its end. *)
From Coq Require Import List Bool.
From stdpp Require Import list relations.
From Verif.Future Require Import Model.

(** two events of a trace, in order, do not both satisfy P *)
Definition at_most_once (P : event -> Prop) (tr : list event) : Prop :=
  forall t1 v t2 w t3, tr = t1 ++ v :: t2 ++ w :: t3 -> P v -> P w -> False.
(** [tr] happens before [v] *)
Definition always (P : list event -> event -> Prop) (tr : list event) : Prop := forall t1 v t2, tr = t1 ++ v :: t2 -> P t1 v.

(** the future whose completion starts a function of kind [k] *)
Definition ante (k : fkind) : option nat := match k with User => None | Then a | Recover a | Forward _ a => Some a end.
(** [d] is a continuation of [a] *)
Definition follows (tr : list event) (d a : nat) : Prop := exists k, New d k ∈ tr /\ ante k = Some a.
(** [d] cannot be ready before [a] is: a continuation, or a task whose function returned [a] *)
Definition waits (tr : list event) (d a : nat) : Prop := follows tr d a \/ Returned d (RFut a) ∈ tr.
Definition no_cycle (tr : list event) : Prop := forall d, ~ tc (waits tr) d d.
(** [c] is reached from [a] by then only *)
Inductive then_chain (tr : list event) (a : nat) : nat -> Prop :=
  | chain_one c : New c (Then a) ∈ tr -> then_chain tr a c
  | chain_more b c : then_chain tr a b -> New c (Then b) ∈ tr -> then_chain tr a c.

(** the continuations attached to [a] before it is resolved, in order *)
Fixpoint early (a : nat) (tr : list event) : list nat :=
  match tr with
  | [] => []
  | Resolved c _ :: tr => if c =? a then [] else early a tr
  | New d k :: tr => (if decide (ante k = Some a) then [d] else []) ++ early a tr
  | _ :: tr => early a tr
  end.
Definition e_handed (e : event) : list nat := match e with Handed d => [d] | _ => [] end.
(** those of them that have been passed to their executors, in that order *)
Definition handed_of (a : nat) (tr : list event) : list nat := filter (fun d => d ∈ early a tr) (tr ≫= e_handed).

(** no task is held by client or executor, no call, hand-over or destructor in progress *)
Definition only_futures (s : st) : Prop := forall r, r ∈ rs s -> exists c, r = Fut c.
(** no packaged_task was overwritten by move assignment *)
Definition none_lost (tr : list event) : Prop := forall c, Lost c ∉ tr.
Definition alive (s : st) (c : nat) : Prop := exists x, get_cell s c = Some x.

(** [c] is referred to *)
Inductive keeps (s : st) (c : nat) : Prop :=
  | k_fut : Fut c ∈ rs s -> keeps s c                                   (** by a future *)
  | k_call p : Frame c p ∈ rs s -> keeps s c                            (** by its task being executed *)
  | k_hand l : Hand (Some c) l ∈ rs s -> keeps s c                      (** by the thread handing over its continuations *)
  | k_drop : Drop c ∈ rs s -> keeps s c                                 (** by a destructor in progress *)
  | k_det k : Det k c ∈ rs s -> keeps s c                               (** by a detached function to be called *)
  | k_cont o l k : Hand o l ∈ rs s -> k ∈ l -> k = KSelf c \/ (exists n, k = KDet n c) -> keeps s c
  | k_self x k : get_cell s c = Some x -> k ∈ thens x -> k = KSelf c \/ (exists n, k = KDet n c) -> keeps s c  (** detached *)
  | k_fn d y f : get_cell s d = Some y -> fn y = Some f -> c ∈ fn_refs f -> keeps s c      (** by a function that captured it or follows it *)
  | k_hold d y : get_cell s d = Some y -> hold y = Some c -> keeps s c.                    (** by a reduction *)
