(** Properties of scope: C93. *)
From Coq Require Import List Bool Arith.
From stdpp Require Import list.
From Verif.Scope Require Import Model Spec Proof.

(** ** example: three threads. The first one calls scope within a call of scope, the inner function throws, and the exception is
    turned into a result between the two; the second one uses the inner mutex; the lock guard of the third one cannot be made *)
Definition handler (r : outcome) : cmd := match r with Value v => End (Value v) | Thrown e => Do 9 (End (Value (e + 1))) end.
Definition one : cmd := Scope 0 None (Do 1 (Scope 1 None (Do 2 (End (Thrown 4))) handler)) End.
Definition two : cmd := Scope 1 None (Do 3 (End (Value 7))) End.
Definition three : cmd := Scope 0 (Some 5) (Do 6 (End (Value 8))) End.
Definition turns : list nat := [0; 1; 0; 1; 1; 0; 2; 0; 0; 0; 0].
Example ex_run : exists s, run (init [one; two; three]) turns = Some (s,
    [(0, Enter 0); (1, Enter 1); (0, Did 1); (1, Did 3); (1, Leave 1); (0, Enter 1); (0, Did 2); (0, Leave 1); (0, Did 9); (0, Leave 0)]) /\
  (exists t0 t1 t2, s = [t0; t1; t2] /\ ended t0 (Value 5) /\ ended t1 (Value 7) /\ ended t2 (Thrown 5)).
Proof. eexists. split; [vm_compute; reflexivity|]. do 3 eexists. split; [reflexivity|]. by vm_compute. Qed.
Example ex_rising : Forall (rising 0) [one; two; three].
Proof. repeat constructor; intros []; by repeat constructor. Qed.
(** the second thread must wait while the first one is in *)
Example ex_waits : exists s tr, run (init [one; two; three]) [0; 0; 0] = Some (s, tr) /\ step s 1 = None /\ step s 0 <> None.
Proof. eexists _, _. split; [vm_compute; reflexivity|]. by vm_compute. Qed.

(** ** C93: whatever the other threads do, each thread does what it does alone: f between constructor and destructor, its outcome
    handed on, also if it is an exception *)
Theorem C93_bracket cs is s tr i c : run (init cs) is = Some (s, tr) -> cs !! i = Some c -> exists later, (alone c).1 = by_thread i tr ++ later.
Proof. intros R H. destruct (follows _ _ _ _ R) as [_ F]. destruct (F i c H) as (t & _ & ->). by eexists. Qed.
Theorem C93_outcome cs is s tr i c t r : run (init cs) is = Some (s, tr) -> cs !! i = Some c -> s !! i = Some t -> ended t r ->
  alone c = (by_thread i tr, r).
Proof.
  intros R H Ht [E1 E2]. destruct (follows _ _ _ _ R) as [_ F]. destruct (F i c H) as (u & Hu & E). simplify_eq.
  rewrite E. unfold future. rewrite E1, E2. cbn. by rewrite app_nil_r.
Qed.
(** no two functions are executed at once for the same mutex *)
Theorem C93_exclusive cs is s tr : run (init cs) is = Some (s, tr) -> exclusive tr.
Proof. intros R. by apply (excl _ _ _ _ R). Qed.
(** if calls are nested in the order of the mutexes the threads always get to their ends *)
Theorem C93_progress cs is s tr : Forall (rising 0) cs -> run (init cs) is = Some (s, tr) -> (forall i, step s i = None) ->
  Forall (fun t => exists r, ended t r) s.
Proof. intros F R. exact (progress s (orderly_run _ _ _ _ F R)). Qed.
(** not otherwise: a function called by scope that calls scope for the same mutex; two threads that nest them differently *)
Definition again : cmd := Scope 0 None (Scope 0 None (End (Value 1)) End) End.
Definition up : cmd := Scope 0 None (Scope 1 None (End (Value 1)) End) End.
Definition down : cmd := Scope 1 None (Scope 0 None (End (Value 1)) End) End.
Theorem C93_order_needed : exists is s tr, run (init [again]) is = Some (s, tr) /\ (forall i, step s i = None) /\
  ~ Forall (fun t => exists r, ended t r) s.
Proof.
  exists [0]. eexists _, _. split; [vm_compute; reflexivity|]. split; [by intros [|[|i]]|].
  intros F. inversion F as [|t l [r [E _]] _]. done.
Qed.
Theorem C93_order_needed_two : exists is s tr, run (init [up; down]) is = Some (s, tr) /\ (forall i, step s i = None) /\
  Forall (fun t => ~ exists r, ended t r) s.
Proof.
  exists [0; 1]. eexists _, _. split; [vm_compute; reflexivity|]. split; [by intros [|[|i]]|].
  repeat constructor; by intros (r & E & _).
Qed.
