(** What channels do, in terms of the events of an execution alone. *)
From Coq Require Import List Bool ZArith.
From stdpp Require Import list.
From Verif.Channel Require Import Queue Model.

Definition pick (b : bool) {A} (a : A) : option A := if b then Some a else None.
(** what is sent to port p of process i, in order *)
Definition sent (i p : nat) (tr : list event) : list msg :=
  omap (fun e => match e with Appended j q m => pick ((j =? i) && (q =? p)) m | _ => None end) tr.
(** the arguments with which the function of i is called, in order *)
Definition invoked (i : nat) (tr : list event) : list (list msg) :=
  omap (fun e => match e with Invoke j ms => pick (j =? i) ms | _ => None end) tr.
(** the messages i deals with, in order: calls, and those containing an error, with which it is not called *)
Definition handled (i : nat) (tr : list event) : list (list msg) :=
  omap (fun e => match e with Invoke j ms | Refused j ms => pick (j =? i) ms | _ => None end) tr.
(** what the function of i returns or throws *)
Definition results (i : nat) (tr : list event) : list msg :=
  omap (fun e => match e with Result j o => pick (j =? i) o | _ => None end) tr.
Definition closed (i : nat) (tr : list event) : list unit :=
  omap (fun e => match e with Closed j => pick (j =? i) tt | _ => None end) tr.
(** since port p of d was attached to i *)
Definition since (i d p : nat) (tr tr2 : list event) : Prop := exists tr1, tr = tr1 ++ Attached i d p :: tr2.
Definition refused (i : nat) (tr : list event) : Prop := exists ms, Refused i ms ∈ tr.

(** ** what each kind of process deals with, given what has been sent to its n ports *)
(** the first messages of each port's sequence *)
Definition served (k : strategy) (n : nat) (sent : nat -> list msg) (out : list (list msg)) : Prop :=
  match k with
  | Default => exists rest, sent 0 = concat out ++ rest /\ Forall (fun ms => length ms = 1) out
  | Zip => forall j ms, out !! j = Some ms -> length ms = n /\ forall p, p < n -> is_Some (ms !! p) /\ ms !! p = sent p !! j
  | RoundRobin => forall j ms, out !! j = Some ms -> exists m, ms = [m] /\ sent (j mod n) !! (j / n) = Some m
  | Unordered => exists src, length src = length out /\ Forall (fun p => p < n) src /\ Forall (fun ms => length ms = 1) out /\
      forall p, p < n -> exists rest, sent p = concat (omap (fun '(q, ms) => pick (q =? p) ms) (zip src out)) ++ rest
  end.
(** nothing more can be served *)
Definition drained (k : strategy) (n : nat) (sent : nat -> list msg) (out : list (list msg)) : Prop :=
  match k with
  | Default => sent 0 = concat out
  | Zip => exists p, p < n /\ length (sent p) = length out
  | RoundRobin => length (sent (length out mod n)) = length out / n
  | Unordered => length out = list_sum (map (fun p => length (sent p)) (seq 0 n))
  end.

(** ** networks *)
(** results of i flow, through any number of processes, into j *)
Inductive leads (s : st) : nat -> nat -> Prop :=
  | leads_here i : leads s i i
  | leads_next i d nd p j : nodes s !! d = Some nd -> ups nd !! p = Some (Some i) -> leads s d j -> leads s i j.
(** merge i has dealt with all complete sets of messages, and still holds messages *)
Definition left_over (i : nat) (n : node) (tr : list event) : Prop :=
  (strat n = Zip \/ strat n = RoundRobin) /\ drained (strat n) (length (ups n)) (fun p => sent i p tr) (handled i tr) /\
  length (concat (handled i tr)) < list_sum (map (fun p => length (sent i p tr)) (seq 0 (length (ups n)))).
(** no job and no critical section is pending or being executed *)
Definition at_rest (s : st) : Prop := jobs s = [] /\ pends s = [].
(** every receiver that is still held is ready; those of processes without results need not be *)
Definition all_ready (s : st) : Prop := forall i n b, nodes s !! i = Some n -> rvoid n = false -> (i, b) ∈ rcv_h s -> b = true.
(** nothing is attached to a process after it closes *)
Definition no_late (tr : list event) : Prop := forall i d p t1 t2, tr = t1 ++ Closed i :: t2 -> Attached i d p ∉ t2.
(** steps of jobs and pending critical sections; not the clients' *)
Definition internal (l : label) : bool := match l with LPend _ | LJob _ | LRet _ _ => true | _ => false end.
