(** What the user of a process with yield() sees: readings of the trace. *)
From Coq Require Import List Bool Arith.
From stdpp Require Import list.
From Verif.Process Require Import Model.

(** what was sent to the process *)
Definition sents (tr : list event) : list msg := flat_map (fun e => match e with Sent m => [m] | _ => [] end) tr.
(** the messages handed to await() and set_error() *)
Definition handed (tr : list event) : list msg :=
  flat_map (fun e => match e with Begin (CAwait v) => [Val v] | Begin (CSetError x) => [Err x] | _ => [] end) tr.
(** the messages it has a function for *)
Definition wanted (c : conf) (l : list msg) : list msg :=
  flat_map (fun m => match m with Val v => [Val v] | Err e => if has_set_error c then [Err e] else [] end) l.
(** what yield() returned, or was thrown *)
Definition results (tr : list event) : list msg := flat_map (fun e => match e with Result o => [o] | _ => [] end) tr.
(** what the i-th process downstream was sent *)
Definition outs (i : nat) (tr : list event) : list msg :=
  flat_map (fun e => match e with Out j o => if j =? i then [o] else [] | _ => [] end) tr.
(** how many processes are downstream *)
Definition attached (tr : list event) : nat := length (flat_map (fun e => match e with Attached => [tt] | _ => [] end) tr).
Definition ended (tr : list event) : nat := length (flat_map (fun e => match e with Closed => [tt] | _ => [] end) tr).
Definition dropped (tr : list event) : nat := length (flat_map (fun e => match e with Dropped => [tt] | _ => [] end) tr).

(** calls do not overlap, and each is one that the state asks for *)
Definition watch (asks : pstate -> call -> bool) (w : option (bool * pstate)) (e : event) : option (bool * pstate) :=
  match w, e with
  | None, _ => None
  | Some (busy, p), Begin c => if negb busy && asks p c then Some (true, p) else None
  | Some (busy, _), End q => if busy then Some (false, q) else None
  | w, _ => w
  end.
Definition follows (asks : pstate -> call -> bool) (p : pstate) (tr : list event) : Prop :=
  fold_left (watch asks) tr (Some (false, p)) <> None.
Definition any : pstate -> call -> bool := fun _ _ => true.
(** yield is due in the yield state, and when the time for awaiting is up at once; the others when awaiting *)
Definition due (p : pstate) (c : call) : bool :=
  match p, c with
  | (Yield, _), CYield => true
  | (Await, Now), CYield => true
  | _, CYield => false
  | (Await, _), _ => true
  | (Yield, _), _ => false
  end.

(** while a call begins no process downstream has a message it has not yet asked the next one for *)
Definition pace (n : option nat) (e : event) : option nat :=
  match n, e with
  | None, _ => None
  | Some n, Out _ _ => Some (S n)
  | Some n, Ack => Some (pred n)
  | Some 0, Begin _ => Some 0
  | Some (S _), Begin _ => None
  | n, _ => n
  end.
Definition paced (tr : list event) : Prop := fold_left pace tr (Some 0) <> None.

(** the user's process never reports a state in P *)
Definition state_of (r : ret) : pstate := match r with Ret _ p | Throw _ p => p end.
Definition avoids (P : pstate -> bool) (p : pstate) (ls : list label) : Prop :=
  P p = false /\ Forall (fun l => match l with LRet _ r => P (state_of r) = false | _ => True end) ls.
(** awaiting with a timeout *)
Definition timed (p : pstate) : bool := match p with (Await, Later) => true | _ => false end.
(** yielding later *)
Definition delayed (p : pstate) : bool := match p with (Yield, Later) | (Yield, Forever) => true | _ => false end.
Definition never (p : pstate) : bool := false.

(** a process without argument has no await() *)
Definition sane (c : conf) : Prop := void_arg c = true -> has_await c = false.

(** nothing is in progress, inside or downstream *)
Definition rest (s : st) : Prop := jobs s = [] /\ pends s = [] /\ owed s = 0.

(** some call of close() for an empty queue left the process in another state than waiting for ever, or threw *)
Definition calls (tr : list event) : list event := List.filter (fun e => match e with Begin _ | End _ => true | _ => false end) tr.
Definition stays_open (tr : list event) : Prop :=
  exists t1 t2 p t3, tr = t1 ++ Begin (CClose true) :: t2 ++ End p :: t3 /\ calls t2 = [] /\
  (p <> (Await, Forever) \/ exists e t4, t3 = Result e :: t4).

(** the library at work: steps of its own that change something; not steps of the user's functions or of the environment *)
Definition own (l : label) : bool := match l with LJob _ _ | LPend _ => true | _ => false end.
Inductive works (c : conf) : st -> nat -> st -> Prop :=
  | works_none s : works c s 0 s
  | works_step s l s1 e n s2 : own l = true -> step c s l = Some (s1, e) -> s1 <> s -> works c s1 n s2 -> works c s (S n) s2.
(** a function of the user is being executed *)
Definition in_call (s : st) : Prop := exists w c, In (JCall w c) (jobs s).
(** awaiting, to yield at once *)
Definition prompt (p : pstate) : bool := match p with (Await, Now) => true | _ => false end.
