(** Model of await_for: /repo/include/stlab/concurrency/await.hpp, 85-133. One call, by one thread, on a future that another
    thread resolves at some time or never; as in Verif.Await.Model the recover continuation runs in the thread that resolves
    the future, or in the caller's own. The fields of blocking_get_guarded are used only under its mutex; a step is one
    critical section, or one operation on the future, the mutex, the condition variable or the shared pointer. *)
From Coq Require Import List Bool.
From stdpp Require Import list.
From Verif.Await Require Import Model.

(** the calling thread *)
Inductive fpc :=
  | FStart                      (** 122 *)
  | FAttach                     (** 126 *)
  | FInline                     (** the continuation runs in this thread *)
  | FLock                       (** 110 *)
  | FCheck (late : bool)        (** 112: holding the mutex, about to evaluate the predicate; late: the wait timed out *)
  | FSleep
  | FWoken (late : bool)        (** waiting for the mutex *)
  | FLeave (r : option outcome) (** wait_for has returned: 131 *)
  | FRet.                       (** 132 *)
(** the continuation, 126-129, and set, 92-107 *)
Inductive kpc := KIdle | KUpgrade | KLock | KSet | KNotify | KDone.
(** what the future hold is resolved with, after reduction: the outcome of the argument, or the exception made in 105-106 *)
Inductive held := Orig (o : outcome) | NotAnError.
Inductive fevent :=
  | FResolved (o : outcome)     (** the argument is resolved *)
  | FTimeout                    (** the wait times out *)
  | HoldResolved (h : held)
  | RetReady (o : outcome)      (** await_for returns a ready future: the argument (122) or _result *)
  | RetHold                     (** await_for returns hold *)
  | FUb.
Inductive flabel :=
  | FResolve (o : outcome)      (** the future is resolved: at most once (C30) *)
  | FStep                       (** a step of the caller *)
  | FCont                       (** a step of the continuation *)
  | FSpurious
  | FExpire.                    (** the time is up while the caller waits *)

Record fstate := FSt {
  fx : option outcome;          (** the argument *)
  freg : bool;                  (** the continuation is attached to it *)
  fm : option who;              (** owner of _mutex *)
  timed_out : bool;             (** 87 *)
  fres : option outcome;        (** _result, 88; None: not valid *)
  fnotified : bool;
  fw : fpc;
  fk : kpc;
  pmain : bool;                 (** the caller owns p *)
  pcont : bool                  (** the continuation owns p *)
}.
Definition fthread (s : fstate) : who := match fw s with FInline => Waiter | _ => Completer end.

Definition fstep (s : fstate) (l : flabel) : option (fstate * list fevent) :=
  let '(FSt x r m t res n w k p q) := s in
  match l with
  | FResolve o =>
    match x with
    | Some _ => None
    | None => Some (FSt (Some o) r m t res n w (if r then KUpgrade else k) p q, [FResolved o])
    end
  | FExpire => match w with FSleep => Some (FSt x r m t res n (FWoken true) k p q, [FTimeout]) | _ => None end
  | FSpurious => match w with FSleep => Some (FSt x r m t res n (FWoken false) k p q, []) | _ => None end
  | FStep =>
    match w with
    | FStart =>
      match x with
      | Some o => Some (FSt x r m t res n FRet k p q, [RetReady o])                       (* 122 *)
      | None => Some (FSt x r m t res n FAttach k true q, [])                             (* 124 *)
      end
    | FAttach =>
      match x with
      | Some _ => Some (FSt x r m t res n FInline KUpgrade p q, [])
      | None => Some (FSt x true m t res n FLock k p q, [])
      end
    | FInline => match k with KDone => Some (FSt x r m t res n FLock k p q, []) | _ => None end
    | FLock => match m with None => Some (FSt x r (Some Waiter) t res false (FCheck false) k p q, []) | _ => None end
    | FWoken late => match m with None => Some (FSt x r (Some Waiter) t res false (FCheck late) k p q, []) | _ => None end
    | FCheck late =>
      match res with
      | Some o => Some (FSt x r None false None n (FLeave (Some o)) k p q, [])            (* 111, 113: moved out of _result *)
      | None => if late then Some (FSt x r None true None n (FLeave None) k p q, [])
                else Some (FSt x r None t res false FSleep k p q, [])
      end
    | FSleep => if n then Some (FSt x r m t res n (FWoken false) k p q, []) else None
    | FLeave (Some o) => Some (FSt x r m t res n FRet k false q, [RetReady o])            (* p and hold are destroyed *)
    | FLeave None => Some (FSt x r m t res n FRet k false q, [RetHold])                   (* p is destroyed *)
    | FRet => None
    end
  | FCont =>
    match k with
    | KIdle | KDone => None
    | KUpgrade =>                                                                         (* 127 *)
      if p then Some (FSt x r m t res n w KLock p true, [])
      else match x with
           | Some o => Some (FSt x r m t res n w KDone p q, [HoldResolved (Orig o)])      (* 128 *)
           | None => Some (s, [FUb])
           end
    | _ =>
      if negb (p || q) then Some (s, [FUb]) else
      match k with
      | KLock => match m with
                 | None => Some (FSt x r (Some (fthread s)) t res n w KSet p q, [])       (* 94 *)
                 | Some _ => None
                 end
      | KSet =>
        match x with
        | None => Some (s, [FUb])
        | Some o =>
          if t then Some (FSt x r None t res n w KDone p false, [HoldResolved (Orig o)])  (* 95 *)
          else Some (FSt x r None t (Some o) n w KNotify p q, [])                         (* 96 *)
        end
      | _ => Some (FSt x r m t res (match w with FSleep => true | _ => n end) w KDone p false, [HoldResolved NotAnError])  (* 98-106 *)
      end
    end
  end.

Fixpoint frun (s : fstate) (ls : list flabel) : option (fstate * list fevent) :=
  match ls with
  | [] => Some (s, [])
  | l :: ls => match fstep s l with
               | None => None
               | Some (s1, e1) => match frun s1 ls with None => None | Some (s2, e2) => Some (s2, e1 ++ e2) end
               end
  end.
Definition finit (o : option outcome) : fstate := FSt o false None false None false FStart KIdle false false.
