(** Model of await: /repo/include/stlab/concurrency/await.hpp, 56-73. One call, by one thread, on a future that another thread
    resolves at some time or never. The future is that of Verif.Future: its recover continuation runs once, with the
    immediate executor: in the thread that resolves the future, or in the caller's own if the future has become ready before
    it attaches (C31). Steps are the operations on the future, the mutex m and the condition variable, one by one. The
    effect of invoke_waiting (41-47) on the thread pool is in Verif.Executor (C55). *)
From Coq Require Import List Bool.
From stdpp Require Import list.

(** what future<T>::get_ready gives or throws, await.hpp:57, 72 *)
Inductive outcome := Val (v : nat) | Exc (e : nat).
(** owner of the mutex m, await.hpp:59 *)
Inductive who := Waiter | Completer.

(** the calling thread; await.hpp:56-73 *)
Inductive wpc :=
  | WStart                      (** 57 *)
  | WAttach                     (** 63 *)
  | WInline                     (** the continuation runs in this thread *)
  | WLock                       (** 70 *)
  | WCheck                      (** 71: holding m, about to evaluate the predicate *)
  | WSleep
  | WWoken                      (** waiting for m *)
  | WRet (o : outcome).         (** 57, 72 *)
(** the continuation, 63-69 *)
Inductive cpc := CIdle | CLock | CSet | CNotify | CUnlock | CDone.

(** the local variables of await and the place of the two threads, await.hpp:57-73 *)
Record st := St {
  x : option outcome;           (** the future *)
  reg : bool;                   (** the continuation is attached to it *)
  m : option who;               (** owner of the mutex *)
  result : option outcome;
  notified : bool;
  w : wpc;
  c : cpc;
  dead : bool                   (** the caller has returned: m, condition and result do not exist any more *)
}.
(** what is observable of await, await.hpp:56-73; Ub: a local variable of await is used after it returned *)
Inductive event := Resolved (o : outcome) | Returned (o : outcome) | Ub.
(** atomic steps of await.hpp:56-73 and of the thread that resolves x *)
Inductive label :=
  | LResolve (o : outcome)      (** the future is resolved: at most once (C30) *)
  | LWait                       (** a step of the caller *)
  | LCont                       (** a step of the continuation *)
  | LSpurious.                  (** a spurious wake-up *)

(** the thread that runs the continuation, await.hpp:63-69: the caller if x is ready when it attaches *)
Definition cont_thread (s : st) : who := match w s with WInline => Waiter | _ => Completer end.

(** await.hpp:56-73, a step of one of the threads *)
Definition step (s : st) (l : label) : option (st * list event) :=
  match l with
  | LResolve o =>
    match x s with
    | Some _ => None
    | None => Some (St (Some o) (reg s) (m s) (result s) (notified s) (w s) (if reg s then CLock else c s) (dead s), [Resolved o])
    end
  | LWait =>
    match w s with
    | WStart =>
      match x s with
      | Some o => Some (St (x s) (reg s) (m s) (result s) (notified s) (WRet o) (c s) true, [Returned o])
      | None => Some (St (x s) (reg s) (m s) (result s) (notified s) WAttach (c s) (dead s), [])
      end
    | WAttach =>
      match x s with
      | Some _ => Some (St (x s) (reg s) (m s) (result s) (notified s) WInline CLock (dead s), [])
      | None => Some (St (x s) true (m s) (result s) (notified s) WLock (c s) (dead s), [])
      end
    | WInline => match c s with CDone => Some (St (x s) (reg s) (m s) (result s) (notified s) WLock (c s) (dead s), []) | _ => None end
    | WLock | WWoken =>
      match m s with
      | None => Some (St (x s) (reg s) (Some Waiter) (result s) false WCheck (c s) (dead s), [])
      | Some _ => None
      end
    | WCheck =>
      match result s with
      | Some o => Some (St (x s) (reg s) None (result s) (notified s) (WRet o) (c s) true, [Returned o])
      | None => Some (St (x s) (reg s) None (result s) false WSleep (c s) (dead s), [])
      end
    | WSleep => if notified s then Some (St (x s) (reg s) (m s) (result s) (notified s) WWoken (c s) (dead s), []) else None
    | WRet _ => None
    end
  | LCont =>
    match c s with
    | CIdle | CDone => None
    | p =>
      if dead s then Some (s, [Ub]) else
      match p with
      | CLock => match m s with
                 | None => Some (St (x s) (reg s) (Some (cont_thread s)) (result s) (notified s) (w s) CSet (dead s), [])
                 | Some _ => None
                 end
      | CSet => Some (St (x s) (reg s) (m s) (x s) (notified s) (w s) CNotify (dead s), [])              (* 66 *)
      | CNotify => Some (St (x s) (reg s) (m s) (result s) (match w s with WSleep => true | _ => notified s end) (w s) CUnlock (dead s), [])
      | _ => Some (St (x s) (reg s) None (result s) (notified s) (w s) CDone (dead s), [])
      end
    end
  | LSpurious => match w s with WSleep => Some (St (x s) (reg s) (m s) (result s) (notified s) WWoken (c s) (dead s), []) | _ => None end
  end.

(** executions: any sequence of steps (await.hpp:56-73) *)
Fixpoint run (s : st) (ls : list label) : option (st * list event) :=
  match ls with
  | [] => Some (s, [])
  | l :: ls => match step s l with
               | None => None
               | Some (s1, e1) => match run s1 ls with None => None | Some (s2, e2) => Some (s2, e1 ++ e2) end
               end
  end.
(** the future may be ready or not at the call; at the call, await.hpp:56 *)
Definition init (o : option outcome) : st := St o false None None false WStart CIdle false.
