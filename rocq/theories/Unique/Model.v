(** Model of a future whose value cannot be copied: /repo/include/stlab/concurrency/future.hpp, shared_base 454-560, promise
    and packaged_task 569-665, future 863-974, value_::proceed 1655-1667.

    One shared state, the one handle to it (a future<T> that cannot be copied), its promise, and the continuations attached one
    after the other. A step is a critical section of _mutex, one access to _result or _exception outside of it, or an
    operation on the reference count. The executor takes the continuation and runs it at some time, or destroys it.

    A continuation attached with then or recover is kept in the shared state of the future that is its result (package,
    977-1031): that shared state owns the handle; what _then holds is a packaged_task, which refers to it weakly. The
    continuation of detach(f) is kept in _then and owns the handle.

    Simplified: the nested lock()s of packaged_task and promise count as one owner. Not modelled: get_ready() of an lvalue
    (it returns a reference to a temporary, 535). Access to a shared state that is gone sets [bad], as do the dereference of
    an empty optional and a read of _result while it is written. *)
From Coq Require Import List Bool Arith.
From stdpp Require Import list.

(** what an optional<T> that is engaged holds: a value, or what is left of it after a move; future.hpp:459, 555 *)
Inductive slot := Full (v : nat) | Hollow.
(** how a task ends; future.hpp:653-658 *)
Inductive outcome := Value (v : nat) | Error (e : nat).
(** what reading the future gives: nothing yet, the contents of _result, or the exception is thrown; get_try_r, future.hpp:549-560 *)
Inductive got := Nothing | Slot (x : slot) | Thrown (e : nat).

(** then 895-915, recover 917-937, detach(f) 942-946 *)
Inductive kind := KThen | KRecover | KDetach.
(** an entry of _then, future.hpp:456-463, 486-516 *)
Inductive cont := Cont (k : kind) (n : nat)  (** the n-th continuation *)
  | Keep.                                    (** what detach() leaves in _then: an owner of the shared state, 513-516 *)

(** who has the handle; future.hpp:863-974 *)
Inductive owner := Client                    (** a variable of the user *)
  | Waits (n : nat)                          (** the n-th continuation *)
  | Runs (n : nat)                           (** the function that then wraps around the n-th, 896-898 *)
  | Nobody.
(** the call that the owner of the handle is in *)
Inductive ccall := CLock (c : cont)          (** recover 486, _detach 504, 514 *)
  | CHand (c : cont)                         (** 490, 509 *)
  | CGet | CTake                             (** get_try_r 551; 555 *)
  | CThen (n : nat) | CThen2 (n : nat)       (** get_try in the function that then wraps *)
  | CFree.                                   (** the handle is destroyed *)
(** the call that the promise is in *)
Inductive rcall := RWrite (o : outcome)      (** set 1670, _set_exception 519 *)
  | RLock                                    (** 1659, 522 *)
  | RHand (c : option cont)                  (** 1663, 527 *)
  | RFree.                                   (** the owner from lock() goes, 580 *)

(** shared_base, future.hpp:454-560, and what refers to it *)
Record st := St {
  alive : bool;                (** the shared state has not been destroyed *)
  refs : nat;                  (** its reference count *)
  result : option slot;        (** _result *)
  exn : option nat;            (** _exception *)
  ready : bool;                (** _ready *)
  thn : option cont;           (** _then *)
  prom : bool;                 (** a promise or packaged_task refers to it *)
  rcl : option rcall;
  holder : owner;
  ccl : option ccall;
  jobs : list cont;            (** given to an executor *)
  next : nat;                  (** continuations attached so far *)
  bad : bool
}.
(** what is observable of the future, future.hpp:454-560, 863-974 *)
Inductive event :=
  | Resolved (o : outcome)     (** the promise is fulfilled or broken while the shared state exists *)
  | Attached (k : kind) (n : nat)
  | Kept                       (** detach() has left an owner in _then *)
  | Canceled (n : nat)         (** the future that is the result of the n-th continuation is destroyed before it has run *)
  | Started (n : nat)          (** the n-th continuation is called, by then's or the user's function *)
  | Got (g : got)              (** what get_try() of the handle gave *)
  | GotThen (n : nat) (g : got) (** what the n-th continuation, attached with then, was given *)
  | Dropped (n : nat)          (** the executor destroyed the n-th continuation: broken promise *)
  | Gone.                      (** the shared state is destroyed *)
(** atomic steps, future.hpp:454-560, 569-665, 863-974 *)
Inductive label :=
  | LResolve (o : outcome)     (** packaged_task 653-658, promise::set_value, set_exception; its destructor 575-580 *)
  | LForget                    (** the promise is overwritten by move assignment (defaulted, 583) *)
  | LAttach (k : kind)
  | LKeep                      (** detach() 939 *)
  | LGet                       (** get_try(), of an lvalue or an rvalue, 956-958 *)
  | LReset                     (** reset() 948, assignment, destruction *)
  | LCancel                    (** the result of then or recover is destroyed *)
  | LR | LC                    (** the calls go on *)
  | LRun (i : nat)             (** the executor runs the i-th thing it was given *)
  | LDrop (i : nat).           (** or destroys it *)

(** update of the state (the assignments in future.hpp:454-560, 569-665) *)
Definition set_refs (n : nat) (s : st) : st :=
  St (alive s) n (result s) (exn s) (ready s) (thn s) (prom s) (rcl s) (holder s) (ccl s) (jobs s) (next s) (bad s).
(** update of the state (the assignments in future.hpp:454-560, 569-665) *)
Definition set_result (r : option slot) (s : st) : st :=
  St (alive s) (refs s) r (exn s) (ready s) (thn s) (prom s) (rcl s) (holder s) (ccl s) (jobs s) (next s) (bad s).
(** update of the state (the assignments in future.hpp:454-560, 569-665) *)
Definition set_exn (e : option nat) (s : st) : st :=
  St (alive s) (refs s) (result s) e (ready s) (thn s) (prom s) (rcl s) (holder s) (ccl s) (jobs s) (next s) (bad s).
(** update of the state (the assignments in future.hpp:454-560, 569-665) *)
Definition set_ready (s : st) : st :=
  St (alive s) (refs s) (result s) (exn s) true (thn s) (prom s) (rcl s) (holder s) (ccl s) (jobs s) (next s) (bad s).
(** update of the state (the assignments in future.hpp:454-560, 569-665) *)
Definition set_thn (t : option cont) (s : st) : st :=
  St (alive s) (refs s) (result s) (exn s) (ready s) t (prom s) (rcl s) (holder s) (ccl s) (jobs s) (next s) (bad s).
(** update of the state (the assignments in future.hpp:454-560, 569-665) *)
Definition set_prom (s : st) : st :=
  St (alive s) (refs s) (result s) (exn s) (ready s) (thn s) false (rcl s) (holder s) (ccl s) (jobs s) (next s) (bad s).
(** update of the state (the assignments in future.hpp:454-560, 569-665) *)
Definition set_rcl (r : option rcall) (s : st) : st :=
  St (alive s) (refs s) (result s) (exn s) (ready s) (thn s) (prom s) r (holder s) (ccl s) (jobs s) (next s) (bad s).
(** update of the state (the assignments in future.hpp:454-560, 569-665) *)
Definition set_holder (h : owner) (c : option ccall) (s : st) : st :=
  St (alive s) (refs s) (result s) (exn s) (ready s) (thn s) (prom s) (rcl s) h c (jobs s) (next s) (bad s).
(** update of the state (the assignments in future.hpp:454-560, 569-665) *)
Definition set_jobs (js : list cont) (s : st) : st :=
  St (alive s) (refs s) (result s) (exn s) (ready s) (thn s) (prom s) (rcl s) (holder s) (ccl s) js (next s) (bad s).
(** update of the state (the assignments in future.hpp:454-560, 569-665) *)
Definition set_next (n : nat) (s : st) : st :=
  St (alive s) (refs s) (result s) (exn s) (ready s) (thn s) (prom s) (rcl s) (holder s) (ccl s) (jobs s) n (bad s).
(** update of the state (the assignments in future.hpp:454-560, 569-665) *)
Definition set_bad (b : bool) (s : st) : st :=
  St (alive s) (refs s) (result s) (exn s) (ready s) (thn s) (prom s) (rcl s) (holder s) (ccl s) (jobs s) (next s) (bad s || b).
(** the destructor of the shared state, future.hpp:454-463 *)
Definition destroy (s : st) : st :=
  St false 0 None None (ready s) None (prom s) (rcl s) (holder s) (ccl s) (jobs s) (next s) (bad s).

(** the shared state is used; model of undefined behaviour in future.hpp:454-560 *)
Definition touch (s : st) : st := set_bad (negb (alive s)) s.
(** shared_ptr: one owner less; the last one destroys the shared state, with what is in _then; future.hpp:569-665, 863-974 *)
Definition release (s : st) : st * list event :=
  let s := touch s in
  match refs s with
  | 0 => (set_bad true s, [])
  | 1 => (destroy s, [Gone])
  | S n => (set_refs n s, [])
  end.
(** a continuation is destroyed without having been called. A packaged_task breaks the promise of the result, if that is
    there still, and the handle goes with the function (set_exception, 619-622); the handle goes with the function of detach *)
Definition drop (c : cont) (s : st) : st * list event :=
  match c, holder s with
  | Cont _ n, Waits m =>
    if n =? m then let (s, ev) := release (set_holder Nobody (ccl s) s) in (s, Dropped n :: ev) else (s, [])
  | Cont _ _, _ => (s, [])
  | Keep, _ => release s
  end.
(** a continuation is called. packaged_task does nothing if the result is gone (653-657); then's function reads the value,
    the others are given the handle *)
Definition call (c : cont) (s : st) : st * list event :=
  match c, holder s with
  | Cont k n, Waits m =>
    if n =? m then
      match k with
      | KThen => (set_holder (Runs n) (Some (CThen n)) s, [Started n])
      | _ => (set_holder Client None s, [Started n])
      end
    else (s, [])
  | Cont KDetach _, _ => (set_bad true s, [])
  | Cont _ _, _ => (s, [])
  | Keep, _ => release s
  end.
(** e.first(e.second): the executor of then and recover keeps it; immediate_executor calls; detach()'s destroys (514) *)
Definition hand (c : cont) (s : st) : st * list event :=
  match c with
  | Cont KDetach _ | Keep => call c s
  | Cont _ _ => (set_jobs (jobs s ++ [c]) s, [])
  end.
(** get_try_r 549-560, the part after the mutex has been released: the value is moved out, _result stays engaged *)
Definition writing (s : st) : bool := match rcl s with Some (RWrite _) => true | _ => false end.
(** get_try_r, future.hpp:549-560 *)
Definition take (s : st) : st * got :=
  let s := set_bad (writing s) (touch s) in
  match exn s, result s with
  | Some e, _ => (s, Thrown e)
  | None, None => (s, Nothing)
  | None, Some x => (set_result (Some Hollow) s, Slot x)
  end.

(** one step, future.hpp:454-560, 569-665, 863-974 *)
Definition step (s : st) (l : label) : option (st * list event) :=
  match l with
  | LResolve o =>
    if prom s && match rcl s with None => true | _ => false end then
      let s := set_prom s in
      if alive s then Some (set_refs (S (refs s)) (set_rcl (Some (RWrite o)) s), []) else Some (s, [])
    else None
  | LForget => if prom s && match rcl s with None => true | _ => false end then Some (set_prom s, []) else None
  | LAttach k =>
    match holder s, ccl s with
    | Client, None =>
      let n := next s in
      Some (set_next (S n) (set_holder (Waits n) (Some (CLock (Cont k n))) s), [Attached k n])
    | _, _ => None
    end
  | LKeep => match holder s, ccl s with Client, None => Some (set_holder Client (Some (CLock Keep)) s, []) | _, _ => None end
  | LGet => match holder s, ccl s with Client, None => Some (set_holder Client (Some CGet) s, []) | _, _ => None end
  | LReset => match holder s, ccl s with Client, None => Some (release (set_holder Nobody None s)) | _, _ => None end
  | LCancel =>
    match holder s, ccl s with
    | Waits n, None =>
      match thn s with Some (Cont KDetach _) => None | _ =>   (* detach(f) has no result *)
      match rcl s with Some (RHand (Some (Cont KDetach _))) => None | _ =>
        let (s, ev) := release (set_holder Nobody None s) in Some (s, Canceled n :: ev)
      end end
    | _, _ => None
    end
  | LR =>
    match rcl s with
    | None => None
    | Some (RWrite o) =>
      let s := set_bad (ready s) (touch s) in
      match o with
      | Value v => Some (set_result (Some (Full v)) (set_rcl (Some RLock) s), [Resolved o])
      | Error e => Some (set_exn (Some e) (set_rcl (Some RLock) s), [Resolved o])
      end
    | Some RLock => let s := touch s in Some (set_ready (set_rcl (Some (RHand (thn s))) (set_thn None s)), [])
    | Some (RHand None) => Some (set_rcl (Some RFree) s, [])
    | Some (RHand (Some c)) => Some (hand c (set_rcl (Some RFree) s))
    | Some RFree => Some (release (set_rcl None s))
    end
  | LC =>
    match ccl s with
    | None => None
    | Some (CLock c) =>
      let s := touch s in
      if ready s then
        match c with
        | Keep => Some (set_holder (holder s) None s, [])
        | _ => Some (set_holder (holder s) (Some (CHand c)) s, [])
        end
      else
        let old := thn s in
        let s := set_thn (Some c) (set_holder (holder s) None s) in
        let (s, ev) := match c with Keep => (set_refs (S (refs s)) s, [Kept]) | _ => (s, []) end in
        match old with Some o => let (s, ev') := drop o s in Some (s, ev ++ ev') | None => Some (s, ev) end
    | Some (CHand c) => Some (hand c (set_holder (holder s) None s))
    | Some CGet => let s := touch s in
      if ready s then Some (set_holder (holder s) (Some CTake) s, []) else Some (set_holder (holder s) None s, [Got Nothing])
    | Some CTake => let (s, g) := take s in Some (set_holder (holder s) None s, [Got g])
    | Some (CThen n) => let s := touch s in
      if ready s then Some (set_holder (holder s) (Some (CThen2 n)) s, [])
      else Some (set_bad true (set_holder (holder s) (Some CFree) s), [GotThen n Nothing])
    | Some (CThen2 n) => let (s, g) := take s in Some (set_holder (holder s) (Some CFree) s, [GotThen n g])
    | Some CFree => Some (release (set_holder Nobody None s))
    end
  | LRun i => match jobs s !! i with Some c => Some (call c (set_jobs (delete i (jobs s)) s)) | None => None end
  | LDrop i => match jobs s !! i with Some c => Some (drop c (set_jobs (delete i (jobs s)) s)) | None => None end
  end.

(** package 977-1031: the shared state, a packaged_task and the handle *)
Definition init : st := St true 1 None None false None true None Client None [] 0 false.

(** executions: any sequence of steps (future.hpp:454-560, 569-665) *)
Fixpoint run (s : st) (ls : list label) : option (st * list event) :=
  match ls with
  | [] => Some (s, [])
  | l :: ls => match step s l with
    | None => None
    | Some (s', ev) => match run s' ls with None => None | Some (s'', tr) => Some (s'', ev ++ tr) end
    end
  end.
