(** Model of priority_task_system and waiter, /repo/include/stlab/concurrency/default_executor.hpp:182-219, 320-441,
    with the queues of Queue.v and the registration of join() as a pre-exit handler (src/concurrency/default_executor.cpp:45-53).

    A labelled transition system. A critical section of a queue's or waiter's mutex is one step; a try_lock may fail
    at any time (the standard allows it, and contention causes it). Each condition variable has one possible waiter;
    a waiting thread continues when notified, and a notification may come spuriously; a notify_one that follows the critical section is a separate step, during
    which the caller is in [calls]. execute() starts at an arbitrary queue (the model does not keep _index, 398-400).
    The start index of expansion thread number e is its position in _threads, 412. Tasks are numbered in the order
    of the execute() calls. join() is called once; add_thread() concurrently with join() (which would be a data race
    on _threads, 388 and 412) is excluded. Using a queue after join() has cleared _q (390) is the event [Ub]. *)
From Coq Require Import ZArith List Bool.
From stdpp Require Import list.
From Verif.Executor Require Import Queue.

(** pool thread i, run(i), 346-361 *)
Inductive wpc :=
  | Loop (n : nat)            (** 351-353, about to try_pop from queue (i + n) % _count *)
  | PopLock                   (** 356, pop() about to take the mutex *)
  | Wait (notified : bool)    (** 279, in _ready.wait *)
  | Run (t : nat)             (** 359 *)
  | Exited.                   (** 357 *)
(** expansion thread, 412-427 *)
Inductive epc :=
  | ELoop (n : nat)           (** 418-420 *)
  | EWaitLock                 (** 426, wait() about to take the mutex, 212 *)
  | EWait (notified : bool)   (** 215 *)
  | ERun (t : nat)            (** 423 *)
  | EExited.
(** a call of a member function in progress; default_executor.hpp:397-440 *)
Inductive cpc :=
  | Try (t p i n : nat)       (** execute, 402-404 *)
  | PushIt (t p i : nat)      (** execute, 406 *)
  | Notify (i : nat)          (** _ready.notify_one() of queue i pending: 302, 312, 271 *)
  | WakeQ (n : nat)           (** wake(), 433-435 *)
  | WakeW (n l : nat)         (** wake(), 436-438; l is waiters_size() *)
  | NotifyW (n : nat).        (** 206 *)
(** join(), 382-391 *)
Inductive jpc :=
  | JIdle                     (** not yet called *)
  | JDone (k : nat)           (** 383-384: next queue *)
  | JNote (k : nat)           (** 290 *)
  | JWDone (k : nat)          (** 385-386 *)
  | JWNote (k : nat)          (** 196 *)
  | JThreads (k : nat)        (** 387-388 *)
  | JReturned.                (** after 390 *)

Record wtr := Wtr { w_waiting : bool; w_done : bool }.     (** waiter, 187-188 *)

(** priority_task_system, default_executor.hpp:320-380 *)
Record st := St {
  qs : list (nq nat);         (** _q, 338 *)
  ws : list wpc;              (** the first _count _threads *)
  wt : list wtr;              (** _waiters, 344 *)
  es : list epc;              (** the other _threads *)
  calls : list cpc;
  jn : jpc;
  next : nat;                 (** ghost: tasks submitted so far *)
  early : list nat;           (** ghost: tasks pushed before join() was called *)
  dropped : list nat          (** ghost: tasks destroyed unexecuted by _q.clear(), 390 *)
}.

(** what is observable of the pool, default_executor.hpp:346-440; Ub: _q used after 390 *)
Inductive event := Pushed (t : nat) | Started (t : nat) | Ended (t : nat) | Ub.

(** atomic steps, default_executor.hpp:182-219, 320-441 *)
Inductive label :=
  | Execute (p i : nat)             (** a thread calls execute<p>(f) *)
  | Wake                            (** a thread calls wake() *)
  | AddThread                       (** a thread calls add_thread(), 409-429 *)
  | Call (c : nat) (fail : bool)    (** call c takes a step; its try_lock fails if [fail] *)
  | Worker (i : nat) (fail : bool) (k : nat)   (** pool thread i takes a step; k: which item is at the heap's front *)
  | Expand (e : nat) (fail : bool) (k : nat)   (** expansion thread e takes a step *)
  | Spurious (i : nat)              (** pool thread i wakes up spuriously *)
  | ESpurious (e : nat)             (** expansion thread e wakes up spuriously *)
  | Join.                           (** join() takes a step *)

(** update of the state (the assignments in default_executor.hpp:182-219, 320-441) *)
Definition set_q (i : nat) (q : nq nat) (s : st) : st :=
  St (<[i := q]> (qs s)) (ws s) (wt s) (es s) (calls s) (jn s) (next s) (early s) (dropped s).
(** update of the state (the assignments in default_executor.hpp:182-219, 320-441) *)
Definition set_w (i : nat) (p : wpc) (s : st) : st :=
  St (qs s) (<[i := p]> (ws s)) (wt s) (es s) (calls s) (jn s) (next s) (early s) (dropped s).
(** update of the state (the assignments in default_executor.hpp:182-219, 320-441) *)
Definition set_wt (i : nat) (w : wtr) (s : st) : st :=
  St (qs s) (ws s) (<[i := w]> (wt s)) (es s) (calls s) (jn s) (next s) (early s) (dropped s).
(** update of the state (the assignments in default_executor.hpp:182-219, 320-441) *)
Definition set_e (i : nat) (p : epc) (s : st) : st :=
  St (qs s) (ws s) (wt s) (<[i := p]> (es s)) (calls s) (jn s) (next s) (early s) (dropped s).
(** update of the state (the assignments in default_executor.hpp:182-219, 320-441) *)
Definition set_c (c : list cpc) (s : st) : st :=
  St (qs s) (ws s) (wt s) (es s) c (jn s) (next s) (early s) (dropped s).
(** update of the state (the assignments in default_executor.hpp:182-219, 320-441) *)
Definition set_j (j : jpc) (s : st) : st :=
  St (qs s) (ws s) (wt s) (es s) (calls s) j (next s) (early s) (dropped s).

(** join has not been called, default_executor.hpp:382 *)
Definition no_join (s : st) : bool := match jn s with JIdle => true | _ => false end.
(** default_executor.hpp:320-345 *)
Definition ncount (s : st) : nat := length (ws s).                      (** _count *)

(** 298-299 on queue i; the notification follows *)
Definition do_push (t p i : nat) (s : st) : option st :=
  match qs s !! i with
  | None => None
  | Some q => let s := set_q i (push p t q) s in
              Some (St (qs s) (ws s) (wt s) (es s) (calls s) (jn s) (next s)
                       (if no_join s then early s ++ [t] else early s) (dropped s))
  end.

(** notify_one of queue i, default_executor.hpp:271, 290, 301, 312 *)
Definition notify_w (i : nat) (s : st) : st :=
  match ws s !! i with Some (Wait _) => set_w i (Wait true) s | _ => s end.
(** notify_one of waiter i, default_executor.hpp:196, 206 *)
Definition notify_e (i : nat) (s : st) : st :=
  match es s !! i with Some (EWait _) => set_e i (EWait true) s | _ => s end.

(** a step of a call in progress, default_executor.hpp:397-440 *)
Definition call (s : st) (c : nat) (fail : bool) : option (st * list event) :=
  match calls s !! c with
  | None => None
  | Some p =>
    let goto p' s := set_c (<[c := p']> (calls s)) s in
    let ret s := set_c (take c (calls s) ++ drop (S c) (calls s)) s in
    match p with
    | Try t pr i n =>
      if fail then Some (goto (if S n =? ncount s then PushIt t pr i else Try t pr i (S n)) s, [])
      else match do_push t pr ((i + n) mod ncount s) s with
           | Some s' => Some (goto (Notify ((i + n) mod ncount s)) s', [Pushed t])
           | None => Some (s, [Ub])
           end
    | PushIt t pr i =>
      match do_push t pr (i mod ncount s) s with
      | Some s' => Some (goto (Notify (i mod ncount s)) s', [Pushed t])
      | None => Some (s, [Ub])
      end
    | Notify i => if i <? length (qs s) then Some (ret (notify_w i s), []) else Some (s, [Ub])
    | WakeQ n =>
      if n =? length (qs s) then Some (goto (WakeW 0 (length (es s))) s, [])
      else match qs s !! n with
           | None => Some (s, [Ub])
           | Some q => if fail || negb (waiting q)
                       then Some (goto (WakeQ (S n)) s, [])
                       else Some (goto (Notify n) (set_q n (set_waiting false q) s), [])
           end
    | WakeW n l =>
      if n =? l then Some (ret s, [])
      else match wt s !! n with
           | None => Some (s, [Ub])
           | Some w => if fail || negb (w_waiting w)
                       then Some (goto (WakeW (S n) l) s, [])
                       else Some (goto (NotifyW n) (set_wt n (Wtr false (w_done w)) s), [])
           end
    | NotifyW n => Some (ret (notify_e n s), [])
    end
  end.

(** pop() with the mutex held and the flag _waiting set or left alone, 278-282 *)
Definition pop_eval (i : nat) (q : nq nat) (k : nat) (s : st) : option (st * list event) :=
  if is_empty q && negb (done q) && waiting q then Some (set_w i (Wait false) (set_q i q s), [])
  else let q := set_waiting false q in
       if is_empty q then Some (set_w i (if done q then Exited else Loop 0) (set_q i q s), [])
       else match pop_at k q with
            | None => None
            | Some (t, q) => Some (set_w i (Run t) (set_q i q s), [Started t])
            end.

(** run(i), default_executor.hpp:346-361, one step *)
Definition worker (s : st) (i : nat) (fail : bool) (k : nat) : option (st * list event) :=
  match ws s !! i with
  | Some (Loop n) =>
    let j := (i + n) mod ncount s in
    match qs s !! j with
    | None => Some (s, [Ub])
    | Some q =>
      if fail || is_empty q then Some (set_w i (if S n =? ncount s then PopLock else Loop (S n)) s, [])
      else match pop_at k q with
           | None => None
           | Some (t, q) => Some (set_w i (Run t) (set_q j q s), [Started t])
           end
    end
  | Some PopLock => match qs s !! i with None => Some (s, [Ub]) | Some q => pop_eval i (set_waiting true q) k s end
  | Some (Wait true) => match qs s !! i with None => Some (s, [Ub]) | Some q => pop_eval i q k s end
  | Some (Run t) => Some (set_w i (Loop 0) s, [Ended t])
  | _ => None
  end.

(** waiter::wait with the mutex held, 214-217 *)
Definition wait_eval (e : nat) (w : wtr) (s : st) : option (st * list event) :=
  if w_waiting w && negb (w_done w) then Some (set_e e (EWait false) (set_wt e w s), [])
  else Some (set_e e (if w_done w then EExited else ELoop 0) (set_wt e (Wtr false (w_done w)) s), []).

(** add_thread, default_executor.hpp:412-427, one step of the thread *)
Definition expand (s : st) (e : nat) (fail : bool) (k : nat) : option (st * list event) :=
  match es s !! e with
  | Some (ELoop n) =>
    let j := (ncount s + e + n) mod ncount s in
    match qs s !! j with
    | None => Some (s, [Ub])
    | Some q =>
      if fail || is_empty q then Some (set_e e (if S n =? ncount s then EWaitLock else ELoop (S n)) s, [])
      else match pop_at k q with
           | None => None
           | Some (t, q) => Some (set_e e (ERun t) (set_q j q s), [Started t])
           end
    end
  | Some EWaitLock => match wt s !! e with None => Some (s, [Ub]) | Some w => wait_eval e (Wtr true (w_done w)) s end
  | Some (EWait true) => match wt s !! e with None => Some (s, [Ub]) | Some w => wait_eval e w s end
  | Some (ERun t) => Some (set_e e (ELoop 0) s, [Ended t])
  | _ => None
  end.

(** what is in the queues, default_executor.hpp:239 *)
Definition all_items (s : st) : list nat := qs s ≫= (fun q => (items q).*2).

(** default_executor.hpp:382-391, one step *)
Definition join (s : st) : option (st * list event) :=
  match jn s with
  | JIdle => Some (set_j (JDone 0) s, [])
  | JDone k =>
    match qs s !! k with
    | Some q => Some (set_j (JNote k) (set_q k (set_done true q) s), [])
    | None => Some (set_j (JWDone 0) s, [])
    end
  | JNote k => Some (set_j (JDone (S k)) (notify_w k s), [])
  | JWDone k =>
    match wt s !! k with
    | Some w => Some (set_j (JWNote k) (set_wt k (Wtr (w_waiting w) true) s), [])
    | None => Some (set_j (JThreads 0) s, [])
    end
  | JWNote k => Some (set_j (JWDone (S k)) (notify_e k s), [])
  | JThreads k =>
    if k <? length (ws s) then
      match ws s !! k with Some Exited => Some (set_j (JThreads (S k)) s, []) | _ => None end
    else match es s !! (k - length (ws s)) with
         | Some EExited => Some (set_j (JThreads (S k)) s, [])
         | Some _ => None
         | None =>                                                                    (* 390 *)
           Some (St [] (ws s) (wt s) (es s) (calls s) JReturned
                    (next s) (early s) (dropped s ++ all_items s), [])
         end
  | JReturned => None
  end.

(** one step, default_executor.hpp:182-219, 320-441 *)
Definition step (s : st) (l : label) : option (st * list event) :=
  match l with
  | Execute p i =>
    Some (St (qs s) (ws s) (wt s) (es s) (calls s ++ [Try (next s) p i 0]) (jn s) (S (next s)) (early s) (dropped s), [])
  | Wake => Some (set_c (calls s ++ [WakeQ 0]) s, [])
  | AddThread =>
    if no_join s then
      Some (if length (es s) =? length (wt s) then s
            else St (qs s) (ws s) (wt s) (es s ++ [ELoop 0]) (calls s) (jn s) (next s) (early s) (dropped s), [])
    else None
  | Call c fail => call s c fail
  | Worker i fail k => worker s i fail k
  | Expand e fail k => expand s e fail k
  | Spurious i => match ws s !! i with Some (Wait _) => Some (notify_w i s, []) | _ => None end
  | ESpurious e => match es s !! e with Some (EWait _) => Some (notify_e e s, []) | _ => None end
  | Join => join s
  end.

(** executions: any sequence of steps (default_executor.hpp:182-219, 320-441) *)
Fixpoint run (s : st) (ls : list label) : option (st * list event) :=
  match ls with
  | [] => Some (s, [])
  | l :: ls => match step s l with
               | None => None
               | Some (s1, e1) => match run s1 ls with None => None | Some (s2, e2) => Some (s2, e1 ++ e2) end
               end
  end.

(** priority_task_system(), 370-375: [c] = _count, [m] = _thread_limit - _count *)
Definition init (c m : nat) : st :=
  St (replicate c nq0) (replicate c (Loop 0)) (replicate m (Wtr false false)) [] [] JIdle 0 [] [].
