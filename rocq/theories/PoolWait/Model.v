(** Model of waiting inside the portable pool: /repo/include/stlab/concurrency/await.hpp:37-75 (invoke_waiting, await), with
    priority_task_system and waiter, default_executor.hpp:182-441 (run 346-361, execute 397-407, add_thread 409-429, wake 432-440).

    Unlike Executor.Pool, calls are made by threads: by the tasks that pool threads execute, one call at a time, and by clients
    outside the pool; a task that awaits occupies its thread. _index is kept. A critical section of a queue's or waiter's mutex
    is one step; a try_lock may fail at any time; that try_pop fails on
    a queue that is not empty is an event ([Missed]). Waiting on a condition variable may end spuriously. The
    future is an id: await(f) for the future of a task waits until the task has ended (C41); one may also await something else.

    Simplified: which of the tasks in a queue is taken is arbitrary (C23 says which); pool and expansion threads are one type,
    a thread's number is its position in _threads, its flag _waiting that of its queue or waiter. Not modelled: join (C24),
    the wrapping of _index. *)
From Coq Require Import List Bool Arith.
From stdpp Require Import list.

(** what a task, or a client, is doing; await.hpp:37-75, default_executor.hpp:397-440 *)
Inductive act :=
  | User                                (** its own code *)
  | Try (t i n : nat)                   (** execute, 402-404 *)
  | PushIt (t i : nat)                  (** execute, 406 *)
  | Notify (j : nat) (k : option (option nat))  (** notify_one of thread j's condition variable: 301, 312, or (Some) in wake, 271, 206 *)
  | WakeQ (n : nat) (o : option nat)    (** wake, 433-435 *)
  | WakeW (n l : nat) (o : option nat)  (** wake, 436-438; l is waiters_size() *)
  | AddTh (o : option nat)              (** add_thread, 410-411 *)
  | Blocked (o : option nat).           (** await.hpp:73: waits for task o, or for something else *)
(** a thread of the pool; default_executor.hpp:346-361, 412-427 *)
Inductive pos :=
  | Loop (n : nat)                      (** 351-353, 418-420: about to try_pop from queue (i + n) % _count *)
  | Lock                                (** about to take the mutex in pop, 276, or wait, 212 *)
  | Wait (notified : bool)              (** 278-279, 214-215 *)
  | Run (t : nat) (a : act).            (** 359, 423 *)
(** priority_task_system, default_executor.hpp:320-380, with its threads and clients *)
Record st := St {
  qs : list (list (nat * bool));        (** _q; ghost: somebody has called await since *)
  thr : list pos;                       (** _threads *)
  flag : list bool;                     (** _waiting of the thread's queue or waiter *)
  cl : list act;                        (** clients *)
  idx : nat;                            (** _index *)
  next : nat;                           (** ghost: tasks so far *)
  fin : list nat                        (** tasks that have ended *)
}.
(** what is observable of the pool, default_executor.hpp:346-440 *)
Inductive event :=
  | Pushed (x : option nat) (t : nat)   (** task t is queued; by task x, or a client *)
  | Started (t : nat) | Ended (t : nat)
  | Awaits (x : option nat) (o : option nat) (** task x, or a client, awaits task o, or something else *)
  | Missed                              (** 259: try_lock fails, the queue is not empty *)
  | Full.                               (** 411: no further thread *)
(** a thread of the pool or a client, as caller of default_executor.hpp:397-440 *)
Inductive who := T (k : nat) | C (k : nat).
(** atomic steps, default_executor.hpp:182-441 and await.hpp:37-75 *)
Inductive label :=
  | Client | Exec (w : who) | Await (w : who) (o : option nat) | Signal (w : who)   (** what w waits for, not a task, has come *)
  | Step (w : who) (fail : bool)        (** in a call *)
  | Poll (k : nat) (fail : bool) (c : nat)   (** thread k of the pool, outside tasks; takes task c of a queue *)
  | End (k : nat)                       (** the task of thread k returns *)
  | Resume (w : who)                    (** the task w waits for has ended *)
  | Spurious (k : nat).

(** _count, default_executor.hpp:320-345 *)
Definition count (s : st) : nat := length (qs s).
(** update of the state (the assignments in default_executor.hpp:182-441) *)
Definition set_qs (q : list (list (nat * bool))) (s : st) : st := St q (thr s) (flag s) (cl s) (idx s) (next s) (fin s).
(** update of the state (the assignments in default_executor.hpp:182-441) *)
Definition set_thr (l : list pos) (s : st) : st := St (qs s) l (flag s) (cl s) (idx s) (next s) (fin s).
(** update of the state (the assignments in default_executor.hpp:182-441) *)
Definition set_flag (k : nat) (b : bool) (s : st) : st := St (qs s) (thr s) (<[k := b]> (flag s)) (cl s) (idx s) (next s) (fin s).
(** update of the state (the assignments in default_executor.hpp:182-441) *)
Definition set_cl (l : list act) (s : st) : st := St (qs s) (thr s) (flag s) l (idx s) (next s) (fin s).
(** thread k goes on, default_executor.hpp:346-361 *)
Definition set_pos (k : nat) (p : pos) (s : st) : st := set_thr (<[k := p]> (thr s)) s.
(** the call w is in; default_executor.hpp:397-440 *)
Definition get (w : who) (s : st) : option act :=
  match w with
  | T k => match thr s !! k with Some (Run _ a) => Some a | _ => None end
  | C k => cl s !! k
  end.
(** the call of w goes on, default_executor.hpp:397-440 *)
Definition put (w : who) (a : act) (s : st) : st :=
  match w with
  | T k => match thr s !! k with Some (Run t _) => set_pos k (Run t a) s | _ => s end
  | C k => set_cl (<[k := a]> (cl s)) s
  end.
(** the task that w is; default_executor.hpp:359, 423 *)
Definition task (w : who) (s : st) : option nat :=
  match w with T k => match thr s !! k with Some (Run t _) => Some t | _ => None end | C _ => None end.
(** push to queue j, default_executor.hpp:298-299, 309-310 *)
Definition push (j t : nat) (s : st) : st :=
  match qs s !! j with None => s | Some q => set_qs (<[j := q ++ [(t, false)]]> (qs s)) s end.
(** notify_one, default_executor.hpp:196, 206, 271, 290, 301, 312 *)
Definition notify (j : nat) (s : st) : st := match thr s !! j with Some (Wait _) => set_pos j (Wait true) s | _ => s end.
(** all that is queued was there when somebody called await; default_executor.hpp:239-247 *)
Definition age (s : st) : st := set_qs (map (map (fun x => (fst x, true))) (qs s)) s.

(** a step in call a of w; m is _thread_limit; default_executor.hpp:397-440 *)
Definition call (m : nat) (w : who) (fail : bool) (a : act) (s : st) : option (st * list event) :=
  match a with
  | User | Blocked _ => None
  | Try t i n =>
    if fail then Some (put w (if S n =? count s then PushIt t i else Try t i (S n)) s, [])
    else let j := (i + n) mod count s in Some (put w (Notify j None) (push j t s), [Pushed (task w s) t])
  | PushIt t i => let j := i mod count s in Some (put w (Notify j None) (push j t s), [Pushed (task w s) t])
  | Notify j k => Some (notify j (put w (match k with None => User | Some o => Blocked o end) s), [])
  | WakeQ n o =>
    if n =? count s then Some (put w (WakeW 0 (length (thr s) - count s) o) s, [])
    else if fail then Some (put w (WakeQ (S n) o) s, [])
    else match flag s !! n with
         | Some true => Some (put w (Notify n (Some o)) (set_flag n false s), [])
         | _ => Some (put w (WakeQ (S n) o) s, [])
         end
  | WakeW n l o =>
    if n =? l then Some (put w (AddTh o) s, [])
    else if fail then Some (put w (WakeW (S n) l o) s, [])
    else match flag s !! (count s + n) with
         | Some true => Some (put w (Notify (count s + n) (Some o)) (set_flag (count s + n) false s), [])
         | _ => Some (put w (WakeW (S n) l o) s, [])
         end
  | AddTh o =>
    if length (thr s) =? m then Some (put w (Blocked o) s, [Full])
    else let s' := put w (Blocked o) s in
         Some (St (qs s') (thr s' ++ [Loop 0]) (flag s' ++ [false]) (cl s') (idx s') (next s') (fin s'), [])
  end.
(** task c of queue j is taken by thread k; pop_not_empty, default_executor.hpp:250-255 *)
Definition take_from (k j c : nat) (s : st) : option (st * list event) :=
  match qs s !! j with
  | None => None
  | Some q => match q !! c with
              | None => None
              | Some (t, _) => Some (set_pos k (Run t User) (set_qs (<[j := delete c q]> (qs s)) s), [Started t])
              end
  end.
(** empty() of a vector, default_executor.hpp:260, 278 *)
Definition is_nil {A} (l : list A) : bool := match l with [] => true | _ => false end.
(** _q of queue j is empty, default_executor.hpp:260, 278 *)
Definition nothing (j : nat) (s : st) : bool := match qs s !! j with Some q => is_nil q | None => true end.
(** pop (275-283) and waiter::wait (211-218) with the mutex held *)
Definition eval_wait (k c : nat) (s : st) : option (st * list event) :=
  if k <? count s then
    if nothing k s then
      match flag s !! k with
      | Some true => Some (set_pos k (Wait false) s, [])
      | _ => Some (set_pos k (Loop 0) s, [])
      end
    else take_from k k c (set_flag k false s)
  else match flag s !! k with
       | Some true => Some (set_pos k (Wait false) s, [])
       | _ => Some (set_pos k (Loop 0) s, [])
       end.
(** default_executor.hpp:346-361, 412-427 *)
Definition poll (k : nat) (fail : bool) (c : nat) (s : st) : option (st * list event) :=
  match thr s !! k with
  | Some (Loop n) =>
    let on := if S n =? count s then Lock else Loop (S n) in
    if fail then Some (set_pos k on s, if nothing ((k + n) mod count s) s then [] else [Missed])
    else if nothing ((k + n) mod count s) s then Some (set_pos k on s, [])
    else take_from k ((k + n) mod count s) c s
  | Some Lock => eval_wait k c (set_flag k true s)
  | Some (Wait true) => eval_wait k c s
  | _ => None
  end.
(** one step, default_executor.hpp:182-441 *)
Definition step (m : nat) (s : st) (l : label) : option (st * list event) :=
  match l with
  | Client => Some (set_cl (cl s ++ [User]) s, [])
  | Exec w =>
    match get w s with
    | Some User => Some (let s' := put w (Try (next s) (idx s) 0) s in St (qs s') (thr s') (flag s') (cl s') (S (idx s)) (S (next s)) (fin s'), [])
    | _ => None
    end
  | Await w o =>
    match get w s with
    | Some User =>
      if match o with Some y => bool_decide (y ∈ fin s) | None => false end then Some (s, [])       (* 57: ready *)
      else Some (put w (WakeQ 0 o) (age s), [Awaits (task w s) o])
    | _ => None
    end
  | Signal w => match get w s with Some (Blocked None) => Some (put w User s, []) | _ => None end
  | Step w fail => match get w s with None => None | Some a => call m w fail a s end
  | Poll k fail c => poll k fail c s
  | End k =>
    match thr s !! k with
    | Some (Run t User) => Some (let s' := set_pos k (Loop 0) s in St (qs s') (thr s') (flag s') (cl s') (idx s') (next s') (t :: fin s'), [Ended t])
    | _ => None
    end
  | Resume w =>
    match get w s with
    | Some (Blocked (Some y)) => if bool_decide (y ∈ fin s) then Some (put w User s, []) else None
    | _ => None
    end
  | Spurious k => match thr s !! k with Some (Wait _) => Some (set_pos k (Wait true) s, []) | _ => None end
  end.
(** c pool threads; priority_task_system(), default_executor.hpp:370-375 *)
Definition init (c : nat) : st := St (replicate c []) (replicate c (Loop 0)) (replicate c false) [] 0 0 [].
(** executions: any sequence of steps (default_executor.hpp:182-441) *)
Fixpoint run (m : nat) (s : st) (ls : list label) : option (st * list event) :=
  match ls with
  | [] => Some (s, [])
  | l :: ls => match step m s l with
               | None => None
               | Some (s1, e1) => match run m s1 ls with None => None | Some (s2, e2) => Some (s2, e1 ++ e2) end
               end
  end.
