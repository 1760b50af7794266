(** Model of the shutdown of the portable pool while tasks submit and await: priority_task_system::join,
    /repo/include/stlab/concurrency/default_executor.hpp:382-391, called by pre_exit (default_executor.cpp:46-54), concurrent
    with execute 397-407, add_thread 409-429 and wake 432-440, called by the tasks (await.hpp:37-75).

    Verif.PoolWait with join: the flags _done, threads that leave their loop, the loop over _threads, whose end is read once
    (387, a range-for), and _q.clear(). [bad]: a queue is used when _q has been cleared. Clients make no calls once join has
    been called, and are in none then (except that they may wait for a result). See PoolWait for what is simplified.

    Not modelled: ~priority_task_system, 393-395, which destroys the threads that were not joined (std::terminate); a second
    join; the data race on _threads itself. *)
From Coq Require Import List Bool Arith.
From stdpp Require Import list.

(** what a task, or a client, is doing; await.hpp:37-75, default_executor.hpp:397-440 *)
Inductive act :=
  | User                                (** its own code *)
  | Try (t i n : nat)                   (** execute, 402-404 *)
  | PushIt (t i : nat)                  (** execute, 406 *)
  | Notify (j : nat) (k : option (option nat))  (** notify_one of thread j's condition variable: 301, 312, or (Some) in wake, 271, 206 *)
  | WakeQ (n : nat) (o : option nat)    (** wake, 433-435 *)
  | WakeW (n l : nat) (o : option nat)  (** wake, 436-438; l is waiters_size() *)
  | AddTh (o : option nat)              (** add_thread, 410-411 *)
  | Blocked (o : option nat).           (** await.hpp:73: waits for task o, or for something else *)
(** a thread of the pool; default_executor.hpp:346-361, 412-427 *)
Inductive pos :=
  | Loop (n : nat)                      (** 351-353, 418-420: about to try_pop from queue (i + n) % _count *)
  | Lock                                (** about to take the mutex in pop, 276, or wait, 212 *)
  | Wait (notified : bool)              (** 278-279, 214-215 *)
  | Exited                              (** 357, 426 *)
  | Run (t : nat) (a : act).            (** 359, 423 *)
(** where join is; default_executor.hpp:382-391 *)
Inductive jpos :=
  | JNo                                 (** not called *)
  | JSet (j : nat)                      (** done() of queue or waiter j, 382-386: the flag, 191-195, 285-289 *)
  | JNot (j : nat)                      (** and the notification, 196, 290 *)
  | JBegin                              (** 387: about to read end(_threads) *)
  | JWait (k e : nat)                   (** 387-388: about to join thread k of e *)
  | JEnd.                               (** _q has been cleared, 390 *)
(** priority_task_system, default_executor.hpp:320-380, with its threads and clients *)
Record st := St {
  qs : list (list nat);                 (** _q *)
  thr : list pos;                       (** _threads *)
  flag : list bool;                     (** _waiting of the thread's queue or waiter *)
  don : list bool;                      (** _done of the queues and waiters *)
  jn : jpos;
  bad : bool;                           (** undefined behaviour *)
  cl : list act;                        (** clients *)
  idx : nat;                            (** _index *)
  next : nat;                           (** ghost: tasks so far *)
  fin : list nat                        (** tasks that have ended *)
}.
(** what is observable of the pool, default_executor.hpp:346-440 *)
Inductive event :=
  | Pushed (x : option nat) (t : nat)   (** task t is queued; by task x, or a client *)
  | Started (t : nat) | Ended (t : nat)
  | Awaits (x : option nat) (o : option nat) (** task x, or a client, awaits task o, or something else *)
  | Missed                              (** a try_pop fails though the queue is not empty *)
  | Late                                (** a thread is added when join has read the end of _threads *)
  | Called | Returned.                  (** join *)
(** a thread of the pool or a client, as caller of default_executor.hpp:397-440 *)
Inductive who := T (k : nat) | C (k : nat).
(** atomic steps, default_executor.hpp:182-441 and await.hpp:37-75 *)
Inductive label :=
  | Client | Exec (w : who) | Await (w : who) (o : option nat) | Signal (w : who)   (** what w waits for, not a task, has come *)
  | Step (w : who) (fail : bool)        (** in a call *)
  | Poll (k : nat) (fail : bool) (c : nat)   (** thread k of the pool, outside tasks; takes task c of a queue *)
  | End (k : nat)                       (** the task of thread k returns *)
  | Resume (w : who)                    (** the task w waits for has ended *)
  | Spurious (k : nat)
  | Join.                               (** join is called, or takes a step *)

(** _count, default_executor.hpp:320-345 *)
Definition count (s : st) : nat := length (qs s).
(** update of the state (the assignments in default_executor.hpp:182-441) *)
Definition set_qs (q : list (list nat)) (s : st) : st := St q (thr s) (flag s) (don s) (jn s) (bad s) (cl s) (idx s) (next s) (fin s).
(** update of the state (the assignments in default_executor.hpp:182-441) *)
Definition set_thr (l : list pos) (s : st) : st := St (qs s) l (flag s) (don s) (jn s) (bad s) (cl s) (idx s) (next s) (fin s).
(** update of the state (the assignments in default_executor.hpp:182-441) *)
Definition set_flag (k : nat) (b : bool) (s : st) : st :=
  St (qs s) (thr s) (<[k := b]> (flag s)) (don s) (jn s) (bad s) (cl s) (idx s) (next s) (fin s).
(** update of the state (the assignments in default_executor.hpp:182-441) *)
Definition set_cl (l : list act) (s : st) : st := St (qs s) (thr s) (flag s) (don s) (jn s) (bad s) l (idx s) (next s) (fin s).
(** update of the state (the assignments in default_executor.hpp:182-441) *)
Definition set_jn (p : jpos) (s : st) : st := St (qs s) (thr s) (flag s) (don s) p (bad s) (cl s) (idx s) (next s) (fin s).
(** update of the state (the assignments in default_executor.hpp:182-441) *)
Definition set_done (j : nat) (s : st) : st := St (qs s) (thr s) (flag s) (<[j := true]> (don s)) (jn s) (bad s) (cl s) (idx s) (next s) (fin s).
(** model of undefined behaviour: _q used after default_executor.hpp:390 *)
Definition wrong (s : st) : st := St (qs s) (thr s) (flag s) (don s) (jn s) true (cl s) (idx s) (next s) (fin s).
(** thread k goes on, default_executor.hpp:346-361 *)
Definition set_pos (k : nat) (p : pos) (s : st) : st := set_thr (<[k := p]> (thr s)) s.
(** _q.clear() has been executed, default_executor.hpp:390 *)
Definition cleared (s : st) : bool := match jn s with JEnd => true | _ => false end.
(** join has been called, default_executor.hpp:382 *)
Definition called (s : st) : bool := match jn s with JNo => false | _ => true end.
(** the call w is in; default_executor.hpp:397-440 *)
Definition get (w : who) (s : st) : option act :=
  match w with
  | T k => match thr s !! k with Some (Run _ a) => Some a | _ => None end
  | C k => cl s !! k
  end.
(** the call of w goes on, default_executor.hpp:397-440 *)
Definition put (w : who) (a : act) (s : st) : st :=
  match w with
  | T k => match thr s !! k with Some (Run t _) => set_pos k (Run t a) s | _ => s end
  | C k => set_cl (<[k := a]> (cl s)) s
  end.
(** the task that w is; default_executor.hpp:359, 423 *)
Definition task (w : who) (s : st) : option nat :=
  match w with T k => match thr s !! k with Some (Run t _) => Some t | _ => None end | C _ => None end.
(** push to queue j, default_executor.hpp:298-299, 309-310 *)
Definition push (j t : nat) (s : st) : st :=
  match qs s !! j with None => s | Some q => set_qs (<[j := q ++ [t]]> (qs s)) s end.
(** notify_one, default_executor.hpp:196, 206, 271, 290, 301, 312 *)
Definition notify (j : nat) (s : st) : st := match thr s !! j with Some (Wait _) => set_pos j (Wait true) s | _ => s end.
(** the calls that use the queues; default_executor.hpp:397-407, 432-435 *)
Definition uses (a : act) : bool := match a with Try _ _ _ | PushIt _ _ | Notify _ _ | WakeQ _ _ => true | _ => false end.
(** a step in call a of w; m is _thread_limit; default_executor.hpp:397-440 *)
Definition call (m : nat) (w : who) (fail : bool) (a : act) (s : st) : option (st * list event) :=
  if uses a && cleared s then Some (wrong s, []) else
  match a with
  | User | Blocked _ => None
  | Try t i n =>
    if fail then Some (put w (if S n =? count s then PushIt t i else Try t i (S n)) s, [])
    else let j := (i + n) mod count s in Some (put w (Notify j None) (push j t s), [Pushed (task w s) t])
  | PushIt t i => let j := i mod count s in Some (put w (Notify j None) (push j t s), [Pushed (task w s) t])
  | Notify j k => Some (notify j (put w (match k with None => User | Some o => Blocked o end) s), [])
  | WakeQ n o =>
    if n =? count s then Some (put w (WakeW 0 (length (thr s) - count s) o) s, [])
    else if fail then Some (put w (WakeQ (S n) o) s, [])
    else match flag s !! n with
         | Some true => Some (put w (Notify n (Some o)) (set_flag n false s), [])
         | _ => Some (put w (WakeQ (S n) o) s, [])
         end
  | WakeW n l o =>
    if n =? l then Some (put w (AddTh o) s, [])
    else if fail then Some (put w (WakeW (S n) l o) s, [])
    else match flag s !! (count s + n) with
         | Some true => Some (put w (Notify (count s + n) (Some o)) (set_flag (count s + n) false s), [])
         | _ => Some (put w (WakeW (S n) l o) s, [])
         end
  | AddTh o =>
    if length (thr s) =? m then Some (put w (Blocked o) s, [])
    else let s' := put w (Blocked o) s in
         Some (St (qs s') (thr s' ++ [Loop 0]) (flag s' ++ [false]) (don s') (jn s') (bad s') (cl s') (idx s') (next s') (fin s'),
           match jn s with JWait _ _ | JEnd => [Late] | _ => [] end)
  end.
(** task c of queue j is taken by thread k; pop_not_empty, default_executor.hpp:250-255 *)
Definition take_from (k j c : nat) (s : st) : option (st * list event) :=
  match qs s !! j with
  | None => None
  | Some q => match q !! c with
              | None => None
              | Some t => Some (set_pos k (Run t User) (set_qs (<[j := delete c q]> (qs s)) s), [Started t])
              end
  end.
(** empty() of a vector, default_executor.hpp:260, 278 *)
Definition is_nil {A} (l : list A) : bool := match l with [] => true | _ => false end.
(** _q of queue j is empty, default_executor.hpp:260, 278 *)
Definition nothing (j : nat) (s : st) : bool := match qs s !! j with Some q => is_nil q | None => true end.
(** _done of queue or waiter k, default_executor.hpp:188, 241 *)
Definition is_done (k : nat) (s : st) : bool := match don s !! k with Some b => b | None => false end.
(** pop (275-283) and waiter::wait (211-218) with the mutex held *)
Definition eval_wait (k c : nat) (s : st) : option (st * list event) :=
  if (k <? count s) && negb (nothing k s) then take_from k k c (set_flag k false s)
  else if is_done k s then Some (set_pos k Exited (set_flag k false s), [])
  else match flag s !! k with
       | Some true => Some (set_pos k (Wait false) s, [])
       | _ => Some (set_pos k (Loop 0) s, [])
       end.
(** default_executor.hpp:346-361, 412-427 *)
Definition poll (k : nat) (fail : bool) (c : nat) (s : st) : option (st * list event) :=
  match thr s !! k with
  | Some (Loop n) =>
    if cleared s then Some (wrong s, []) else
    let on := if S n =? count s then Lock else Loop (S n) in
    if fail then Some (set_pos k on s, if nothing ((k + n) mod count s) s then [] else [Missed])
    else if nothing ((k + n) mod count s) s then Some (set_pos k on s, [])
    else take_from k ((k + n) mod count s) c s
  | Some Lock => if cleared s && (k <? count s) then Some (wrong s, []) else eval_wait k c (set_flag k true s)
  | Some (Wait true) => if cleared s && (k <? count s) then Some (wrong s, []) else eval_wait k c s
  | _ => None
  end.
(** no call is in progress, default_executor.hpp:397-440 *)
Definition out (a : act) : bool := match a with User | Blocked _ => true | _ => false end.
(** join; d is the number of queues and waiters; default_executor.hpp:382-391 *)
Definition join (d : nat) (s : st) : option (st * list event) :=
  match jn s with
  | JNo => if forallb out (cl s) then Some (set_jn (JSet 0) s, [Called]) else None
  | JSet j => if j =? d then Some (set_jn JBegin s, []) else Some (set_jn (JNot j) (set_done j s), [])
  | JNot j => Some (notify j (set_jn (JSet (S j)) s), [])
  | JBegin => Some (set_jn (JWait 0 (length (thr s))) s, [])
  | JWait k e =>
    if k =? e then Some (set_jn JEnd s, [Returned])
    else match thr s !! k with Some Exited => Some (set_jn (JWait (S k) e) s, []) | _ => None end
  | JEnd => None
  end.
(** clients make no calls once join has been called; an assumption on users of default_executor.hpp:382 *)
Definition may (w : who) (s : st) : bool := match w with T _ => true | C _ => negb (called s) end.
(** one step, default_executor.hpp:182-441 *)
Definition step (m : nat) (s : st) (l : label) : option (st * list event) :=
  if bad s then None else
  match l with
  | Client => if called s then None else Some (set_cl (cl s ++ [User]) s, [])
  | Exec w =>
    match get w s with
    | Some User => if may w s then Some (let s' := put w (Try (next s) (idx s) 0) s in
        St (qs s') (thr s') (flag s') (don s') (jn s') (bad s') (cl s') (S (idx s)) (S (next s)) (fin s'), []) else None
    | _ => None
    end
  | Await w o =>
    match get w s with
    | Some User =>
      if may w s then
        if match o with Some y => bool_decide (y ∈ fin s) | None => false end then Some (s, [])
        else Some (put w (WakeQ 0 o) s, [Awaits (task w s) o])
      else None
    | _ => None
    end
  | Signal w => match get w s with Some (Blocked None) => Some (put w User s, []) | _ => None end
  | Step w fail => match get w s with None => None | Some a => call m w fail a s end
  | Poll k fail c => poll k fail c s
  | End k =>
    match thr s !! k with
    | Some (Run t User) => Some (let s' := set_pos k (Loop 0) s in
        St (qs s') (thr s') (flag s') (don s') (jn s') (bad s') (cl s') (idx s') (next s') (t :: fin s'), [Ended t])
    | _ => None
    end
  | Resume w =>
    match get w s with
    | Some (Blocked (Some y)) => if bool_decide (y ∈ fin s) then Some (put w User s, []) else None
    | _ => None
    end
  | Spurious k => match thr s !! k with Some (Wait _) => Some (set_pos k (Wait true) s, []) | _ => None end
  | Join => join m s
  end.
(** c pool threads, m in all; priority_task_system(), default_executor.hpp:370-375 *)
Definition init (c m : nat) : st := St (replicate c []) (replicate c (Loop 0)) (replicate c false) (replicate m false) JNo false [] 0 0 [].
(** executions: any sequence of steps (default_executor.hpp:182-441) *)
Fixpoint run (m : nat) (s : st) (ls : list label) : option (st * list event) :=
  match ls with
  | [] => Some (s, [])
  | l :: ls => match step m s l with
               | None => None
               | Some (s1, e1) => match run m s1 ls with None => None | Some (s2, e2) => Some (s2, e1 ++ e2) end
               end
  end.
