(** Model of a process with yield(): /repo/include/stlab/concurrency/channel.hpp, shared_process 584-1179, the steps for
    processes with yield and await (994-1074) and with yield only (910-991), with dequeue (876-903), broadcast,
    clear_to_send, task_done, the timeout and the delayed yield. One process with one upstream port, default buffer sizes
    here and downstream, a result type that is neither void nor move-only.

    A step is a critical section of a mutex, one atomic operation, or the beginning or the end of a call of one of the user's
    functions. The environment sends messages, drops senders, makes the receiver ready, attaches processes downstream, and
    calls clear_to_send once for every message it has been sent (that is what downstream processes with the default buffer
    size do, see Verif.Channel). execute_at's timer fires at any time; a try_lock fails when the mutex is held, or
    spuriously.

    The user's process is arbitrary: its state() changes at the end of every call, to whatever the label says.

    Not modelled: several ports, buffer sizes other than 1, destruction of the process while it is in use, copies of a
    receiver that is ready (see Verif.Channel). clear_to_send reads state() and then takes the mutex; that is one step. *)
From Coq Require Import List Bool.
From stdpp Require Import list.

(** a value or an exception_ptr in the queue, channel.hpp:402-405, 627-629 *)
Inductive msg := Val (v : nat) | Err (e : nat).
(** state(), 54-66: await or yield, with a duration: nanoseconds::min, something between, nanoseconds::max *)
Inductive dur := Now | Later | Forever.
(** process_state, channel.hpp:54-66 *)
Inductive mode := Await | Yield.
(** process_state_scheduled, channel.hpp:54-66 *)
Definition pstate : Type := mode * dur.

(** the user's functions; close is called because the queue is empty (last) or because of an error message, 895-900 *)
Inductive call := CAwait (v : nat) | CYield | CClose (last : bool) | CSetError (e : nat).
(** why a job broadcasts: as part of step, of the delayed yield (1031-1036), of the timeout (1052-1069) *)
Inductive why := Step | Delay | Timeout.
(** where a job is, channel.hpp:806-903, 910-1074, 1128-1164 *)
Inductive pc :=
  | JRun                              (** run has submitted step, 1123 *)
  | JTop                              (** 1009 *)
  | JCall (w : why) (c : call)        (** in a function of the user *)
  | JDecide                           (** 1014 *)
  | JBcast (w : why) (o : msg)        (** 1138 *)
  | JSusp (w : why) (o : msg) (n : nat)           (** 1144, n known *)
  | JSend (w : why) (o : msg) (i n : nat)         (** 1160: sent to the first i *)
  | JSelf (w : why)                   (** 1162: clear_to_send, 829 *)
  | JSelf2 (w : why)                  (** 836 *)
  | JEnd (w : why)                    (** 1066 and the end of the job: unlock *)
  | JDone                             (** task_done, 806 *)
  | JFinal                            (** 820 *)
  | JDelay                            (** given to execute_at, 1031 *)
  | JTimer                            (** given to execute_at, 1052 *)
  | JCts                              (** clear_to_send called from downstream, 829 *)
  | JCts2.                            (** 836 *)
(** the rest of remove_sender, 602-608, and remove_receiver, 793-802 *)
Inductive pend := PSend | PRecv.

(** the members of shared_process, channel.hpp:734-757 *)
Record st := St {
  queue : list msg;                   (** _queue *)
  running : bool;                     (** _process_running *)
  susp : nat;                         (** _process_suspend_count *)
  closeq : bool;                      (** _process_close_queue *)
  final : bool;                       (** _process_final *)
  tlock : bool;                       (** _timeout_function_control is held *)
  active : bool;                      (** _timeout_function_active *)
  scount : nat;                       (** _sender_count *)
  rcount : nat;                       (** _receiver_count *)
  ndown : nat;                        (** size of _downstream *)
  proc : bool;                        (** _process holds a process *)
  pst : pstate;                       (** its state() *)
  owed : nat;                         (** messages sent downstream and not yet answered by clear_to_send *)
  jobs : list pc;
  pends : list pend
}.
(** what is observable of the process, channel.hpp:584-1179 *)
Inductive event :=
  | Sent (m : msg)                    (** m is sent to the process *)
  | Took (m : msg)                    (** and taken from the queue *)
  | Begin (c : call)
  | End (p : pstate)                  (** the call has returned or thrown; state() is now p *)
  | Result (o : msg)                  (** what yield has returned, or a function has thrown *)
  | Out (i : nat) (o : msg)           (** o is sent to the i-th process downstream *)
  | Ack                               (** a process downstream calls clear_to_send *)
  | Attached                          (** one more process downstream *)
  | Up                                (** clear_to_send is called on the upstream process *)
  | Dropped                           (** the last sender is gone *)
  | Closed                            (** 822: the downstream processes are told *)
  | Ub.                               (** state() of a process that is gone *)
(** how a function of the user ends; channel.hpp:895-900, 1026-1081 *)
Inductive ret := Ret (v : nat) (p : pstate) | Throw (e : nat) (p : pstate).
(** atomic steps: channel.hpp:596-625, 778-850, 910-1176 *)
Inductive label :=
  | LSend (m : msg)                   (** sender::operator(), 611-623 *)
  | LCopyS | LDropS                   (** add_sender, remove_sender 596-600 *)
  | LReady                            (** remove_receiver, 783-792 *)
  | LCopyR                            (** add_receiver, 778 *)
  | LMap                              (** map, 1166 *)
  | LCts                              (** a process downstream has taken a message *)
  | LPend (k : nat)
  | LJob (k : nat) (ok : bool)        (** a job goes on; not ok: its try_lock, if any, fails *)
  | LRet (k : nat) (r : ret).

(** does the process have await(), close(), set_error()? Is its argument type void?; has_process_close_v, has_set_process_error_v: channel.hpp:327-380, 895-900 *)
Record conf := Conf { has_await : bool; has_close : bool; has_set_error : bool; void_arg : bool }.

(** update of the state (the assignments in channel.hpp:584-1179) *)
Definition set_jobs (js : list pc) (s : st) : st :=
  St (queue s) (running s) (susp s) (closeq s) (final s) (tlock s) (active s) (scount s) (rcount s) (ndown s) (proc s) (pst s) (owed s) js (pends s).
(** the job goes on at p, channel.hpp:910-1074 *)
Definition set_job (k : nat) (p : pc) (s : st) : st := set_jobs (<[k := p]> (jobs s)) s.
(** and ends, channel.hpp:910-1074 *)
Definition end_job (k : nat) (s : st) : st := set_jobs (delete k (jobs s)) s.
(** a function is submitted to the executor, channel.hpp:1031, 1052, 1123-1128 *)
Definition add_job (p : pc) (s : st) : st := set_jobs (jobs s ++ [p]) s.
(** update of the state (the assignments in channel.hpp:584-1179) *)
Definition set_queue (q : list msg) (s : st) : st :=
  St q (running s) (susp s) (closeq s) (final s) (tlock s) (active s) (scount s) (rcount s) (ndown s) (proc s) (pst s) (owed s) (jobs s) (pends s).
(** update of the state (the assignments in channel.hpp:584-1179) *)
Definition set_running (b : bool) (s : st) : st :=
  St (queue s) b (susp s) (closeq s) (final s) (tlock s) (active s) (scount s) (rcount s) (ndown s) (proc s) (pst s) (owed s) (jobs s) (pends s).
(** update of the state (the assignments in channel.hpp:584-1179) *)
Definition set_susp (n : nat) (s : st) : st :=
  St (queue s) (running s) n (closeq s) (final s) (tlock s) (active s) (scount s) (rcount s) (ndown s) (proc s) (pst s) (owed s) (jobs s) (pends s).
(** update of the state (the assignments in channel.hpp:584-1179) *)
Definition set_close (b f : bool) (s : st) : st :=
  St (queue s) (running s) (susp s) b f (tlock s) (active s) (scount s) (rcount s) (ndown s) (proc s) (pst s) (owed s) (jobs s) (pends s).
(** update of the state (the assignments in channel.hpp:584-1179) *)
Definition set_lock (l a : bool) (s : st) : st :=
  St (queue s) (running s) (susp s) (closeq s) (final s) l a (scount s) (rcount s) (ndown s) (proc s) (pst s) (owed s) (jobs s) (pends s).
(** update of the state (the assignments in channel.hpp:584-1179) *)
Definition set_counts (sc rc : nat) (s : st) : st :=
  St (queue s) (running s) (susp s) (closeq s) (final s) (tlock s) (active s) sc rc (ndown s) (proc s) (pst s) (owed s) (jobs s) (pends s).
(** update of the state (the assignments in channel.hpp:584-1179) *)
Definition set_down (n : nat) (b : bool) (s : st) : st :=
  St (queue s) (running s) (susp s) (closeq s) (final s) (tlock s) (active s) (scount s) (rcount s) n b (pst s) (owed s) (jobs s) (pends s).
(** update of the state (the assignments in channel.hpp:584-1179) *)
Definition set_pst (p : pstate) (s : st) : st :=
  St (queue s) (running s) (susp s) (closeq s) (final s) (tlock s) (active s) (scount s) (rcount s) (ndown s) (proc s) p (owed s) (jobs s) (pends s).
(** update of the state (the assignments in channel.hpp:584-1179) *)
Definition set_owed (n : nat) (s : st) : st :=
  St (queue s) (running s) (susp s) (closeq s) (final s) (tlock s) (active s) (scount s) (rcount s) (ndown s) (proc s) (pst s) n (jobs s) (pends s).
(** update of the state (the assignments in channel.hpp:584-1179) *)
Definition set_pends (ps : list pend) (s : st) : st :=
  St (queue s) (running s) (susp s) (closeq s) (final s) (tlock s) (active s) (scount s) (rcount s) (ndown s) (proc s) (pst s) (owed s) (jobs s) ps.

(** empty() of a container (channel.hpp:584-1179) *)
Definition is_nil {A} (l : list A) : bool := match l with [] => true | _ => false end.
(** run, channel.hpp:1123-1128, if b *)
Definition run_if (b : bool) (s : st) : st := if b then add_job JRun s else s.
(** state() is yield: channel.hpp:1009, 837 *)
Definition is_yield (p : pstate) : bool := match p.1 with Yield => true | Await => false end.

(** the second part of clear_to_send, 836-850; by job k, which goes on at p or (None) ends *)
Definition clear2 (k : nat) (next : option pc) (s : st) : st * list event :=
  let fin s := match next with Some p => set_job k p s | None => end_job k s end in
  if proc s then
    let n := pred (susp s) in
    let s := set_susp n s in
    match n with
    | 0 => if is_yield (pst s) || negb (is_nil (queue s)) || closeq s then (add_job JRun (fin s), []) else (fin (set_running false s), [])
    | _ => (fin s, [])
    end
  else (fin s, [Ub]).                                                          (* 837: *_process *)

(** dequeue, 876-903, up to the call of a user's function *)
Definition dequeue (c : conf) (k : nat) (s : st) : st * list event :=
  match queue s with
  | [] => let s := set_close false (closeq s) s in                             (* 861-862; message is empty: 897, 900 *)
          if has_close c then (set_job k (JCall Step (CClose true)) s, [Begin (CClose true)]) else (set_job k JDecide s, [])
  | Val v :: q => (set_job k (JCall Step (CAwait v)) (set_queue q s), [Took (Val v); Up; Begin (CAwait v)])
  | Err e :: q =>
    if has_set_error c then (set_job k (JCall Step (CSetError e)) (set_queue q s), [Took (Err e); Up; Begin (CSetError e)])
    else if has_close c then (set_job k (JCall Step (CClose false)) (set_queue q s), [Took (Err e); Up; Begin (CClose false)])
    else (set_job k JTop (set_queue q s), [Took (Err e); Up])
  end.

(** channel.hpp:806-903, 910-1074, 1128-1164; one step of job k, at p *)
Definition job_step (c : conf) (k : nat) (ok : bool) (p : pc) (s : st) : option (st * list event) :=
  match p with
  | JRun =>                                                                    (* 999-1003 *)
    if ok && negb (tlock s) then Some (set_job k JTop (set_lock true false s), []) else Some (s, [])
  | JTop =>                                                                    (* 1009-1011; 925 *)
    if proc s then
      if is_yield (pst s) then Some (set_job k JDecide s, [])
      else if has_await c then Some (dequeue c k s) else Some (set_job k (JEnd Step) s, [])
    else Some (s, [Ub])
  | JDecide =>                                                                 (* 1014-1070 *)
    match pst s with
    | (Yield, Now) | (Await, Now) => Some (set_job k (JCall Step CYield) s, [Begin CYield])
    | (Yield, _) => Some (add_job JDelay (set_job k (JEnd Step) s), [])
    | (Await, Forever) => Some (set_job k JDone s, [])
    | (Await, Later) => Some (add_job JTimer (set_job k (JEnd Step) (set_lock (tlock s) true s)), [])
    end
  | JBcast w o => Some (set_job k (JSusp w o (ndown s)) s, [])                  (* 1136-1140 *)
  | JSusp w o n => Some (set_job k (JSend w o 0 n) (set_susp (S n) s), [])      (* 1143-1152 *)
  | JSend w o i n =>                                                           (* 1160, 671-673 *)
    if i <? n then
      if i <? ndown s then Some (set_job k (JSend w o (S i) n) (set_owed (S (owed s)) s), [Out i o]) else Some (s, [Ub])
    else Some (set_job k (JSelf w) s, [])
  | JSelf w => Some (set_job k (if final s then JEnd w else JSelf2 w) s, [])    (* 829-833 *)
  | JSelf2 w => Some (clear2 k (Some (JEnd w)) s)
  | JEnd w =>
    Some (end_job k (match w with
                     | Step => set_lock false (active s) s
                     | Delay => s
                     | Timeout => set_lock false false s                        (* 1065 *)
                     end), [])
  | JDone =>                                                                   (* 806-813, 819 *)
    let do_run := negb (is_nil (queue s)) || closeq s in
    Some (run_if do_run (set_job k (if final s then JFinal else JEnd Step) (set_running do_run s)), [])
  | JFinal => Some (set_job k (JEnd Step) (set_down 0 false s), [Closed])        (* 820-824 *)
  | JDelay =>                                                                  (* 1031-1036, 1078 *)
    if proc s then Some (set_job k (JCall Delay CYield) s, [Begin CYield]) else Some (end_job k s, [])
  | JTimer =>                                                                  (* 1058-1067 *)
    if ok && negb (tlock s) then
      if proc s then
        if is_yield (pst s) then Some (end_job k s, [])
        else Some (set_job k (JCall Timeout CYield) (set_lock true (active s) s), [Begin CYield])
      else Some (end_job k s, [Ub])
    else Some (s, [])
  | JCts => Some (if final s then end_job k s else set_job k JCts2 s, [])
  | JCts2 => Some (clear2 k None s)
  | JCall _ _ => None
  end.

(** a user's function ends: await 895, set_error 891, close 900, yield 1026 1046 1080; 1072 and 1081 if it throws *)
Definition returns (k : nat) (w : why) (c : call) (r : ret) (s : st) : st * list event :=
  match r with
  | Throw e p => (set_job k (JBcast w (Err e)) (set_pst p s), [End p; Result (Err e)])
  | Ret v p =>
    let s := set_pst p s in
    match c with
    | CYield => (set_job k (JBcast w (Val v)) s, [End p; Result (Val v)])
    | CAwait _ | CSetError _ | CClose false => (set_job k JTop s, [End p])      (* 1010: goes on *)
    | CClose true => (set_job k JDecide s, [End p])
    end
  end.

(** one step, channel.hpp:584-1179 *)
Definition step (c : conf) (s : st) (l : label) : option (st * list event) :=
  match l with
  | LSend m =>
    if scount s =? 0 then None else
    let do_run := (rcount s =? 0) && (negb (running s) || active s) in
    Some (run_if do_run (set_running (running s || do_run) (set_queue (queue s ++ [m]) s)), [Sent m])
  | LCopyS => if scount s =? 0 then None else Some (set_counts (S (scount s)) (rcount s) s, [])
  | LDropS =>
    match scount s with
    | 0 => None
    | 1 => Some (set_pends (pends s ++ [PSend]) (set_counts 0 (rcount s) s), [Dropped])
    | S n => Some (set_counts n (rcount s) s, [])
    end
  | LReady =>
    match rcount s with
    | 0 => None
    | 1 => Some (set_pends (pends s ++ [PRecv]) (set_counts (scount s) 0 s), [])
    | S n => Some (set_counts (scount s) n s, [])
    end
  | LCopyR => if rcount s =? 0 then None else Some (set_counts (scount s) (S (rcount s)) s, [])
  | LMap => if rcount s =? 0 then None else Some (set_down (S (ndown s)) (proc s) s, [Attached])
  | LCts =>
    match owed s with
    | 0 => None
    | S n => Some (add_job JCts (set_owed n s), [Ack])
    end
  | LPend k =>
    match pends s !! k with
    | None => None
    | Some p =>
      let s := set_pends (delete k (pends s)) s in
      let s := match p with PSend => set_close true (final s) s | PRecv => s end in
      let do_run := match p with
                    | PSend => (rcount s =? 0) && negb (running s)
                    | PRecv => (negb (is_nil (queue s)) || void_arg c || closeq s) && negb (running s)
                    end in
      Some (run_if do_run (set_running (running s || do_run) s), [])
    end
  | LJob k ok => match jobs s !! k with None => None | Some p => job_step c k ok p s end
  | LRet k r => match jobs s !! k with Some (JCall w c) => Some (returns k w c r s) | _ => None end
  end.
(** executions: any sequence of steps (channel.hpp:584-1179) *)
Fixpoint run (c : conf) (s : st) (ls : list label) : option (st * list event) :=
  match ls with
  | [] => Some (s, [])
  | l :: ls => match step c s l with
               | None => None
               | Some (s1, e1) => match run c s1 ls with None => None | Some (s2, e2) => Some (s2, e1 ++ e2) end
               end
  end.
(** 760-767: one sender, one receiver; p is the process's state() to begin with *)
Definition init (p : pstate) : st := St [] false 0 false false false false 1 1 0 true p 0 [] [].
