(** Model of a process whose results cannot be copied: /repo/include/stlab/concurrency/channel.hpp, downstream<R> for such R
    (686-709), with the function process that uses it: step 1085-1117, pop_from_queue 852-869, broadcast 1128-1164, task_done
    804-826, clear_to_send 828-850, senders and receivers 596-623 and 777-802, map 1166-1176.

    One process with one port and the default buffer sizes. A step is a critical section of a mutex, one atomic operation, or
    the beginning or the end of a call of the user's function. The environment sends messages, drops senders, attaches
    processes, makes the receiver ready, and calls clear_to_send once for every message it has been sent (that is what
    processes with the default buffer size do, see Verif.Channel).

    Not modelled: exceptions that arrive as messages (C50), several ports, destruction of the process while it is in use,
    copies of a receiver that is ready (C45). *)
From Coq Require Import List Bool Arith.
From stdpp Require Import list.

(** what the user's function returns or throws; channel.hpp:1112-1117 *)
Inductive outcome := Value (v : nat) | Error (e : nat).
(** where a job is, channel.hpp:804-869, 1092-1164 *)
Inductive pc :=
  | JRun                        (** run has submitted step, 1121 *)
  | JCall (v : nat)             (** in the user's function, 1107 *)
  | JBcast (o : outcome)        (** 1136-1140 *)
  | JSusp (o : outcome)         (** 1143-1152 *)
  | JSend (o : outcome)         (** 1158 *)
  | JSelf | JSelf2              (** 1160: clear_to_send, 829; 838 *)
  | JDone                       (** task_done, 806 *)
  | JFinal                      (** 820 *)
  | JCts | JCts2.               (** clear_to_send called from downstream, 829; 838 *)
(** the rest of remove_sender, 602-608, and remove_receiver, 793-802 *)
Inductive pend := PSend | PRecv.
(** the members of shared_process, channel.hpp:734-757, with downstream<R> 686-709 *)
Record st := St {
  queue : list nat;             (** _queue *)
  running : bool;               (** _process_running *)
  susp : nat;                   (** _process_suspend_count *)
  closeq : bool;                (** _process_close_queue *)
  final : bool;                 (** _process_final *)
  scount : nat;                 (** _sender_count *)
  rcount : nat;                 (** _receiver_count *)
  down : option nat;            (** _downstream._data: the process whose sender it holds *)
  next : nat;                   (** how many have been attached *)
  owed : list nat;              (** who has been sent a message and not yet called clear_to_send *)
  jobs : list pc;
  pends : list pend
}.
(** what is observable of the process, channel.hpp:596-1164 *)
Inductive event :=
  | Sent (v : nat)
  | Began (v : nat)             (** the function is called with v *)
  | Result (o : outcome)        (** and returns or throws *)
  | Out (d : nat) (o : outcome) (** o is sent to d *)
  | Attached (d : nat)
  | Dropped                     (** the last sender of the process is gone *)
  | Closed (d : nat).           (** the sender that was attached for d is destroyed: d learns that no more will come *)
(** atomic steps: channel.hpp:596-623, 777-802, 828-850, 1092-1176 *)
Inductive label :=
  | LSend (v : nat)             (** sender::operator(), 611-623 *)
  | LCopyS | LDropS             (** add_sender, remove_sender 596-600 *)
  | LReady | LCopyR             (** remove_receiver 783-792, add_receiver 778 *)
  | LMap                        (** map, 1166 *)
  | LCts (k : nat)              (** the k-th of those who owe it calls clear_to_send *)
  | LPend (k : nat)
  | LJob (k : nat)
  | LRet (k : nat) (o : outcome).

(** update of the state (the assignments in channel.hpp:596-1164) *)
Definition set_queue (q : list nat) (s : st) : st :=
  St q (running s) (susp s) (closeq s) (final s) (scount s) (rcount s) (down s) (next s) (owed s) (jobs s) (pends s).
(** update of the state (the assignments in channel.hpp:596-1164) *)
Definition set_running (b : bool) (s : st) : st :=
  St (queue s) b (susp s) (closeq s) (final s) (scount s) (rcount s) (down s) (next s) (owed s) (jobs s) (pends s).
(** update of the state (the assignments in channel.hpp:596-1164) *)
Definition set_susp (n : nat) (s : st) : st :=
  St (queue s) (running s) n (closeq s) (final s) (scount s) (rcount s) (down s) (next s) (owed s) (jobs s) (pends s).
(** update of the state (the assignments in channel.hpp:596-1164) *)
Definition set_close (c f : bool) (s : st) : st :=
  St (queue s) (running s) (susp s) c f (scount s) (rcount s) (down s) (next s) (owed s) (jobs s) (pends s).
(** update of the state (the assignments in channel.hpp:596-1164) *)
Definition set_counts (a b : nat) (s : st) : st :=
  St (queue s) (running s) (susp s) (closeq s) (final s) a b (down s) (next s) (owed s) (jobs s) (pends s).
(** update of the state (the assignments in channel.hpp:596-1164) *)
Definition set_down (d : option nat) (n : nat) (s : st) : st :=
  St (queue s) (running s) (susp s) (closeq s) (final s) (scount s) (rcount s) d n (owed s) (jobs s) (pends s).
(** update of the state (the assignments in channel.hpp:596-1164) *)
Definition set_owed (l : list nat) (s : st) : st :=
  St (queue s) (running s) (susp s) (closeq s) (final s) (scount s) (rcount s) (down s) (next s) l (jobs s) (pends s).
(** update of the state (the assignments in channel.hpp:596-1164) *)
Definition set_jobs (js : list pc) (s : st) : st :=
  St (queue s) (running s) (susp s) (closeq s) (final s) (scount s) (rcount s) (down s) (next s) (owed s) js (pends s).
(** update of the state (the assignments in channel.hpp:596-1164) *)
Definition set_pends (l : list pend) (s : st) : st :=
  St (queue s) (running s) (susp s) (closeq s) (final s) (scount s) (rcount s) (down s) (next s) (owed s) (jobs s) l.

(** update of the state (the assignments in channel.hpp:596-1164) *)
Definition add_job (p : pc) (s : st) : st := set_jobs (jobs s ++ [p]) s.
(** run, 1119-1124, if do_run; and _process_running 607, 619, 800 *)
Definition run_if (b : bool) (s : st) : st := if b then add_job JRun s else s.
(** empty() of a container (channel.hpp:596-1164) *)
Definition is_nil {A} (l : list A) : bool := match l with [] => true | _ => false end.
(** downstream<R>::size(), 697: not the number of processes attached *)
Definition size_of (d : option nat) : nat := 1.

(** the second part of clear_to_send, 836-850 *)
Definition clear2 (s : st) : st :=
  let n := pred (susp s) in
  let s := set_susp n s in
  match n with
  | 0 => if negb (is_nil (queue s)) || closeq s then add_job JRun s else set_running false s
  | _ => s
  end.
(** the job p, which is no longer in the list, goes on; channel.hpp:804-869, 1092-1164 *)
Definition job_step (p : pc) (s : st) : option (st * list event) :=
  match p with
  | JRun =>                                                             (* 852-869; 1111 *)
    match queue s with
    | [] => Some (add_job JDone (set_close false (closeq s) s), [])
    | v :: q => Some (add_job (JCall v) (set_queue q s), [Began v])
    end
  | JCall _ => None
  | JBcast o => Some (add_job (JSusp o) s, [])
  | JSusp o => Some (add_job (JSend o) (set_susp (S (size_of (down s))) s), [])   (* free buffer 0 or 1, 703-706: suspend *)
  | JSend o =>                                                          (* 700 *)
    match down s with
    | Some d => Some (add_job JSelf (set_owed (owed s ++ [d]) s), [Out d o])
    | None => Some (add_job JSelf s, [])
    end
  | JSelf => Some (if final s then s else add_job JSelf2 s, [])
  | JSelf2 | JCts2 => Some (clear2 s, [])
  | JCts => Some (if final s then s else add_job JCts2 s, [])
  | JDone =>
    let do_run := negb (is_nil (queue s)) || closeq s in
    let s := run_if do_run (set_running do_run s) in
    Some (if final s then add_job JFinal s else s, [])
  | JFinal => Some (set_down None (next s) s, match down s with Some d => [Closed d] | None => [] end)
  end.
(** one step, channel.hpp:596-1176 *)
Definition step (s : st) (l : label) : option (st * list event) :=
  match l with
  | LSend v =>
    if scount s =? 0 then None else
    let do_run := (rcount s =? 0) && negb (running s) in
    Some (run_if do_run (set_running (running s || do_run) (set_queue (queue s ++ [v]) s)), [Sent v])
  | LCopyS => if scount s =? 0 then None else Some (set_counts (S (scount s)) (rcount s) s, [])
  | LDropS =>
    match scount s with
    | 0 => None
    | 1 => Some (set_pends (pends s ++ [PSend]) (set_counts 0 (rcount s) s), [Dropped])
    | S n => Some (set_counts n (rcount s) s, [])
    end
  | LReady =>
    match rcount s with
    | 0 => None
    | 1 => Some (set_pends (pends s ++ [PRecv]) (set_counts (scount s) 0 s), [])
    | S n => Some (set_counts (scount s) n s, [])
    end
  | LCopyR => if rcount s =? 0 then None else Some (set_counts (scount s) (S (rcount s)) s, [])
  | LMap =>                                                             (* 692: the sender that was there is overwritten *)
    if rcount s =? 0 then None else
    Some (set_down (Some (next s)) (S (next s)) s, match down s with Some d => [Closed d; Attached (next s)] | None => [Attached (next s)] end)
  | LCts k =>
    match owed s !! k with None => None | Some _ => Some (add_job JCts (set_owed (delete k (owed s)) s), []) end
  | LPend k =>
    match pends s !! k with
    | None => None
    | Some p =>
      let s := set_pends (delete k (pends s)) s in
      let s := match p with PSend => set_close true (final s) s | PRecv => s end in
      let do_run := match p with
                    | PSend => (rcount s =? 0) && negb (running s)
                    | PRecv => (negb (is_nil (queue s)) || closeq s) && negb (running s)
                    end in
      Some (run_if do_run (set_running (running s || do_run) s), [])
    end
  | LJob k => match jobs s !! k with None => None | Some p => job_step p (set_jobs (delete k (jobs s)) s) end
  | LRet k o =>
    match jobs s !! k with
    | Some (JCall _) => Some (add_job (JBcast o) (set_jobs (delete k (jobs s)) s), [Result o])
    | _ => None
    end
  end.
(** 760-767: one sender, one receiver *)
Definition init : st := St [] false 0 false false 1 1 None 0 [] [] [].
(** executions: any sequence of steps (channel.hpp:596-1164) *)
Fixpoint run (s : st) (ls : list label) : option (st * list event) :=
  match ls with
  | [] => Some (s, [])
  | l :: ls => match step s l with
    | None => None
    | Some (s', ev) => match run s' ls with None => None | Some (s'', tr) => Some (s'', ev ++ tr) end
    end
  end.
