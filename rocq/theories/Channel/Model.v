(** Model of channels: /repo/include/stlab/concurrency/channel.hpp, 584-1179 (shared_process and its parts), 1207-1290
    (merge_helper, channel) and 1450-1620 (receiver, sender), for processes without yield: functions. A network of any shape
    is built, used and taken apart by any number of client threads while executor threads run its processes.

    A step is one critical section of a process's _process_mutex, one of its _downstream_mutex, one atomic operation on a
    counter, or one operation of a client. Submitting a job to the executor (run, 1123-1128) is part of the critical section
    before it: the job may start at any time afterwards, in any thread; an immediate executor is the case where it starts at
    once. minimum_free_buffer (675-683) reads the buffer of every downstream process in one step.

    Not modelled: processes with yield (await/yield/state/close and timeouts, 910-1083), results that cannot be copied
    (686-709), void arguments, swap and comparison of senders and receivers. *)
From Coq Require Import List Bool ZArith.
From stdpp Require Import list.
From Verif.Channel Require Import Queue.

(** a shared_process; channel.hpp:714-776 *)
Record node := Node {
  strat : strategy;             (** Q *)
  ups : list (option nat);      (** 757: _upstream; None: no upstream, the port belongs to the client's senders *)
  rvoid : bool;                 (** the result type is void *)
  bsize : nat;                  (** 755 *)
  que : qst;                    (** 735 *)
  down : list (nat * nat);      (** 734: _downstream: senders, to a port of a process *)
  running : bool;               (** 742 *)
  susp : nat;                   (** 743 *)
  closeq : bool;                (** 744 *)
  final : bool;                 (** 746 *)
  scount : nat;                 (** 751 *)
  rcount : nat;                 (** 752 *)
  proc : bool                   (** 738: _process holds a process *)
}.
(** where a job is; channel.hpp:806-850, 1092-1164 *)
Inductive pc :=
  | JPend                                               (** submitted, 1124 *)
  | JCts (todo : list nat) (ok1 : bool) (m : option (list msg))
      (** 1100-1104, 827-851: clear_to_send is to be called for todo; ok1: for the first of them 829-833 is done *)
  | JInvoke (ms : list msg)                             (** 1112-1114: the process is being executed *)
  | JSusp (o : msg) (rest : list (nat * nat)) (b : bool) (** 1144: n senders counted, suspend_process known *)
  | JSend (o : msg) (rest : list (nat * nat))           (** 1160: to be sent to rest *)
  | JSelf (ok1 : bool)                                  (** 1162 *)
  | JDone                                               (** 806 *)
  | JFinal                                              (** 820 *)
  | JClear (rest : list (nat * nat)).                   (** 822: senders to be destroyed *)
(** critical sections entered by a thread other than a job: remove_receiver, 797-803, remove_sender, 602-608; the counter has
    just become zero *)
Inductive pend := PRecv (i : nat) | PSend (i : nat).
(** all the processes, and what holds or uses them: channel.hpp:714-776, 1450-1620 *)
Record st := St {
  nodes : list node;
  dead : list nat;              (** processes destroyed *)
  jobs : list (nat * pc);
  pends : list pend;
  snd_h : list nat;             (** the clients' senders: the process they send to *)
  rcv_h : list (nat * bool)     (** the clients' receivers: process, _ready *)
}.
(** what is observable of a network, channel.hpp:598-1175; Ub: undefined behaviour *)
Inductive event :=
  | Attached (i d p : nat)      (** port p of process d receives the results of i from now on *)
  | Appended (i p : nat) (m : msg)   (** m is sent to port p of process i *)
  | Popped (i : nat) (ms : list msg)
  | Invoke (i : nat) (ms : list msg) (** the function of i is called with ms *)
  | Refused (i : nat) (ms : list msg) (** i has taken ms, one of them an error, and does nothing *)
  | Result (i : nat) (o : msg)  (** the function of i has returned or thrown o *)
  | Closed (i : nat)            (** i closes: its senders are destroyed *)
  | Threw                       (** channel_error *)
  | Ub.

(** ** updates; update of the state (the assignments in channel.hpp:598-1175) *)
Definition with_que (q : qst) (n : node) : node :=
  Node (strat n) (ups n) (rvoid n) (bsize n) q (down n) (running n) (susp n) (closeq n) (final n) (scount n) (rcount n) (proc n).
(** update of the state (the assignments in channel.hpp:598-1175) *)
Definition with_down (d : list (nat * nat)) (n : node) : node :=
  Node (strat n) (ups n) (rvoid n) (bsize n) (que n) d (running n) (susp n) (closeq n) (final n) (scount n) (rcount n) (proc n).
(** update of the state (the assignments in channel.hpp:598-1175) *)
Definition with_running (b : bool) (n : node) : node :=
  Node (strat n) (ups n) (rvoid n) (bsize n) (que n) (down n) b (susp n) (closeq n) (final n) (scount n) (rcount n) (proc n).
(** update of the state (the assignments in channel.hpp:598-1175) *)
Definition with_susp (k : nat) (n : node) : node :=
  Node (strat n) (ups n) (rvoid n) (bsize n) (que n) (down n) (running n) k (closeq n) (final n) (scount n) (rcount n) (proc n).
(** update of the state (the assignments in channel.hpp:598-1175) *)
Definition with_close (c f : bool) (n : node) : node :=
  Node (strat n) (ups n) (rvoid n) (bsize n) (que n) (down n) (running n) (susp n) c f (scount n) (rcount n) (proc n).
(** update of the state (the assignments in channel.hpp:598-1175) *)
Definition with_scount (k : nat) (n : node) : node :=
  Node (strat n) (ups n) (rvoid n) (bsize n) (que n) (down n) (running n) (susp n) (closeq n) (final n) k (rcount n) (proc n).
(** update of the state (the assignments in channel.hpp:598-1175) *)
Definition with_rcount (k : nat) (n : node) : node :=
  Node (strat n) (ups n) (rvoid n) (bsize n) (que n) (down n) (running n) (susp n) (closeq n) (final n) (scount n) k (proc n).
(** update of the state (the assignments in channel.hpp:598-1175) *)
Definition with_proc (b : bool) (n : node) : node :=
  Node (strat n) (ups n) (rvoid n) (bsize n) (que n) (down n) (running n) (susp n) (closeq n) (final n) (scount n) (rcount n) b.
(** _queue.empty(), channel.hpp:408, 439, 489, 543 *)
Definition empty_q (n : node) : bool := q_empty (strat n) (que n).

(** update of the state (the assignments in channel.hpp:598-1175) *)
Definition set_node (i : nat) (n : node) (s : st) : st := St (<[i := n]> (nodes s)) (dead s) (jobs s) (pends s) (snd_h s) (rcv_h s).
(** update of the state (the assignments in channel.hpp:598-1175) *)
Definition set_jobs (js : list (nat * pc)) (s : st) : st := St (nodes s) (dead s) js (pends s) (snd_h s) (rcv_h s).
(** update of the state (the assignments in channel.hpp:598-1175) *)
Definition add_pend (p : pend) (s : st) : st := St (nodes s) (dead s) (jobs s) (pends s ++ [p]) (snd_h s) (rcv_h s).
(** update of the state (the assignments in channel.hpp:598-1175) *)
Definition set_pends (p : list pend) (s : st) : st := St (nodes s) (dead s) (jobs s) p (snd_h s) (rcv_h s).
(** update of the state (the assignments in channel.hpp:598-1175) *)
Definition set_snd (h : list nat) (s : st) : st := St (nodes s) (dead s) (jobs s) (pends s) h (rcv_h s).
(** update of the state (the assignments in channel.hpp:598-1175) *)
Definition set_rcv (h : list (nat * bool)) (s : st) : st := St (nodes s) (dead s) (jobs s) (pends s) (snd_h s) h.
(** run, 1123-1128, if b *)
Definition run_if (b : bool) (i : nat) (s : st) : st := if b then set_jobs (jobs s ++ [(i, JPend)]) s else s.
(** the weak pointer of a sender or job has expired, channel.hpp:1125, 1607 *)
Definition deadb (i : nat) (s : st) : bool := existsb (Nat.eqb i) (dead s).

(** ** operations on a process *)
(** enqueue, 612-625, through a sender (1606-1610): nothing if the process has been destroyed *)
Definition enqueue (i p : nat) (m : msg) (s : st) : option (st * list event) :=
  if deadb i s then Some (s, []) else
  match nodes s !! i with
  | None => None
  | Some n =>
    let do_run := (rcount n =? 0) && negb (running n) in
    Some (run_if do_run i (set_node i (with_running (running n || do_run) (with_que (q_append p m (que n)) n)) s), [Appended i p m])
  end.
(** remove_sender, 598-600, through a sender: the rest is done as PSend *)
Definition remove_sender (i : nat) (s : st) : option (st * list event) :=
  if deadb i s then Some (s, []) else
  match nodes s !! i with
  | None => None
  | Some n =>
    match scount n with
    | 0 => Some (s, [Ub])
    | 1 => Some (add_pend (PSend i) (set_node i (with_scount 0 n) s), [])
    | S k => Some (set_node i (with_scount k n) s, [])
    end
  end.
(** add_sender, 596 *)
Definition add_sender (i : nat) (s : st) : option (st * list event) :=
  if deadb i s then Some (s, []) else
  match nodes s !! i with None => None | Some n => Some (set_node i (with_scount (S (scount n)) n) s, []) end.
(** remove_receiver, 783-792 *)
Definition remove_receiver (i : nat) (s : st) : option (st * list event) :=
  match nodes s !! i with
  | None => None
  | Some n =>
    if rvoid n then Some (s, []) else
    match rcount n with
    | 0 => Some (s, [Ub])
    | 1 => Some (add_pend (PRecv i) (set_node i (with_rcount 0 n) s), [])
    | S k => Some (set_node i (with_rcount k n) s, [])
    end
  end.
(** add_receiver, 778-781 *)
Definition add_receiver (i : nat) (s : st) : option (st * list event) :=
  match nodes s !! i with
  | None => None
  | Some n => if rvoid n then Some (s, []) else Some (set_node i (with_rcount (S (rcount n)) n) s, [])
  end.
(** the second half of clear_to_send, 836-850; a function is never in state yield (327-331) *)
Definition clear2 (i : nat) (s : st) : option st :=
  match nodes s !! i with
  | None => None
  | Some n =>
    let k := pred (susp n) in
    let do_run := (k =? 0) && (negb (empty_q n) || closeq n) in
    Some (run_if do_run i (set_node i (with_running (if k =? 0 then (do_run && running n) else running n) (with_susp k n)) s))
  end.
(** free_buffer, 631-637, through a sender (1612-1617) *)
Definition free_of (n : node) (p : nat) : Z :=
  if bsize n =? 0 then size_max
  else (Z.of_nat (bsize n) - Z.of_nat (match qs (que n) !! p with Some c => length c | None => 0 end)) mod 2 ^ 64.
(** the same through a sender: lock() fails when the process is gone, channel.hpp:1612-1617 *)
Definition free_buffer (e : nat * nat) (s : st) : option Z :=
  if deadb (fst e) s then None else match nodes s !! fst e with None => None | Some n => Some (free_of n (snd e)) end.
(** minimum_free_buffer, 675-683 *)
Definition min_free (l : list (nat * nat)) (s : st) : Z :=
  match l with
  | [] => 0
  | _ => fold_left (fun v e => match free_buffer e s with Some f => Z.min v f | None => v end) l size_max
  end%Z.
(** map, 1166-1175 *)
Definition map_sender (i : nat) (e : nat * nat) (s : st) : option (st * list event) :=
  match nodes s !! i with
  | None => None
  | Some n => Some (set_node i (with_down (down n ++ [e]) n) s, [Attached i (fst e) (snd e)])
  end.
(** map_as_sender, channel.hpp:1209-1228 *)
Fixpoint map_senders (d p : nat) (us : list nat) (s : st) : option (st * list event) :=
  match us with
  | [] => Some (s, [])
  | u :: us => match map_sender u (d, p) s with
               | None => None
               | Some (s1, e1) => match map_senders d (S p) us s1 with None => None | Some (s2, e2) => Some (s2, e1 ++ e2) end
               end
  end.
(** constructors, 759-776 *)
Definition new_node (k : strategy) (us : list (option nat)) (v : bool) (b : nat) : node :=
  Node k us v b (q_new (length us)) [] false 0 false false (length us) (if v then 0 else 1) true.
(** pop_from_queue, 854-871: the message if any, which upstream processes are told, what is left. None: undefined behaviour. *)
Definition do_cts (n : node) (q : qst) : list nat :=
  omap (fun '(u, z) => if (z <=? (Z.of_nat (bsize n) - 1) mod 2 ^ 64)%Z then u else None) (zip (ups n) (q_sizes (strat n) q)).
(** channel.hpp:854-871 *)
Definition pop_from_queue (n : node) : option (node * list nat * option (list msg)) :=
  if empty_q n then Some (with_close false (closeq n) n, [], None)
  else match q_front (strat n) (que n) with
       | None => None
       | Some (ms, q) => let q := q_pop (strat n) q in Some (with_que q n, do_cts n q, Some ms)
       end.
(** find_argument_error, 383-397 *)
Definition has_error (ms : list msg) : bool := existsb (fun m => match m with Err _ => true | _ => false end) ms.

(** ** jobs; channel.hpp:1123-1128, the job goes on *)
Definition set_job (t i : nat) (p : pc) (s : st) : st := set_jobs (<[t := (i, p)]> (jobs s)) s.
(** and ends, channel.hpp:1123-1128 *)
Definition end_job (t : nat) (s : st) : st := set_jobs (delete t (jobs s)) s.
(** a step of job t of process i, at p; channel.hpp:806-850, 1092-1164 *)
Definition job_step (t i : nat) (p : pc) (s : st) : option (st * list event) :=
  match nodes s !! i with
  | None => None
  | Some n =>
    match p with
    | JPend =>                                                                          (* 1124-1126, 1098 *)
      if deadb i s then Some (end_job t s, []) else
      match pop_from_queue n with
      | None => Some (s, [Ub])
      | Some (n', cts, m) =>
        Some (set_job t i (JCts cts false m) (set_node i n' s), match m with Some ms => [Popped i ms] | None => [] end)
      end
    | JCts (u :: todo) false m =>                                                       (* 828-833 *)
      match nodes s !! u with
      | None => None
      | Some nu => Some (set_job t i (if final nu then JCts todo false m else JCts (u :: todo) true m) s, [])
      end
    | JCts (u :: todo) true m =>
      match clear2 u s with None => None | Some s' => Some (set_job t i (JCts todo false m) s', []) end
    | JCts [] _ (Some ms) =>
      if has_error ms then Some (end_job t s, [Refused i ms])                           (* 1107-1109 *)
      else if proc n then Some (set_job t i (JInvoke ms) s, [Invoke i ms]) else Some (s, [Ub])
    | JCts [] _ None => Some (set_job t i JDone s, [])                                  (* 1119 *)
    | JInvoke _ => None                                                                 (* LRet *)
    | JSusp o rest b => Some (set_job t i (JSend o rest) (set_node i (with_susp (if b then S (length rest) else 1) n) s), [])  (* 1144-1154 *)
    | JSend o (e :: rest) =>                                                            (* 671-673 *)
      match enqueue (fst e) (snd e) o s with
      | None => None
      | Some (s', ev) => Some (set_job t i (JSend o rest) s', ev)
      end
    | JSend o [] => Some (set_job t i (JSelf false) s, [])
    | JSelf false => Some (if final n then end_job t s else set_job t i (JSelf true) s, [])
    | JSelf true => match clear2 i s with None => None | Some s' => Some (end_job t s', []) end
    | JDone =>                                                                          (* 807-819 *)
      let do_run := negb (empty_q n) || closeq n in
      let s' := set_node i (with_running do_run n) s in
      Some (run_if do_run i (if final n then set_job t i JFinal s' else end_job t s'), [])
    | JFinal => Some (set_job t i (JClear (down n)) (set_node i (with_down [] n) s), [Closed i])    (* 821-822 *)
    | JClear (e :: rest) =>
      match remove_sender (fst e) s with
      | None => None
      | Some (s', ev) => Some (set_job t i (JClear rest) s', ev)
      end
    | JClear [] => Some (end_job t (set_node i (with_proc false n) s), [])              (* 823 *)
    end
  end.

(** atomic steps of clients and jobs: channel.hpp:598-1175, 1265-1291, 1450-1620 *)
Inductive label :=
  | LNew                                (** channel, 1289-1291, 1265-1272 *)
  | LPipe (h : nat) (v : bool) (b : nat) (** operator| on a receiver, 1510-1539: void or not, buffer size *)
  | LMerge (k : strategy) (hs : list nat) (v : bool)  (** merge_helper, 1241-1254 *)
  | LSend (h : nat) (m : msg)           (** operator() on a sender, 1606-1610 *)
  | LCopyS (h : nat) | LDropS (h : nat) (** copy, 1575-1577; destruction, 1571-1573, or close, 1600-1604 *)
  | LOverS (h : nat)                    (** move-assigned to, 1588: the weak pointer is overwritten *)
  | LCopyR (h : nat) | LDropR (h : nat) (** 1478-1480, 1474-1476 *)
  | LReady (h : nat)                    (** set_ready, 1492-1495 *)
  | LOverR (h : nat)                    (** move-assigned to, 1490 *)
  | LPend (k : nat)                     (** a critical section of pends *)
  | LJob (t : nat)
  | LRet (t : nat) (o : msg)            (** the function called by job t returns or throws *)
  | LDestroy (i : nat).                 (** process i is destroyed: nobody owns it *)

(** the processes that receivers stand for; the _p of receivers, channel.hpp:1450-1470 *)
Definition handles (hs : list nat) (s : st) : option (list nat) := mapM (fun h => fst <$> rcv_h s !! h) hs.
(** a shared_ptr to process i exists: in a receiver, in _upstream (channel.hpp:757), in a job that has locked it (1125) or a call through a sender (1607) *)
Definition ownedb (i : nat) (s : st) : bool :=
  existsb (fun r => Nat.eqb i (fst r)) (rcv_h s) ||
  existsb (fun d => negb (deadb d s) && match nodes s !! d with Some n => existsb (fun u => match u with Some u => Nat.eqb i u | None => false end) (ups n) | None => false end)
    (seq 0 (length (nodes s))) ||
  existsb (fun j => Nat.eqb i (fst j) && match snd j with JPend => false | _ => true end) (jobs s) ||
  existsb (fun p => match p with PRecv j | PSend j => Nat.eqb i j end) (pends s).

(** one step, channel.hpp:598-1175, 1265-1291, 1450-1620 *)
Definition step (s : st) (l : label) : option (st * list event) :=
  match l with
  | LNew =>
    let i := length (nodes s) in
    Some (St (nodes s ++ [new_node Default [None] false 1]) (dead s) (jobs s) (pends s) (snd_h s ++ [i]) (rcv_h s ++ [(i, false)]), [])
  | LPipe h v b =>
    match (rcv_h s !! h : option (nat * bool)) with
    | None => None
    | Some (u, true) => Some (s, [Threw])                                               (* 1513, 1526 *)
    | Some (u, false) =>
      let i := length (nodes s) in
      map_senders i 0 [u] (St (nodes s ++ [new_node Default [Some u] v b]) (dead s) (jobs s) (pends s) (snd_h s) (rcv_h s ++ [(i, false)]))
    end
  | LMerge k hs v =>
    match k, hs with
    | Default, _ | _, [] => None
    | _, _ =>
      match handles hs s with
      | None => None
      | Some us =>
        let i := length (nodes s) in
        map_senders i 0 us (St (nodes s ++ [new_node k (map Some us) v 1]) (dead s) (jobs s) (pends s) (snd_h s) (rcv_h s ++ [(i, false)]))
      end
    end
  | LSend h m => match snd_h s !! h with None => None | Some i => enqueue i 0 m s end
  | LCopyS h => match snd_h s !! h with None => None | Some i => add_sender i (set_snd (snd_h s ++ [i]) s) end
  | LDropS h => match snd_h s !! h with None => None | Some i => remove_sender i (set_snd (delete h (snd_h s)) s) end
  | LOverS h => match snd_h s !! h with None => None | Some _ => Some (set_snd (delete h (snd_h s)) s, []) end
  | LCopyR h => match (rcv_h s !! h : option (nat * bool)) with None => None | Some (i, r) => add_receiver i (set_rcv (rcv_h s ++ [(i, r)]) s) end
  | LDropR h => match (rcv_h s !! h : option (nat * bool)) with
                | None => None
                | Some (i, r) => if r then Some (set_rcv (delete h (rcv_h s)) s, []) else remove_receiver i (set_rcv (delete h (rcv_h s)) s)
                end
  | LReady h => match (rcv_h s !! h : option (nat * bool)) with
                | None => None
                | Some (i, r) => if r then Some (s, []) else remove_receiver i (set_rcv (<[h := (i, true)]> (rcv_h s)) s)
                end
  | LOverR h => match (rcv_h s !! h : option (nat * bool)) with None => None | Some _ => Some (set_rcv (delete h (rcv_h s)) s, []) end
  | LPend k =>
    match pends s !! k with
    | None => None
    | Some p =>
      match p with
      | PRecv i =>
        match nodes s !! i with
        | None => None
        | Some n => let do_run := (negb (empty_q n) || closeq n) && negb (running n) in
                    Some (run_if do_run i (set_node i (with_running (running n || do_run) n) (set_pends (delete k (pends s)) s)), [])
        end
      | PSend i =>
        match nodes s !! i with
        | None => None
        | Some n => let do_run := (rcount n =? 0) && negb (running n) in
                    Some (run_if do_run i (set_node i (with_running (running n || do_run) (with_close true (final n) n)) (set_pends (delete k (pends s)) s)), [])
        end
      end
    end
  | LJob t => match jobs s !! t with None => None | Some (i, p) => job_step t i p s end
  | LRet t o =>
    match jobs s !! t with
    | Some (i, JInvoke ms) =>
      match nodes s !! i with
      | None => None
      | Some n => Some (set_job t i (JSusp o (down n) (min_free (down n) s <=? 1)%Z) s, [Result i o])  (* 1138-1142 *)
      end
    | _ => None
    end
  | LDestroy i =>
    match nodes s !! i with
    | None => None
    | Some n => if deadb i s || ownedb i s then None
                else Some (St (nodes s) (dead s ++ [i]) (jobs s) (pends s) (snd_h s) (rcv_h s), [])
    end
  end.

(** executions: any sequence of steps (channel.hpp:598-1175) *)
Fixpoint run (s : st) (ls : list label) : option (st * list event) :=
  match ls with
  | [] => Some (s, [])
  | l :: ls => match step s l with
               | None => None
               | Some (s1, e1) => match run s1 ls with None => None | Some (s2, e2) => Some (s2, e1 ++ e2) end
               end
  end.
(** nothing has been built, channel.hpp:1289-1291 *)
Definition init : st := St [] [] [] [] [] [].
