(** Model of the shutdown of the task systems: /repo/src/pre_exit.cpp:19-67, /repo/src/concurrency/default_executor.cpp:22-72,
    /repo/include/stlab/concurrency/default_executor.hpp (libdispatch 69-101, Windows 121-176 and 454-465, portable 382-407) and
    system_timer.hpp (libdispatch 49-115, Windows 121-203, portable 209-281, get_system_timer 290-293).

    The three variants of the library in one transition system. The executors enter by contract: a pool executes each task given
    to it once, at any time, and its join (or dispatch_group_wait) returns when none of its tasks is queued or executing. (For the
    portable pool that is C24, which also says that a task submitted while it is joined may be lost.) A step is a call of an
    executor or timer, the beginning or the end of a task, or a step of pre_exit.

    Not modelled: handlers of users of the library; failing allocation; static destruction after pre_exit; builds with NDEBUG, in
    which [aborted] would be no more than a task that is dropped. *)
From Coq Require Import List Bool Arith.
From stdpp Require Import list.

(** the task systems selected at compile time, STLAB_TASK_SYSTEM: default_executor.cpp:22-72 *)
Inductive variant := Libdispatch | Portable | Windows.
(** the task system that serves a priority: one per priority on Windows, default_executor.cpp:58-65; else one for all *)
Definition pool_of (v : variant) (p : nat) : nat := match v with Windows => p | _ => 0 end.
(** the functions given to at_pre_exit by the library, default_executor.cpp:27-61, system_timer.hpp:80 *)
Inductive handler :=
  | Wait (p : nat)                      (** default_executor.cpp:27-29, 49, 61 *)
  | CloseTimer.                         (** system_timer.hpp:80, libdispatch *)
(** the loop of stlab_pre_exit, pre_exit.cpp:60-65 *)
Inductive phase := Before | Popping | Waiting (p : nat) | After.
(** the statics of pre_exit.cpp:19-56, default_executor.cpp:22-72 and system_timer.hpp:290-293 *)
Record st := St {
  next : nat;                           (** ghost: tasks so far *)
  made : list nat;                      (** task systems constructed *)
  joined : list nat;                    (** and joined *)
  timer : bool;                         (** only_system_timer is constructed *)
  tclosed : bool;                       (** system_timer::_closed, libdispatch *)
  stack : list handler;                 (** pre_exit.cpp:23 *)
  ph : phase;                           (** where stlab_pre_exit is, pre_exit.cpp:60-65; After: the stack is closed *)
  queued : list (nat * nat * bool);     (** task, task system, submitted since pre_exit was called *)
  running : list (nat * option nat);    (** task, task system; None: a task of the timer *)
  pending : list nat;                   (** tasks the timer has *)
  bad : bool;                           (** undefined behaviour: a task system used after join *)
  aborted : bool                        (** a failed assertion *)
}.
(** what is observable of tasks and of pre_exit, pre_exit.cpp:60-65 *)
Inductive event :=
  | Submitted (i : nat) | Armed (i : nat) | Started (i : nat) | Ended (i : nat) | Lost (i : nat)
  | LateTimer                           (** the timer is constructed after pre_exit was called *)
  | Called | Returned.                  (** pre_exit *)
(** what a task, or somebody outside, does; default_executor.hpp:69-101, 397-407, system_timer.hpp:87-115 *)
Inductive action := Exec (p : nat) | Arm.
(** atomic steps: calls, beginnings and ends of tasks, pre_exit.cpp:60-65 *)
Inductive label := Outside (a : action) | Task (k : nat) (a : action) | Start (k : nat) | Lose (k : nat) | Fire (k : nat) | End (k : nat) | Begin | Pop | Done.

(** pre_exit has not been called, pre_exit.cpp:60 *)
Definition is_before (s : st) : bool := match ph s with Before => true | _ => false end.
(** _closed, pre_exit.cpp:24 *)
Definition is_after (s : st) : bool := match ph s with After => true | _ => false end.
(** update of the state (the assignments in pre_exit.cpp:19-67, default_executor.cpp:22-72) *)
Definition set_next (n : nat) (s : st) : st :=
  St n (made s) (joined s) (timer s) (tclosed s) (stack s) (ph s) (queued s) (running s) (pending s) (bad s) (aborted s).
(** update of the state (the assignments in pre_exit.cpp:19-67, default_executor.cpp:22-72) *)
Definition set_made (l : list nat) (s : st) : st :=
  St (next s) l (joined s) (timer s) (tclosed s) (stack s) (ph s) (queued s) (running s) (pending s) (bad s) (aborted s).
(** update of the state (the assignments in pre_exit.cpp:19-67, default_executor.cpp:22-72) *)
Definition set_joined (l : list nat) (s : st) : st :=
  St (next s) (made s) l (timer s) (tclosed s) (stack s) (ph s) (queued s) (running s) (pending s) (bad s) (aborted s).
(** update of the state (the assignments in pre_exit.cpp:19-67, default_executor.cpp:22-72) *)
Definition set_timer (t c : bool) (s : st) : st :=
  St (next s) (made s) (joined s) t c (stack s) (ph s) (queued s) (running s) (pending s) (bad s) (aborted s).
(** update of the state (the assignments in pre_exit.cpp:19-67, default_executor.cpp:22-72) *)
Definition set_stack (l : list handler) (p : phase) (s : st) : st :=
  St (next s) (made s) (joined s) (timer s) (tclosed s) l p (queued s) (running s) (pending s) (bad s) (aborted s).
(** update of the state (the assignments in pre_exit.cpp:19-67, default_executor.cpp:22-72) *)
Definition set_tasks (q : list (nat * nat * bool)) (r : list (nat * option nat)) (p : list nat) (s : st) : st :=
  St (next s) (made s) (joined s) (timer s) (tclosed s) (stack s) (ph s) q r p (bad s) (aborted s).
(** update of the state (the assignments in pre_exit.cpp:19-67, default_executor.cpp:22-72) *)
Definition set_bad (b a : bool) (s : st) : st :=
  St (next s) (made s) (joined s) (timer s) (tclosed s) (stack s) (ph s) (queued s) (running s) (pending s) b a.

(** at_pre_exit, pre_exit.cpp:27-33: the assertion fails when pre_exit has returned *)
Definition register (h : handler) (s : st) : st := if is_after s then set_bad (bad s) true s else set_stack (h :: stack s) (ph s) s.
(** group(), pts(), single_task_system(): constructed and registered at first use; default_executor.cpp:22-33, 45-53, 58-65 *)
Definition use (p : nat) (s : st) : st := if bool_decide (p ∈ made s) then s else register (Wait p) (set_made (p :: made s) s).
(** executor_type::operator(); default_executor.hpp:69-101 (libdispatch), 454-465 (Windows), 397-407 (portable) *)
Definition exec (v : variant) (p : nat) (s : st) : st * list event :=
  let q := pool_of v p in
  let s := use q s in
  if bool_decide (q ∈ joined s) then (set_bad true (aborted s) s, [])
  else (set_next (S (next s)) (set_tasks (queued s ++ [(next s, q, negb (is_before s))]) (running s) (pending s) s), [Submitted (next s)]).
(** system_timer::operator(); libdispatch: its constructor 77-81, the assertion 90 *)
Definition arm (v : variant) (s : st) : st * list event :=
  let late := if timer s || is_before s then [] else [LateTimer] in
  let s := if timer s then s else
    match v with
    | Libdispatch => register CloseTimer (use 0 (set_timer true (tclosed s) s))
    | _ => set_timer true (tclosed s) s
    end in
  if tclosed s then (set_bad (bad s) true s, late)
  else (set_next (S (next s)) (set_tasks (queued s) (running s) (pending s ++ [next s]) s), late ++ [Armed (next s)]).
(** a call of an executor or of the timer, default_executor.hpp:69-101, 397-407, system_timer.hpp:87-115 *)
Definition act (v : variant) (a : action) (s : st) : st * list event := match a with Exec p => exec v p s | Arm => arm v s end.
(** a task executing in system p, what join waits for: default_executor.hpp:382-391 *)
Definition from (p : nat) (r : nat * option nat) : bool := match snd r with Some q => p =? q | None => false end.
(** a task queued in system p, default_executor.hpp:382-391 *)
Definition queued_in (p : nat) (q : nat * nat * bool) : bool := p =? snd (fst q).
(** a task executing in the timer, system_timer.hpp:229-250 *)
Definition timed (r : nat * option nat) : bool := match snd r with None => true | _ => false end.
(** what join, and dispatch_group_wait, wait for. Tasks of the libdispatch timer are in the group while they execute, 98-102 *)
Definition quiet (v : variant) (p : nat) (s : st) : bool :=
  match v with
  | Libdispatch => match queued s, running s with [], [] => true | _, _ => false end
  | _ => negb (existsb (queued_in p) (queued s)) && negb (existsb (from p) (running s))
  end.
(** one step of pre_exit.cpp:60-65, of the task systems default_executor.hpp:69-176, 382-465 or of the timer system_timer.hpp:49-281 *)
Definition step (v : variant) (s : st) (l : label) : option (st * list event) :=
  if aborted s || bad s then None else
  match l with
  | Outside a => if is_before s then Some (act v a s) else None
  | Task k a => match running s !! k with None => None | Some _ => Some (act v a s) end
  | Start k =>
    match queued s !! k with
    | None => None
    | Some (i, p, _) => Some (set_tasks (delete k (queued s)) (running s ++ [(i, Some p)]) (pending s) s, [Started i])
    end
  | Lose k =>                                           (* the portable pool, while it is joined *)
    match v, ph s, queued s !! k with
    | Portable, Waiting _, Some (i, _, true) => Some (set_tasks (delete k (queued s)) (running s) (pending s) s, [Lost i])
    | _, _, _ => None
    end
  | Fire k =>
    match pending s !! k with
    | None => None
    | Some i =>
      match v with
      | Libdispatch =>                                  (* 94-103 *)
        if tclosed s then Some (set_tasks (queued s) (running s) (delete k (pending s)) s, [Lost i])
        else Some (set_tasks (queued s) (running s ++ [(i, None)]) (delete k (pending s)) s, [Started i])
      | Portable =>                                     (* one thread, 229-250 *)
        if existsb timed (running s) then None
        else Some (set_tasks (queued s) (running s ++ [(i, None)]) (delete k (pending s)) s, [Started i])
      | Windows => Some (set_tasks (queued s) (running s ++ [(i, None)]) (delete k (pending s)) s, [Started i])
      end
    end
  | End k =>
    match running s !! k with
    | None => None
    | Some (i, _) => Some (set_tasks (queued s) (delete k (running s)) (pending s) s, [Ended i])
    end
  | Begin => if is_before s then Some (set_stack (stack s) Popping s, [Called]) else None
  | Pop =>                                              (* pre_exit.cpp:36-46, 62-64 *)
    match ph s with
    | Popping =>
      match stack s with
      | [] => Some (set_stack [] After s, [Returned])
      | Wait p :: hs => Some (set_stack hs (Waiting p) s, [])
      | CloseTimer :: hs => Some (set_stack hs Popping (set_timer (timer s) true s), [])
      end
    | _ => None
    end
  | Done =>
    match ph s with
    | Waiting p =>
      if quiet v p s then Some (set_stack (stack s) Popping (match v with Libdispatch => s | _ => set_joined (p :: joined s) s end), [])
      else None
    | _ => None
    end
  end.
(** before the first use of anything, default_executor.cpp:22-72 *)
Definition init : st := St 0 [] [] false false [] Before [] [] [] false false.
(** executions: any sequence of steps (pre_exit.cpp:19-67, default_executor.cpp:22-72) *)
Fixpoint run (v : variant) (s : st) (ls : list label) : option (st * list event) :=
  match ls with
  | [] => Some (s, [])
  | l :: ls => match step v s l with
               | None => None
               | Some (s1, e1) => match run v s1 ls with None => None | Some (s2, e2) => Some (s2, e1 ++ e2) end
               end
  end.
