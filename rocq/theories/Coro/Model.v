(** Model of coroutines that return futures and await them: /repo/include/stlab/concurrency/future.hpp 1701-1770:
    coroutine_traits (1701-1748) and operator co_await (1750-1770), with detach(f) (342-355 and 499-511) and set_value
    (1634-1667) of the futures awaited.

    Any number of futures. Some are fulfilled by the environment, the others are results of coroutines. What a coroutine does is
    an arbitrary tree: it awaits a future and goes on according to what it gets, returns or throws.

    A step is a critical section of a future's mutex or what a thread does up to the next. The nesting of calls on a thread's
    stack is not kept: what is called from another function is an activity of its own, so there are more interleavings than in
    the program.

    A coroutine that is resumed when it is not suspended, or whose frame is used when it has been destroyed, sets [bad].

    Not modelled: the destruction of futures (a coroutine goes on when nobody waits for its result); promises that are dropped
    are fulfilled with an error (Verif.Future, C33); move-only values (Verif.Unique). *)
From Coq Require Import List Bool Arith.
From stdpp Require Import list.

(** the result of a future: what await_resume returns or throws, future.hpp:1756 *)
Inductive outcome := Value (v : nat) | Error (e : nat).
(** the rest of a coroutine; await_resume returns or throws in it (1756) *)
Inductive body := Ret (v : nat) | Throw (e : nat) | Await (f : nat) (k : outcome -> body).
(** the continuation of a coroutine after co_await, future.hpp:1750-1770 *)
Definition kont : Type := outcome -> body.

(** the state of a coroutine frame, future.hpp:1701-1748: not called, running, suspended in 1758, destroyed after 1716 *)
Inductive cstate := Fresh | Running | Suspended | Gone.
(** what the function given to detach has: the coroutine, and where it goes on (1759-1762) *)
Inductive act :=
  | Eval (c : nat) (b : body)                       (** a thread is in the coroutine, b is what it has still to do *)
  | Susp (c f : nat) (k : kont)                     (** await_suspend, 1758: about to attach to f, 349 *)
  | Fire (f : nat) (o : outcome) (l : list (nat * kont))  (** f is ready; the functions in l have still to be called, 1647 *)
  | Free (c : nat).                                 (** after final_suspend, 1716: the frame is destroyed *)
(** the futures and coroutine frames, future.hpp:1701-1770; _then is shared_base::_then, 342-355 *)
Record st := St {
  outs : nat -> option outcome;                     (** the futures that are ready *)
  waiting : list (nat * (nat * kont));              (** what is in _then of all the futures *)
  cst : nat -> cstate;
  acts : list act;
  bad : bool
}.
(** what is observable of the coroutines, future.hpp:1701-1770 *)
Inductive event :=
  | Began (c : nat)
  | Saw (c f : nat) (o : outcome)                   (** await_resume of the coroutine c *)
  | Finished (c : nat) (o : outcome)                (** return_value, unhandled_exception 1718-1723 *)
  | Freed (c : nat).
(** atomic steps: future.hpp:1634-1667 by the environment, a call of a coroutine 1709-1713, a step of an activity *)
Inductive label :=
  | LResolve (f : nat) (o : outcome)                (** the environment fulfils f *)
  | LStart (c : nat)                                (** the coroutine is called *)
  | LAct (i : nat).

(** update of the state (the assignments in future.hpp:1701-1770) *)
Definition upd {A} (g : nat -> A) (x : nat) (v : A) : nat -> A := fun y => if y =? x then v else g y.
(** update of the state (the assignments in future.hpp:1701-1770) *)
Definition set_outs (o : nat -> option outcome) (s : st) : st := St o (waiting s) (cst s) (acts s) (bad s).
(** update of the state (the assignments in future.hpp:1701-1770) *)
Definition set_waiting (w : list (nat * (nat * kont))) (s : st) : st := St (outs s) w (cst s) (acts s) (bad s).
(** update of the state (the assignments in future.hpp:1701-1770) *)
Definition set_cst (c : nat) (x : cstate) (s : st) : st := St (outs s) (waiting s) (upd (cst s) c x) (acts s) (bad s).
(** update of the state (the assignments in future.hpp:1701-1770) *)
Definition set_acts (a : list act) (s : st) : st := St (outs s) (waiting s) (cst s) a (bad s).
(** update of the state (the assignments in future.hpp:1701-1770) *)
Definition set_bad (b : bool) (s : st) : st := St (outs s) (waiting s) (cst s) (acts s) (bad s || b).

(** the frame is in use by its coroutine, future.hpp:1701-1748 *)
Definition is_running (x : cstate) : bool := match x with Running => true | _ => false end.
(** the frame is suspended by await_suspend, future.hpp:1758 *)
Definition is_suspended (x : cstate) : bool := match x with Suspended => true | _ => false end.
(** the frame is used by the coroutine itself; model of undefined behaviour in future.hpp:1701-1748 *)
Definition touch (c : nat) (s : st) : st := set_bad (negb (is_running (cst s c))) s.

(** value_::proceed 1634-1650, _set_exception 362-376: f becomes ready, its functions are taken *)
Definition resolve (f : nat) (o : outcome) (s : st) : st :=
  let mine := map snd (List.filter (fun w => fst w =? f) (waiting s)) in
  let s := set_outs (upd (outs s) f (Some o)) s in
  let s := set_waiting (List.filter (fun w => negb (fst w =? f)) (waiting s)) s in
  set_acts (acts s ++ [Fire f o mine]) s.
(** 1760-1761: the future is put back into the awaiter, in the frame, and the coroutine resumed; await_resume 1756 *)
Definition resume (c f : nat) (o : outcome) (k : kont) (s : st) : st * list event :=
  let s := set_bad (negb (is_suspended (cst s c))) s in
  (set_acts (acts s ++ [Eval c (k o)]) (set_cst c Running s), [Saw c f o]).

(** future.hpp:1701-1770, one step *)
Definition step (prog : nat -> option body) (s : st) (l : label) : option (st * list event) :=
  match l with
  | LResolve f o =>
    match prog f, outs s f with None, None => Some (resolve f o s, []) | _, _ => None end
  | LStart c =>
    match prog c, cst s c with
    | Some b, Fresh => Some (set_acts (acts s ++ [Eval c b]) (set_cst c Running s), [Began c])   (* 1713: suspend_never *)
    | _, _ => None
    end
  | LAct i =>
    match acts s !! i with
    | None => None
    | Some a =>
      let s := set_acts (delete i (acts s)) s in
      match a with
      | Eval c (Await f k) =>
        let s := touch c s in
        match outs s f with                                       (* await_ready 1754 *)
        | Some o => Some (set_acts (acts s ++ [Eval c (k o)]) s, [Saw c f o])
        | None => Some (set_acts (acts s ++ [Susp c f k]) (set_cst c Suspended s), [])
        end
      | Susp c f k =>
        match outs s f with                                       (* 347-352 *)
        | Some o => Some (resume c f o k s)
        | None => Some (set_waiting (waiting s ++ [(f, (c, k))]) (set_bad (negb (is_suspended (cst s c))) s), [])
        end
      | Fire f o [] => Some (s, [])
      | Fire f o ((c, k) :: l) => Some (resume c f o k (set_acts (Fire f o l :: acts s) s))
      | Eval c (Ret v) =>
        let s := resolve c (Value v) (touch c s) in Some (set_acts (acts s ++ [Free c]) s, [Finished c (Value v)])
      | Eval c (Throw e) =>
        let s := resolve c (Error e) (touch c s) in Some (set_acts (acts s ++ [Free c]) s, [Finished c (Error e)])
      | Free c => Some (set_cst c Gone (touch c s), [Freed c])
      end
    end
  end.

(** no coroutine called, no future ready: future.hpp:1701-1770 *)
Definition init : st := St (fun _ => None) [] (fun _ => Fresh) [] false.
(** executions: any sequence of steps (future.hpp:1701-1770) *)
Fixpoint run (prog : nat -> option body) (s : st) (ls : list label) : option (st * list event) :=
  match ls with
  | [] => Some (s, [])
  | l :: ls => match step prog s l with
    | None => None
    | Some (s', ev) => match run prog s' ls with None => None | Some (s'', tr) => Some (s'', ev ++ tr) end
    end
  end.
