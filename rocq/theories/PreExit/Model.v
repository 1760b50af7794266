(** Model of /repo/src/pre_exit.cpp:19-67 (and the inline wrappers pre_exit.hpp:34-44).

    A failed [assert] is the outcome [Abort] (the debug build; builds with NDEBUG, in which
    the assertions vanish, are not modelled). *)
From stdpp Require Import list.

(** outcome of a call, pre_exit.cpp:27-65: Abort is a failed assert (29-31, 39, 49), OOF the model out of fuel *)
Inductive res (A : Type) := Ok (a : A) | Abort | OOF.
Arguments Ok {A} a. Arguments Abort {A}. Arguments OOF {A}.
Notation "'let!' x := m 'in' k" :=
  (match m with Ok x => k | Abort => Abort | OOF => OOF end)
  (at level 200, x pattern, m at level 100, k at level 200).

(** What a registered handler does when it is invoked: it has an identity and performs, in order, a
    number of [at_pre_exit] calls, and possibly calls [pre_exit] itself (which the API forbids). pre_exit.hpp:20-25 *)
Inductive handler := H (id : nat) (acts : list action)
with action := Register (h : handler) | Drain.

(** pre_exit_stack_t, 19-24 *)
Record stack_t := Stack { st_stack : list handler; st_closed : bool }.

(** push, 27-33; the vector's back is the head of the list *)
Definition push (s : stack_t) (h : handler) : res stack_t :=
  if st_closed s then Abort else Ok (Stack (h :: st_stack s) (st_closed s)).

(** pop, 36-46: [None] is the null pointer *)
Definition pop (s : stack_t) : res (option handler * stack_t) :=
  match st_stack s with
  | [] => if st_closed s then Abort else Ok (None, Stack [] true)
  | h :: st => Ok (Some h, Stack st (st_closed s))
  end.

(** stlab_pre_exit, 60-65, with the handlers' own actions; the list returned is the sequence of
    identities in the order in which the handlers were entered. *)
Fixpoint pre_exit (fuel : nat) (s : stack_t) : res (list nat * stack_t) :=
  match fuel with
  | O => OOF
  | S fuel =>
    let! (f, s) := pop s in
    match f with
    | None => Ok ([], s)
    | Some (H i acts) =>
      let! (t1, s) := run_acts fuel acts s in
      let! (t2, s) := pre_exit fuel s in
      Ok (i :: t1 ++ t2, s)
    end
  end
with run_acts (fuel : nat) (acts : list action) (s : stack_t) : res (list nat * stack_t) :=
  match fuel with
  | O => OOF
  | S fuel =>
    match acts with
    | [] => Ok ([], s)
    | Register h :: acts => let! s := push s h in run_acts fuel acts s
    | Drain :: acts =>
      let! (t1, s) := pre_exit fuel s in
      let! (t2, s) := run_acts fuel acts s in
      Ok (t1 ++ t2, s)
    end
  end.

(** at_pre_exit calls before pre_exit, in order; pre_exit.cpp:67 *)
Fixpoint register_all (hs : list handler) (s : stack_t) : res stack_t :=
  match hs with
  | [] => Ok s
  | h :: hs => let! s := push s h in register_all hs s
  end.

(** The initial stack, 23-24 *)
Definition stack0 : stack_t := Stack [] false.

(** ~pre_exit_stack_t, 48-50 *)
Definition destroy (s : stack_t) : res unit := if st_closed s then Ok tt else Abort.

(** * Any number of threads

    Each label is one critical section of [_mutex]: [Push h] by any thread (a handler being run or
    any other thread), [Pop] by a thread inside [pre_exit]. pre_exit.cpp:27-46 *)
Inductive label := LPush (h : nat) | LPop.
(** pre_exit_stack_t, pre_exit.cpp:19-24, with ghosts: all handlers pushed, all handlers popped *)
Record cstate := CState { c_stack : list nat; c_closed : bool; c_pushed : list nat; c_run : list nat }.
(** one critical section, pre_exit.cpp:27-46 *)
Definition cstep (c : cstate) (l : label) : res cstate :=
  match l with
  | LPush h =>
    if c_closed c then Abort
    else Ok (CState (h :: c_stack c) (c_closed c) (c_pushed c ++ [h]) (c_run c))
  | LPop =>
    match c_stack c with
    | [] => if c_closed c then Abort else Ok (CState [] true (c_pushed c) (c_run c))
    | h :: st => Ok (CState st (c_closed c) (c_pushed c) (c_run c ++ [h]))
    end
  end.
(** executions: any sequence of critical sections, pre_exit.cpp:27-46 *)
Fixpoint crun (c : cstate) (ls : list label) : res cstate :=
  match ls with [] => Ok c | l :: ls => let! c := cstep c l in crun c ls end.
(** the initial stack, pre_exit.cpp:23-24 *)
Definition c0 : cstate := CState [] false [] [].
