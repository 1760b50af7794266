(** Model of function_process, which makes a function into a process with await and yield:
    /repo/include/stlab/concurrency/channel.hpp:1680-1708.

    The function object has a state [S] of its own; a call takes the state and an argument to the new state and a result, or an exception.
    std::function and std::bind enter by contract: std::bind keeps copies of the function object and of the arguments, and a call of
    what it returns calls that copy with these arguments. Left out: arguments that std::bind treats in a special way
    (std::reference_wrapper, placeholders, results of std::bind), and several arguments, which are one. *)
From Coq Require Import List Bool.
Import ListNotations.

(** what a call comes to; channel.hpp:1702 *)
Inductive outcome (R : Type) := Val (r : R) | Throws.
Arguments Val {R} _. Arguments Throws {R}.

Section Model.
Context {S A R : Type} (f : S -> A -> S * outcome R).

(** the members; channel.hpp:1685-1687 *)
Record fp := Fp { fs : S; bound : option (S * A); done : bool }.
(** the constructor; channel.hpp:1691-1692 *)
Definition make (s : S) : fp := Fp s None true.
(** await; channel.hpp:1694-1698 *)
Definition await (a : A) (p : fp) : fp := Fp (fs p) (Some (fs p, a)) false.
(** yield: None stands for std::bad_function_call; channel.hpp:1700-1703 *)
Definition yield (p : fp) : fp * option (outcome R) :=
  match bound p with
  | None => (Fp (fs p) None true, None)
  | Some (s, a) => let '(s', r) := f s a in (Fp (fs p) (Some (s', a)) true, Some r)
  end.
(** state; channel.hpp:1704-1706 *)
Inductive pstate := AwaitForever | YieldImmediate.
Definition state (p : fp) : pstate := if done p then AwaitForever else YieldImmediate.

(** what may be called; channel.hpp:1694-1703 *)
Inductive op := Await (a : A) | Yield.
(** any sequence of calls, and what the calls of yield come to; channel.hpp:1680-1708 *)
Fixpoint run (p : fp) (os : list op) : fp * list (option (outcome R)) :=
  match os with
  | [] => (p, [])
  | Await a :: os => run (await a p) os
  | Yield :: os => let '(p1, r) := yield p in let '(p2, rs) := run p1 os in (p2, r :: rs)
  end.
(** shared_process: gives a message only to a process that awaits, and asks for a result only one that yields; 910-1083 *)
Fixpoint proper (p : fp) (os : list op) : Prop :=
  match os with
  | [] => True
  | Await a :: os => state p = AwaitForever /\ proper (await a p) os
  | Yield :: os => state p = YieldImmediate /\ proper (fst (yield p)) os
  end.
End Model.
Arguments fp : clear implicits. Arguments op : clear implicits.
