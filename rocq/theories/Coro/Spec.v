(** What a coroutine computes, without threads: it is evaluated, and so are the coroutines it awaits. *)
From Coq Require Import List.
From stdpp Require Import list.
From Verif.Coro Require Import Model.

(** ext: what the environment fulfils its futures with *)
Inductive den (prog : nat -> option body) (ext : nat -> option outcome) : nat -> outcome -> Prop :=
  | den_ext f o : prog f = None -> ext f = Some o -> den prog ext f o
  | den_coro f b o : prog f = Some b -> eval prog ext b o -> den prog ext f o
with eval (prog : nat -> option body) (ext : nat -> option outcome) : body -> outcome -> Prop :=
  | eval_ret v : eval prog ext (Ret v) (Value v)
  | eval_throw e : eval prog ext (Throw e) (Error e)
  | eval_await f k o r : den prog ext f o -> eval prog ext (k o) r -> eval prog ext (Await f k) r.

(** what a coroutine was given by the futures it awaited, in order *)
Definition saw (c : nat) (tr : list event) : list (nat * outcome) :=
  flat_map (fun e => match e with Saw d f o => if d =? c then [(f, o)] else [] | _ => [] end) tr.
Definition began (c : nat) (tr : list event) : list unit :=
  flat_map (fun e => match e with Began d => if d =? c then [tt] else [] | _ => [] end) tr.
Definition finished (c : nat) (tr : list event) : list outcome :=
  flat_map (fun e => match e with Finished d o => if d =? c then [o] else [] | _ => [] end) tr.
Definition freed (c : nat) (tr : list event) : list unit :=
  flat_map (fun e => match e with Freed d => if d =? c then [tt] else [] | _ => [] end) tr.
(** the coroutine b, given l, has r still to do *)
Inductive follows : body -> list (nat * outcome) -> body -> Prop :=
  | follows_nil b : follows b [] b
  | follows_cons f k o l r : follows (k o) l r -> follows (Await f k) ((f, o) :: l) r.
Definition rest (s : st) : Prop := acts s = [].
