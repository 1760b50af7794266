(** Model of execute_at and execute_delayed, /repo/include/stlab/concurrency/executor_base.hpp:34-45, 56-61
    (the deprecated time_point overload 47-51 calls the first one), used with the timer of Timer/Model.v.

    One delayed executor object with duration [d], built from a usable executor e. Its lambda is mutable and
    holds e; the first call with d <> 0 moves e into the closure given to the timer, after which the lambda
    holds a moved-from std::function. The standard leaves a moved-from std::function unspecified; all standard
    library implementations leave it empty, and calling an empty one throws bad_function_call -- inside the
    noexcept closure that is std::terminate ([dead]). Other users of the timer submit [Other] tasks. The
    closure's body is the last part of the timer's task, so it happens at the timer's [Finish] step. *)
From Coq Require Import ZArith List Bool.
From stdpp Require Import list.
From Verif.Timer Require Import Model.
Open Scope Z_scope.

(** what is in the timer: a foreign task, or a closure holding task [f] and an executor that is usable or not *)
Inductive job := Other | Job (f : nat) (usable : bool).

Record est := Est {
  timer : st job;
  held : bool;                   (** the lambda's _executor is usable *)
  calls : list (nat * Z);        (** ghost: tasks submitted to the delayed executor and when, oldest first *)
  handed : list (nat * Z);       (** tasks handed to e and when, oldest first *)
  dead : bool                    (** std::terminate was called *)
}.

Inductive elabel :=
  | Call (f : nat)               (** the delayed executor is called with task f *)
  | T (l : label job).           (** a step of the timer, its clock or its other users *)

Definition estep (d : Z) (s : est) (l : elabel) : option est :=
  if dead s then None else
  match l with
  | Call f =>
    let c := calls s ++ [(f, now (timer s))] in
    if d =? 0 then                                                                (* 37, 42-43 *)
      if held s then Some (Est (timer s) (held s) c (handed s ++ [(f, now (timer s))]) false)
      else Some (Est (timer s) (held s) c (handed s) true)
    else                                                                          (* 38-41 *)
      match step (timer s) (Submit d (Job f (held s))) with
      | Some (t, _) => Some (Est t false c (handed s) false)
      | None => None
      end
  | T (Submit _ (Job _ _)) => None
  | T l =>
    match step (timer s) l with
    | None => None
    | Some (t, _) =>
      match l, thr (timer s) with
      | Finish, Running (Entry _ _ (Job f true)) =>                               (* 40 *)
        Some (Est t (held s) (calls s) (handed s ++ [(f, now (timer s))]) false)
      | Finish, Running (Entry _ _ (Job f false)) => Some (Est t (held s) (calls s) (handed s) true)
      | _, _ => Some (Est t (held s) (calls s) (handed s) false)
      end
    end
  end.

Fixpoint erun (d : Z) (s : est) (ls : list elabel) : option est :=
  match ls with [] => Some s | l :: ls => match estep d s l with Some s => erun d s ls | None => None end end.

Definition einit (t : Z) : est := Est (init t) true [] [] false.
