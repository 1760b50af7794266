(** Model of the process annotations: /repo/include/stlab/concurrency/channel.hpp:1341-1445 and the
    executor_task_pair operators executor_base.hpp:61-79.

    A value of the expression language is what the C++ expression has become; the operator& overload
    is chosen by the (static) kinds of the operands as overload resolution does. Expressions whose
    instantiation does not compile are [IllFormed]. Executors, buffer sizes and functions are
    represented by numbers. *)
From stdpp Require Import list.

(** the types of the operands of operator&, channel.hpp:1341-1376 and executor_base.hpp:61-69 *)
Inductive val :=
  | VExec (e : nat)                                   (** executor, executor_base.hpp:61 *)
  | VBs (n : nat)                                     (** buffer_size, 1341-1344 *)
  | VFn (f : nat)                                     (** a process or function object *)
  | VAnn (oe : option nat) (ob : option nat)          (** detail::annotations, 1350-1357 *)
  | VEtp (e : nat) (f : val)                          (** executor_task_pair, executor_base.hpp:65 *)
  | VProc (f : val) (oe : option nat) (ob : option nat) (** annotated_process, 1359-1376 *)
  | IllFormed.

(** operator&; the operands are rvalues; channel.hpp:1387-1445, executor_base.hpp:71-79 *)
Definition amp (x y : val) : val :=
  match x, y with
  | IllFormed, _ | _, IllFormed => IllFormed
  (* 1387-1401: non-template overloads, combine_bs_executor 1378-1383 *)
  | VBs n, VExec e | VExec e, VBs n => VAnn (Some e) (Some n)
  (* 1413-1421: annotated_process(executor_task_pair&&, buffer_size) initialises
     annotations(executor_t, std::size_t) with a buffer_size, which has no conversion to size_t *)
  | VEtp _ _, VBs _ | VBs _, VEtp _ _ => IllFormed
  (* 1433-1438: result is moved out of a, then a is modified, then result is returned *)
  | VProc f oe ob, VExec e =>
      let result := VProc f oe ob in
      let a := VProc f (Some e) ob in (* the moved-from parameter; dropped *)
      result
  (* 1440-1445 *)
  | VProc f oe ob, VBs n =>
      let result := VProc f oe ob in
      let a := VProc f oe (Some n) in
      result
  (* executor_base.hpp:71-79: templates, F deduced as anything else *)
  | VExec e, f | f, VExec e => VEtp e f
  (* 1403-1411 *)
  | VBs n, f | f, VBs n => VProc f None (Some n)
  (* 1423-1431 *)
  | VAnn oe ob, f | f, VAnn oe ob => VProc f oe ob
  | _, _ => IllFormed
  end.

(** receiver::operator|, 1506-1543: what the new process is built with. [d] is the upstream's executor
    and 1 the initial buffer size (shared_process::_process_buffer_size). A process type that is not itself callable does not
    compile. *)
Definition attach (d : nat) (v : val) : option (nat * nat * nat) :=
  match v with
  | VFn f => Some (f, d, 1)
  | VEtp e (VFn f) => Some (f, e, 1)
  | VProc (VFn f) oe ob => Some (f, default d oe, default 1 ob)
  | _ => None
  end.
