(** Model of task_, /repo/include/stlab/concurrency/task.hpp:37-286.

    Task objects have identities; so have the callable objects stored in them. A task has a vtable (empty,
    small: callable in the buffer, large: unique_ptr in the buffer) and a buffer that is raw memory, holds a
    callable object or holds a unique_ptr. Using the buffer as something it does not hold, or a callable that
    has been destroyed, is undefined behaviour ([UB]). A callable's value is [Some v], or [None] once it has
    been moved from (whose effect when invoked is the callable type's business). The stored callables' own
    move constructors and destructors do not throw; re-entrant use of a task by its own callable while being
    invoked, and target()/target_type() (252-262, plain reads), are not represented. *)
From stdpp Require Import gmap.

Section model.
Context {V : Type}.

Inductive vt := VEmpty | VSmall | VLarge.                       (** _vtable_ptr: 147-163, 65-101, 103-143 *)
Inductive buf := Raw | BSmall (o : nat) | BLarge (p : option nat).   (** _model, 193 *)

(** the task objects and the callables, task.hpp:191-193 *)
Record st := St {
  tasks : gmap nat (vt * buf);        (** the task objects alive *)
  objs : gmap nat (option V);         (** the callable objects alive *)
  nobj : nat;                         (** ghost: number of callable objects constructed so far *)
  dead : list nat                     (** ghost: callable objects destroyed, in order *)
}.

(** outcome of an operation of task.hpp:198-286 *)
Inductive res (A : Type) := Ok (a : A) | UB.
Arguments Ok {A} a. Arguments UB {A}.
(** one operation after the other, task.hpp:198-286 *)
Definition bind {A B} (r : res A) (f : A -> res B) : res B := match r with Ok a => f a | UB => UB end.

(** update of a task object, task.hpp:191-193 *)
Definition set_task (t : nat) (x : vt * buf) (s : st) : st := St (<[t := x]> (tasks s)) (objs s) (nobj s) (dead s).

(** construct a callable object; task.hpp:66-76, 104-114, 217 *)
Definition new_obj (v : option V) (s : st) : nat * st :=
  (nobj s, St (tasks s) (<[nobj s := v]> (objs s)) (S (nobj s)) (dead s)).
(** destroy a callable object; task.hpp:73, 111 *)
Definition kill (o : nat) (s : st) : res st :=
  match objs s !! o with
  | None => UB
  | Some _ => Ok (St (tasks s) (delete o (objs s)) (nobj s) (dead s ++ [o]))
  end.

(** _vtable_ptr->dtor(&_model): 147, 73, 111 *)
Definition dtor (t : nat) (s : st) : res st :=
  match tasks s !! t with
  | None => UB
  | Some (VEmpty, _) => Ok s
  | Some (VSmall, BSmall o) => bind (kill o s) (fun s => Ok (set_task t (VSmall, Raw) s))
  | Some (VLarge, BLarge None) => Ok (set_task t (VLarge, Raw) s)
  | Some (VLarge, BLarge (Some o)) => bind (kill o s) (fun s => Ok (set_task t (VLarge, Raw) s))
  | Some _ => UB
  end.

(** _vtable_ptr->move_ctor(&x._model, &_model), with t's vtable already copied from u: 148, 74-76, 112-114 *)
Definition move_ctor (u t : nat) (s : st) : res st :=
  match tasks s !! t, tasks s !! u with
  | Some (VEmpty, _), Some _ => Ok s
  | Some (VSmall, _), Some (_, BSmall o) =>
    match objs s !! o with
    | None => UB
    | Some v =>
      let s := St (tasks s) (<[o := None]> (objs s)) (nobj s) (dead s) in
      let '(o', s) := new_obj v s in Ok (set_task t (VSmall, BSmall o') s)
    end
  | Some (VLarge, _), Some (vu, BLarge p) =>
    Ok (set_task t (VLarge, BLarge p) (set_task u (vu, BLarge None) s))
  | _, _ => UB
  end.
(** assignment to _vtable_ptr, task.hpp:191 *)
Definition set_vt (t : nat) (v : vt) (s : st) : res st :=
  match tasks s !! t with Some (_, b) => Ok (set_task t (v, b) s) | None => UB end.
(** _vtable_ptr, task.hpp:191 *)
Definition get_vt (t : nat) (s : st) : res vt :=
  match tasks s !! t with Some (v, _) => Ok v | None => UB end.

(** task_(), task_(nullptr_t), 198-199; also 215 for an empty function pointer *)
Definition ctor_empty (t : nat) (s : st) : res st := Ok (set_task t (VEmpty, Raw) s).
(** task_(F&&), 208-220; [small] is the outcome of the size and alignment test 211-213 *)
Definition ctor (t : nat) (small : bool) (v : V) (s : st) : res st :=
  let '(o, s) := new_obj (Some v) (set_task t (VEmpty, Raw) s) in
  Ok (set_task t (if small then (VSmall, BSmall o) else (VLarge, BLarge (Some o))) s).
(** task_(task_&&), 202-204 *)
Definition ctor_move (t u : nat) (s : st) : res st :=
  bind (get_vt u s) (fun v => move_ctor u t (set_task t (v, Raw) s)).
(** operator=(task_&&), 226-232 *)
Definition assign (t u : nat) (s : st) : res st :=
  bind (dtor t s) (fun s => bind (get_vt u s) (fun v => bind (set_vt t v s) (fun s => move_ctor u t s))).
(** ~task_(), 222 *)
Definition destroy (t : nat) (s : st) : res st :=
  bind (dtor t s) (fun s => Ok (St (delete t (tasks s)) (objs s) (nobj s) (dead s))).

(** task.hpp:234-243 *)
Definition tmp (s : st) : nat := fresh (dom (tasks s)).        (** a temporary task object *)
(** operator=(nullptr_t), 234 *)
Definition assign_null (t : nat) (s : st) : res st :=
  let x := tmp s in bind (ctor_empty x s) (fun s => bind (assign t x s) (destroy x)).
(** operator=(F&&), 236-241 *)
Definition assign_fn (t : nat) (small : bool) (v : V) (s : st) : res st :=
  let x := tmp s in bind (ctor x small v s) (fun s => bind (assign t x s) (destroy x)).
(** swap, 243: std::swap *)
Definition swap (t u : nat) (s : st) : res st :=
  let x := tmp s in
  bind (ctor_move x t s) (fun s => bind (assign t u s) (fun s => bind (assign u x s) (destroy x))).

(** of operator(), task.hpp:264-267 *)
Inductive outcome := Called (v : V) | CalledMoved | Threw.
(** operator(), 264-267: 86-88, 123-125, 150-160 (bad_function_call; std::terminate for a noexcept signature) *)
Definition invoke (t : nat) (s : st) : res outcome :=
  match tasks s !! t with
  | Some (VEmpty, _) => Ok Threw
  | Some (VSmall, BSmall o) | Some (VLarge, BLarge (Some o)) =>
    match objs s !! o with None => UB | Some None => Ok CalledMoved | Some (Some v) => Ok (Called v) end
  | _ => UB
  end.
(** operator bool, 245: const_pointer 91-93, 131-133, 163 *)
Definition to_bool (t : nat) (s : st) : res bool :=
  match tasks s !! t with
  | Some (VEmpty, _) => Ok false
  | Some (VSmall, BSmall _) => Ok true
  | Some (VLarge, BLarge p) => Ok (match p with Some _ => true | None => false end)
  | _ => UB
  end.

(** the operations, task.hpp:198-243 *)
Inductive op :=
  | CtorEmpty (t : nat) | Ctor (t : nat) (small : bool) (v : V) | CtorMove (t u : nat)
  | Assign (t u : nat) | AssignNull (t : nat) | AssignFn (t : nat) (small : bool) (v : V)
  | Swap (t u : nat) | Destroy (t : nat).

(** task.hpp:198-243 *)
Definition step (s : st) (o : op) : res st :=
  match o with
  | CtorEmpty t => ctor_empty t s
  | Ctor t b v => ctor t b v s
  | CtorMove t u => ctor_move t u s
  | Assign t u => assign t u s
  | AssignNull t => assign_null t s
  | AssignFn t b v => assign_fn t b v s
  | Swap t u => swap t u s
  | Destroy t => destroy t s
  end.
(** executions: any sequence of steps (task.hpp:190-286) *)
Fixpoint run (s : st) (os : list op) : res st :=
  match os with [] => Ok s | o :: os => bind (step s o) (fun s => run s os) end.
(** no task object, task.hpp:198 *)
Definition init : st := St ∅ ∅ 0 [].
End model.
Arguments st : clear implicits.
Arguments op : clear implicits.
Arguments outcome : clear implicits.
Arguments Ok {A} a. Arguments UB {A}.
