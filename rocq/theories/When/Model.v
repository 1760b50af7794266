(** Model of when_all and when_any: /repo/include/stlab/concurrency/future.hpp, when_all_shared (1064-1100), when_any_shared
    (1102-1186), apply_when_*_arg(s) (1192-1214), attach_when_args (1216-1244), when_all (1250-1263), when_any (1267-1311),
    context_result, single_trigger, all_trigger, common_context (1315-1500), attach_tasks, create_range_of_futures
    (1503-1562), when_all and when_any over ranges (1568-1611).

    One call, with n arguments. The futures themselves are those of Verif.Future; what is used of them is that a recover
    continuation is started at most once, with the outcome of its argument (C31, C32), that it is cancelled when the future
    it belongs to is dropped before it has started (C34), and that a state lives while something refers to it (C36). The
    steps are: what the attaching thread does, argument after argument; the start of a continuation, in any thread, at any
    time after it has been attached; its critical section; the call of _f; the end of that call; dropping the result.

    Values and exceptions are numbers; a void argument's value is not passed on. A hold is reset under the context's mutex;
    what else its destruction may set off (destructors of user functions) is not modelled. *)
From Coq Require Import List Bool NArith.
From stdpp Require Import list.

(** of an argument future: its value or exception, future.hpp:1074, 1087 *)
Inductive outcome := Val (v : nat) | Exc (e : nat).

(** which context, future.hpp:1064-1186, 1375-1500 *)
Inductive variant :=
  | PackAll                     (** when_all_shared *)
  | PackAny                     (** when_any_shared *)
  | PackAnyVoid                 (** when_any_shared<S, void> *)
  | RangeAll                    (** common_context<_, _, all_trigger, single_trigger> *)
  | RangeAny.                   (** common_context<_, _, single_trigger, all_trigger> *)

(** the parts of the context that arrivals change, except _holds; future.hpp:1064-1070, 1102-1112, 1150-1156, 1375-1425, 1442-1482 *)
Record ctx := Ctx {
  args : list (option nat);     (** _args, 1066 (not engaged: None); _results of when_all over a range, 1378 (None: default) *)
  arg : option nat;             (** _arg, 1106 (not engaged: None); _results of when_any over a range (None: default) *)
  idx : option nat;             (** _index, 1111, 1139 (None: the maximum), 1380, 1408 (None: 0) *)
  rem : N;                      (** _remaining, size_t *)
  exc : option nat;             (** _exception *)
  single : bool                 (** _single_event, 1480 *)
}.
(** a new context for n arguments, future.hpp:1253-1258, 1526-1531 *)
Definition ctx0 (n : nat) : ctx := Ctx (replicate n None) None None (N.of_nat n) None false.

(** --_remaining; future.hpp:1078, 1118, 1161, 1455, 1466 *)
Definition dec (r : N) : N := if (r =? 0)%N then (2 ^ 64 - 1)%N else (r - 1)%N.

(** the critical section for argument i: the new context, and whether _f is to be called; future.hpp:1074-1179, 1426-1472 *)
Definition arrive (v : variant) (i : nat) (o : outcome) (c : ctx) : ctx * bool :=
  match v, o with
  | PackAll, Val x =>                                                           (* 1074-1084 *)
    match exc c with
    | None => let r := dec (rem c) in (Ctx (<[i := Some x]> (args c)) (arg c) (idx c) r None (single c), (r =? 0)%N)
    | Some _ => (c, false)
    end
  | PackAll, Exc e =>                                                           (* 1087-1099 *)
    match exc c with
    | None => (Ctx (args c) (arg c) (idx c) (rem c) (Some e) (single c), true)
    | Some _ => (c, false)
    end
  | PackAny, Val x =>                                                           (* 1127-1138 *)
    match idx c with
    | None => (Ctx (args c) (Some x) (Some i) (rem c) (exc c) (single c), true)
    | Some _ => (c, false)
    end
  | PackAnyVoid, Val _ =>                                                       (* 1169-1179 *)
    match idx c with
    | None => (Ctx (args c) (arg c) (Some i) (rem c) (exc c) (single c), true)
    | Some _ => (c, false)
    end
  | (PackAny | PackAnyVoid | RangeAny), Exc e =>                                (* 1114-1124, 1157-1166, 1462-1472 *)
    let r := dec (rem c) in
    if (r =? 0)%N then (Ctx (args c) (arg c) (idx c) r (Some e) (single c), true)
    else (Ctx (args c) (arg c) (idx c) r (exc c) (single c), false)
  | RangeAll, Val x =>                                                          (* 1451-1460 *)
    let r := dec (rem c) in (Ctx (<[i := Some x]> (args c)) (arg c) (idx c) r (exc c) (single c), (r =? 0)%N)
  | RangeAll, Exc e =>                                                          (* 1426-1440 *)
    if single c then (c, false) else (Ctx (args c) (arg c) (idx c) (rem c) (Some e) true, true)
  | RangeAny, Val x =>                                                          (* 1426-1440 *)
    if single c then (c, false) else (Ctx (args c) (Some x) (Some i) (rem c) (exc c) true, true)
  end.

(** the same critical section: which of the holds are kept; future.hpp:1092-1093, 1431-1433 *)
Definition kept (v : variant) (i : nat) (o : outcome) (c : ctx) (j : nat) : bool :=
  match v, o with
  | PackAll, Exc _ => match exc c with None => false | Some _ => true end       (* 1092-1093 *)
  | RangeAll, Exc _ | RangeAny, Val _ => single c || (i =? j)                   (* 1431-1433 *)
  | _, _ => true
  end.

(** how the packaged function ends, future.hpp:1188-1214, 1333-1366, 1484-1489 *)
Inductive result :=
  | RCall (vs : list nat) (i : option nat)    (** f is called *)
  | RExc (e : nat)                            (** rethrow: the result is an exception and f is not called *)
  | RUb.                                      (** null exception_ptr rethrown, empty optional dereferenced *)

#[global] Instance result_eq : EqDecision result.
Proof. solve_decision. Defined.

(** the values of the arguments that are not void; future.hpp:1188-1198 *)
Definition passed (vd : nat -> bool) (l : list (option nat)) : list nat :=
  imap (fun i x => if vd i then [] else [default 0 x]) l ≫= id.
(** the function packaged: 1188-1214; execute, 1484-1489, with 1333-1366 *)
Definition apply (v : variant) (vd : nat -> bool) (c : ctx) : result :=
  match v with
  | PackAll =>                                                                  (* 1194-1198, 1188-1190 *)
    if existsb (fun x => match x with None => true | _ => false end) (args c)
    then match exc c with Some e => RExc e | None => RUb end
    else RCall (passed vd (args c)) None
  | PackAny =>                                                                  (* 1140-1143, 1207-1214 *)
    match exc c with
    | Some e => RExc e
    | None => match arg c with Some x => RCall [x] (idx c) | None => RUb end
    end
  | PackAnyVoid => match exc c with Some e => RExc e | None => RCall [] (idx c) end   (* 1181-1185 *)
  | RangeAll => match exc c with Some e => RExc e | None => RCall (passed vd (args c)) None end
  | RangeAny => match exc c with
                | Some e => RExc e
                | None => RCall (if vd 0 then [] else [default 0 (arg c)]) (Some (default 0 (idx c)))
                end
  end.

(** the continuation of an argument; future.hpp:1219-1228, 1505-1514 *)
Inductive cont :=
  | NotYet
  | Wait                        (** attached, not started *)
  | Begun (o : outcome)         (** started with outcome o *)
  | Lock (o : outcome)          (** _w.lock() was successful, 1220, 1507 *)
  | Done                        (** its critical section over *)
  | Gone                        (** started too late: the context is no more, 1221, 1508 *)
  | Lost.                       (** destroyed by the executor *)

(** [bool]: the context's mutex is held; only in PackAnyVoid, 1159 *)
Record st := St {
  conts : list cont;
  slots : list bool;            (** _holds: non-empty ones *)
  cx : ctx;
  att : option (nat * bool);    (** the attaching thread: next argument; whether recover has been called for it, 1219/1505 *)
  trig : list (nat * bool);     (** threads about to call _f *)
  tok : bool;                   (** _f has not been called *)
  body : option (nat * bool);   (** a thread in the function of the result *)
  fn : bool;                    (** the result's state still has the function, which refers to the context *)
  kept_r : bool                 (** the client holds the result *)
}.

(** what is observable of one call, future.hpp:1064-1611 *)
Inductive event :=
  | Arrived (i : nat) (o : outcome)
  | Result (r : result)
  | Dropped                     (** the client drops the result *)
  | LostCont (i : nat)
  | Ub.                         (** two calls of _f race, or the context changes while the function reads it *)

(** the shared_ptrs to the context: `shared` / `context` in the attaching thread, the function, and p in continuations; future.hpp:1218-1263, 1503-1531 *)
Definition alive (s : st) : bool :=
  match att s with Some _ => true | None => false end || fn s ||
  existsb (fun c => match c with Lock _ => true | _ => false end) (conts s) ||
  match trig s with [] => false | _ => true end || match body s with Some _ => true | None => false end.
(** the state of argument i's continuation (and with it the argument) is referred to by its hold or being executed; _holds, future.hpp:1068, 1229-1230, 1516-1517 *)
Definition held (s : st) (i : nat) : bool :=
  (alive s && default false (slots s !! i)) ||
  match att s with Some (j, true) => i =? j | _ => false end ||
  match conts s !! i with Some (Begun _) | Some (Lock _) => true | _ => false end ||
  existsb (fun p => p.1 =? i) (trig s) || match body s with Some (j, _) => i =? j | None => false end.
(** the mutex of the context is held while _f is called, future.hpp:1159 *)
Definition locked (s : st) : bool := existsb snd (trig s) || match body s with Some (_, b) => b | None => false end.

(** atomic steps, future.hpp:1216-1263, 1503-1562 *)
Inductive label :=
  | LRecover                    (** 1218-1228, 1505-1514 *)
  | LHold                       (** 1229-1230, 1516-1517 *)
  | LStart (i : nat) (o : outcome)        (** the executor starts the continuation; the argument's outcome is o *)
  | LLock (i : nat)             (** 1220-1221, 1507-1508 *)
  | LCrit (i : nat)             (** 1223-1227, 1509-1513, up to `if (run) _f()` *)
  | LCall                       (** if (run) _f(): packaged_task::operator(), 671-676; the function up to its end or to f *)
  | LEnd                        (** f has returned: 1012/1027 *)
  | LDrop                       (** the client drops the last reference to the result *)
  | LLose (i : nat).            (** the executor destroys the continuation without running it *)

(** update of the state (the assignments in future.hpp:1064-1611) *)
Definition upd_conts l (s : st) := St l (slots s) (cx s) (att s) (trig s) (tok s) (body s) (fn s) (kept_r s).

(** one step, future.hpp:1064-1263, 1375-1562 *)
Definition step (v : variant) (vd : nat -> bool) (s : st) (l : label) : option (st * list event) :=
  match l with
  | LRecover =>
    match att s with
    | Some (i, false) => Some (St (<[i := Wait]> (conts s)) (slots s) (cx s) (Some (i, true)) (trig s) (tok s) (body s) (fn s) (kept_r s), [])
    | _ => None
    end
  | LHold =>
    match att s with
    | Some (i, true) =>
      if locked s then None else
      Some (St (conts s) (<[i := true]> (slots s)) (cx s) (if S i =? length (conts s) then None else Some (S i, false)) (trig s) (tok s)
              (body s) (fn s) (kept_r s), [])
    | _ => None
    end
  | LStart i o =>
    match conts s !! i with
    | Some Wait => if held s i then Some (upd_conts (<[i := Begun o]> (conts s)) s, []) else None
    | _ => None
    end
  | LLock i =>
    match conts s !! i with
    | Some (Begun o) => Some (upd_conts (<[i := if alive s then Lock o else Gone]> (conts s)) s, [])
    | _ => None
    end
  | LCrit i =>
    match conts s !! i with
    | Some (Lock o) =>
      if locked s then None else
      let c' := (arrive v i o (cx s)).1 in
      Some (St (<[i := Done]> (conts s)) (imap (fun j b => b && kept v i o (cx s) j) (slots s)) c' (att s)
              (trig s ++ (if (arrive v i o (cx s)).2
                          then [(i, match v, o with PackAnyVoid, Exc _ => true | _, _ => false end)] else []))
              (tok s) (body s) (fn s) (kept_r s),
            Arrived i o :: match body s with Some _ => if bool_decide (apply v vd c' = apply v vd (cx s)) then [] else [Ub] | None => [] end)
    | _ => None
    end
  | LCall =>
    match trig s with
    | [] => None
    | (i, b) :: ts =>
      match body s with
      | Some _ => Some (s, [Ub])
      | None =>
        if tok s then
          if fn s then
            Some (St (conts s) (slots s) (cx s) (att s) ts false (Some (i, b)) (fn s) (kept_r s), [Result (apply v vd (cx s))])
          else Some (St (conts s) (slots s) (cx s) (att s) ts false None (fn s) (kept_r s), [])
        else Some (s, [Ub])
      end
    end
  | LEnd =>
    match body s with
    | Some _ => Some (St (conts s) (slots s) (cx s) (att s) (trig s) (tok s) None false (kept_r s), [])
    | None => None
    end
  | LDrop =>
    match att s with
    | Some _ => None                                                            (* the result is returned afterwards, 1262 *)
    | None =>
      if kept_r s then
        Some (St (conts s) (slots s) (cx s) (att s) (trig s) (tok s) (body s)
                (match body s with Some _ => fn s | None => false end) false, [Dropped])
      else None
    end
  | LLose i =>
    match conts s !! i with
    | Some Wait => if held s i then Some (upd_conts (<[i := Lost]> (conts s)) s, [LostCont i]) else None
    | _ => None
    end
  end.

(** executions: any sequence of steps (future.hpp:1064-1611) *)
Fixpoint run v vd (s : st) (ls : list label) : option (st * list event) :=
  match ls with
  | [] => Some (s, [])
  | l :: ls => match step v vd s l with
               | None => None
               | Some (s1, e1) => match run v vd s1 ls with None => None | Some (s2, e2) => Some (s2, e1 ++ e2) end
               end
  end.

(** a call with n > 0 arguments, after 1253-1258 / 1526-1531 *)
Definition init (n : nat) : st :=
  St (replicate n NotYet) (replicate n false) (ctx0 n) (Some (0, false)) [] true None true true.

(** over a range: the empty one is treated first, 1575-1580: f is called by the executor with context_result's default;
    1602-1604: future_with_broken_promise, 1033-1041 *)
Inductive empty_result := EBroken | ECall (vs : list nat).
(** when_all and when_any of an empty range, future.hpp:1575-1580, 1602-1604 *)
Definition empty_range (v : variant) : option empty_result :=
  match v with RangeAll => Some (ECall []) | RangeAny => Some EBroken | _ => None end.
