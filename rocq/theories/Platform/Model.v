(** Model of the executors and timers that hand a function to the operating system or to a toolkit.

    First part: when the Windows timer is due: /repo/include/stlab/concurrency/system_timer.hpp, 152-203.
    Second part: who owns the function in between, and the system's object for it: the same file, 88-114 (libdispatch), 126-178
    (Windows); /repo/include/stlab/concurrency/default_executor.hpp, 86-101 (libdispatch), 121-177 (Windows);
    /repo/include/stlab/concurrency/main_executor.hpp, 47-88 (Qt), 94-107 (libdispatch), 111-148 (Emscripten). The portable
    variants are in Verif.Executor and Verif.Timer.

    The system's functions enter by contract: what is handed over is called back once, at some time, in some thread, unless it is
    released before; CreateThreadpoolWork and CreateThreadpoolTimer may fail; releasing the members of a cleanup group waits for work
    that has been submitted, but drops timers that are not due. *)
From Coq Require Import List Bool ZArith.
From stdpp Require Import list.

(** ** when the timer is due *)
Open Scope Z_scope.
(** system_clock counts 100 ns since 1970; a duration is given in nanoseconds. duration_cast rounds towards zero; system_timer.hpp:185 *)
Definition when_ (now duration : Z) : Z := now + Z.quot duration 100.
(** system_clock::to_time_t; 186 *)
Definition time_t_ (w : Z) : Z := Z.quot w 10000000.
(** the fields of tm, year, month and day as the number of the day; system_timer.hpp:187-194 *)
Record tm := Tm { day : Z; hour : Z; minute : Z; second : Z }.
(** gmtime_s: fails outside of 1970 to [limit] (the end of the year 3000); 188 *)
Definition gmtime (limit t : Z) : option tm :=
  if (0 <=? t) && (t <=? limit) then Some (Tm (t / 86400) (t mod 86400 / 3600) (t mod 3600 / 60) (t mod 60)) else None.
(** wMilliseconds; 195-198 *)
Definition millis (w : Z) : Z := Z.rem (Z.quot w 10000) 1000.
(** SystemTimeToFileTime: 100 ns since 1601; 199 *)
Definition epoch : Z := 116444736000000000.
Definition system_to_file (d : tm) (ms : Z) : Z :=
  (((day d * 24 + hour d) * 60 + minute d) * 60 + second d) * 10000000 + ms * 10000 + epoch.
(** duration_to_FILETIME; 180-202 *)
Definition to_filetime (limit now duration : Z) : Z :=
  let w := when_ now duration in
  match gmtime limit (time_t_ w) with
  | Some d => system_to_file d (millis w)
  | None => 0                                                                 (* 183: ft = {0, 0} *)
  end.
(** SetThreadpoolTimer(timer, &file_time, 0, 0), called at [now]: the callback may begin at the time t of the system's clock; 167 *)
Definition may_begin (limit now duration t : Z) : Prop := now <= t /\ to_filetime limit now duration <= t + epoch.
Close Scope Z_scope.

(** ** who owns the function *)
Inductive api :=
  | GcdPool                       (** default_executor.hpp:86-101 *)
  | GcdTimer                      (** system_timer.hpp:46-114 *)
  | GcdMain                       (** main_executor.hpp:94-107 *)
  | WinPool                       (** default_executor.hpp:121-177 *)
  | WinTimer                      (** system_timer.hpp:120-178 *)
  | QtMain                        (** main_executor.hpp:47-88 *)
  | Emscripten.                   (** main_executor.hpp:111-148 *)
(** What happens to the function of the n-th call, and to the object that the system has for it (work, timer; with Qt: the receiver). *)
Inductive ev :=
  | New (n : nat)                 (** the function is moved to the heap *)
  | Make (n : nat)                (** the object is made *)
  | Throw (n : nat)               (** the call throws bad_alloc *)
  | Exec (n : nat)                (** the function is executed *)
  | Close (n : nat)               (** the object is released *)
  | Del (n : nat).                (** the function is deleted *)
Inductive phase := Pending | Ran | Dropped | Refused | Lost.
Record st := St { phases : list phase; shut : bool }.
(** before the first call *)
Definition st0 : st := St [] false.

Inductive label :=
  | Call (ok : bool)              (** operator(); whether the system makes the object *)
  | Fire (n : nat)                (** the system calls back *)
  | Shut.                         (** set_closed, system_timer.hpp:67-70; ~system_timer, 139-143; task_system::join, default_executor.hpp:144-149 *)

(** operator(); the lines are cited by case *)
Definition call (a : api) (n : nat) (ok : bool) : option (phase * list ev) :=
  match a, ok with
  | WinPool, true => Some (Pending, [New n; Make n])                          (* default_executor.hpp:157-158, 163-164 *)
  | WinPool, false => Some (Refused, [New n; Del n; Throw n])                 (* 160-162: the unique_ptr deletes it *)
  | WinTimer, true => Some (Pending, [New n; Make n])                         (* system_timer.hpp:156-157, 163-167 *)
  | WinTimer, false => Some (Refused, [New n; Throw n])                       (* 159-161: nothing owns it *)
  | QtMain, true => Some (Pending, [New n; Make n])                           (* main_executor.hpp:55, 83-86 *)
  | _, true => Some (Pending, [New n])                                        (* default_executor.hpp:93-95; system_timer.hpp:107-109; main_executor.hpp:101, 117 *)
  | _, false => None
  end.
(** the callbacks *)
Definition fire (a : api) (closed : bool) (n : nat) : phase * list ev :=
  match a with
  | WinPool => (Ran, [Exec n; Close n; Del n])                                (* default_executor.hpp:172-175 *)
  | WinTimer => (Ran, [Exec n; Del n])                                        (* system_timer.hpp:176-178 *)
  | QtMain => (Ran, [Exec n; Close n; Del n])                                 (* main_executor.hpp:73, 50-52: Qt deletes the event after its delivery *)
  | GcdTimer => if closed then (Dropped, [Del n]) else (Ran, [Exec n; Del n]) (* system_timer.hpp:98-101, 111-112 *)
  | _ => (Ran, [Exec n; Del n])                                               (* default_executor.hpp:96-98; main_executor.hpp:102-104, 138-143 *)
  end.
Definition is_pending (p : phase) : bool := match p with Pending => true | _ => false end.
(** ~system_timer: all timers are released, 140 *)
Definition lose (p : phase) : phase := match p with Pending => Lost | p => p end.
Definition release (n : nat) (p : phase) : list ev := match p with Refused => [] | _ => [Close n] end.

(** None: not possible. libdispatch's timer and the pools are not to be called when they have been shut (C71) *)
Definition step (a : api) (s : st) (l : label) : option (st * list ev) :=
  match l with
  | Call ok =>
    if shut s then None
    else match call a (length (phases s)) ok with
         | Some (p, e) => Some (St (phases s ++ [p]) false, e)
         | None => None
         end
  | Fire n =>
    match phases s !! n with
    | Some Pending => let '(p, e) := fire a (shut s) n in Some (St (<[n := p]> (phases s)) (shut s), e)
    | _ => None
    end
  | Shut =>
    if shut s then None
    else match a with
         | GcdTimer => Some (St (phases s) true, [])
         | WinTimer => Some (St (lose <$> phases s) true, concat (imap release (phases s)))
         | WinPool => if existsb is_pending (phases s) then None else Some (St (phases s) true, [])   (* waits for the work, 145 *)
         | _ => None
         end
  end.
Inductive runs (a : api) : st -> list ev -> Prop :=
  | runs_nil : runs a st0 []
  | runs_step s t l s' e : runs a s t -> step a s l = Some (s', e) -> runs a s' (t ++ e).
