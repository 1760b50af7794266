(** Model of /repo/include/stlab/concurrency/progress.hpp:17-108.

    One progress_tracker (its copies share the tracker_server) and any number of tracked functions.
    A tracked function either holds a weak_ptr to the server ([true]) or an empty one ([false], after
    having been moved from). Each operation performs at most one update of one atomic counter, so a
    concurrent execution is an interleaving of these operations. Counters are std::size_t and wrap.
    The callable itself is not represented: an invocation that returns normally is [Invoke], one that
    throws is [InvokeThrow]. *)
From stdpp Require Import gmap.
From Coq Require Import ZArith.
Open Scope Z_scope.

(** std::size_t arithmetic, progress.hpp:19-20 *)
Definition wrap (x : Z) : Z := x mod 2 ^ 64.

(** tracker_server and tracker_clients, progress.hpp:18-46 *)
Record state := State {
  alive : bool;            (** the server exists: some progress_tracker does, 84-85 *)
  task_number : Z;         (** _task_number, 19 *)
  done_tasks : Z;          (** _done_tasks, 20 *)
  clients : gmap nat bool  (** the live tracker_client objects, 44-46 *)
}.

(** the operations of tracker_client and progress_tracker, progress.hpp:49-104 *)
Inductive op :=
  | Wrap (i : nat)                  (** progress_tracker::operator(), 97-100; ctor 65-67 *)
  | Copy (i j : nat)                (** i(j), 49-52 *)
  | Move (i j : nat)                (** i(std::move(j)), 62 *)
  | CopyAssign (i j : nat)          (** i = j, 54-60 *)
  | MoveAssign (i j : nat)          (** i = std::move(j), 63 *)
  | Invoke (i : nat)                (** operator(), 75-80, returning *)
  | InvokeThrow (i : nat)           (** operator() whose function throws: 76 is left by the exception *)
  | Destroy (i : nat)               (** ~tracker_client, 69-72 *)
  | DropTracker.                    (** the last progress_tracker is destroyed *)

(** add_task / drop_task / task_done through [_p.lock()]; progress.hpp:36, 49-67 *)
Definition add_task (b : bool) (s : state) : state :=
  if b && alive s then State (alive s) (wrap (task_number s + 1)) (done_tasks s) (clients s) else s.
(** drop_task through _p.lock(), progress.hpp:34, 69-72 *)
Definition drop_task (b : bool) (s : state) : state :=
  if b && alive s then State (alive s) (wrap (task_number s - 1)) (done_tasks s) (clients s) else s.
(** task_done through _p.lock(), progress.hpp:27-32, 75-80 *)
Definition task_done (b : bool) (s : state) : state :=
  if b && alive s then State (alive s) (task_number s) (wrap (done_tasks s + 1)) (clients s) else s.
(** _p of client i, progress.hpp:44-46 *)
Definition put (i : nat) (b : bool) (s : state) : state :=
  State (alive s) (task_number s) (done_tasks s) (<[i := b]> (clients s)).

(** [None]: not a meaningful operation (an object that does not exist, or exists already); progress.hpp:49-104 *)
Definition step (s : state) (o : op) : option state :=
  match o with
  | Wrap i => match clients s !! i with
              | None => if alive s then Some (add_task true (put i true s)) else None
              | _ => None
              end
  | Copy i j => match clients s !! i, clients s !! j with
                | None, Some b => Some (add_task b (put i b s))
                | _, _ => None
                end
  | Move i j => match clients s !! i, clients s !! j with
                | None, Some b => Some (put j false (put i b s))
                | _, _ => None
                end
  | CopyAssign i j => match clients s !! i, clients s !! j with
                      | Some _, Some b => Some (add_task b (put i b s))
                      | _, _ => None
                      end
  | MoveAssign i j => match clients s !! i, clients s !! j with
                      | Some _, Some b => if decide (i = j) then Some s else Some (put j false (put i b s))
                      | _, _ => None
                      end
  | Invoke i => match clients s !! i with Some b => Some (task_done b s) | None => None end
  | InvokeThrow i => match clients s !! i with Some _ => Some s | None => None end
  | Destroy i => match clients s !! i with
                 | Some b => let s := drop_task b s in
                             Some (State (alive s) (task_number s) (done_tasks s) (delete i (clients s)))
                 | None => None
                 end
  | DropTracker => if alive s then Some (State false (task_number s) (done_tasks s) (clients s)) else None
  end.

(** executions: any sequence of steps (progress.hpp:17-108) *)
Fixpoint run (s : state) (os : list op) : option state :=
  match os with [] => Some s | o :: os => match step s o with Some s => run s os | None => None end end.
(** a new progress_tracker, progress.hpp:88 *)
Definition init : state := State true 0 0 ∅.
(** progress_tracker::steps, progress.hpp:102 *)
Definition steps (s : state) : Z := task_number s.
(** progress_tracker::completed, progress.hpp:104 *)
Definition completed (s : state) : Z := done_tasks s.
