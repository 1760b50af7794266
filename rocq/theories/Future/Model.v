(** Model of futures, packaged tasks and continuations: /repo/include/stlab/concurrency/future.hpp, the copyable
    shared_base (323-449), promise (569-606), shared (612-628), packaged_task (642-686), future (691-841), package
    (977-1031), async (1616-1628), value_ (1636-1655).

    A labelled transition system over shared states ("cells"), numbered in the order of creation. Whatever refers to a
    cell is a resource in a list: future handles, packaged_tasks, jobs held by executors, calls in progress, and the
    pending parts of destructors. A step is a critical section of a cell's mutex or an atomic operation on a reference
    count. Steps that the code performs in sequence on one thread (hand over continuations, then reset the function;
    destroy one member after the other) are independent pending resources here, done in any order: more executions
    than the code has.

    An executor takes a task and later invokes it, on any thread, or destroys it. immediate_executor is the case in
    which the invocation follows at once.

    User functions are arbitrary: their result is in the label that ends the call, and between its start and its end any
    other steps may happen, including uses of the futures captured. Values and exceptions are numbers. Moving a future
    handle is copying it and then destroying the source. Memory exhaustion, the move-only future (454-560, 846-974) and
    weak memory order are not modelled. *)
From Coq Require Import List Bool.
From stdpp Require Import list.

(** future.hpp:576-580, 657-662 *)
Inductive exn := Broken | Err (e : nat).                    (** future_error(broken_promise) | a user's exception *)
Inductive outcome := Val (v : nat) | Exc (e : exn).         (** _result | _exception, 330-331 *)

(** what a cell's function _f (613) does *)
Inductive fkind :=
  | User                          (** the function given to package/async *)
  | Then (a : nat)                (** then's lambda, 729-733; with the future a captured by recover, 348 *)
  | Recover (a : nat)             (** recover's lambda, 348-350 *)
  | Forward (c : option nat) (a : nat).   (** the lambda of 996-1003: captures the promise of c (None: used up); continuation
                                      of the inner future a *)

(** an entry of _then, 325, 334 *)
Inductive cont :=
  | KTask (d : nat)               (** a packaged_task of cell d with its executor, 356 *)
  | KSelf (c : nat)               (** 383: keeps c *)
  | KDet (k c : nat).             (** 374: a detached function, number k, with the future of c *)

(** shared<>, future.hpp:322-340, 606-640 *)
Record cell := Cell {
  out : option outcome;           (** _ready, _result, _exception *)
  moved : bool;                   (** the value has been moved out of _result, 419, 445 *)
  thens : list cont;              (** _then *)
  fn : option (fkind * list nat); (** _f and the futures captured by the user's function *)
  hold : option nat;              (** _hold, 989 *)
  strong : nat                    (** the shared_ptr count *)
}.

(** in the call of a packaged_task, future.hpp:671-676, 985-1028 *)
Inductive phase :=
  | Enter                         (** in packaged_task::operator(), the function not yet called *)
  | Body                          (** in the user's function; the promise is held by the lambda, 992/1021 *)
  | Ret                           (** in Forward's lambda, the promise set *)
  | Fin.                          (** after it, before _f.reset(), 1012/1027 *)

(** things that refer to cells or are about to use them, future.hpp:344-398, 569-690 *)
Inductive res :=
  | Fut (c : nat)                 (** a future handle of the client *)
  | Tok (c : nat)                 (** a packaged_task of the client (weak) *)
  | Job (c : nat)                 (** a packaged_task given to an executor (weak) *)
  | Frame (c : nat) (p : phase)   (** a call of p's operator(), 674; holds c *)
  | Hand (o : option nat) (l : list cont)  (** continuations taken out of a cell (held by o), being handed over: 395, 1646, 359 *)
  | Drop (c : nat)                (** a shared_ptr about to be released *)
  | TokDrop (c : nat)             (** a packaged_task about to be destroyed, 657 *)
  | PromDrop (c : nat)            (** a promise about to be destroyed, 576 *)
  | Det (k c : nat).              (** a detached function about to be called with the future of c *)

(** all the shared states and what refers to them, future.hpp:322-690; nk is ghost: detached functions so far *)
Record st := St { cs : list (option cell); rs : list res; nk : nat }.

(** future.hpp:985-1028 *)
Inductive fret := RVal (v : nat) | RExc (e : nat) | RFut (r : nat).     (** how a function ends *)
(** what is observable of futures, future.hpp:322-690, 693-860; Ub: undefined behaviour *)
Inductive event :=
  | New (c : nat) (k : fkind)
  | Handed (d : nat)                        (** a continuation is passed to its executor *)
  | Called (c : nat) (a : option outcome)   (** the user's function is called (with the antecedent's outcome) *)
  | Returned (c : nat) (r : fret)
  | Skipped (c : nat)                       (** invoked, but the user's function not called: the antecedent failed, or Forward *)
  | Abandoned (c : nat)                     (** the packaged_task is destroyed or given an exception instead of being invoked *)
  | Cancelled (c : nat)                     (** the packaged_task finds its cell gone *)
  | Lost (c : nat)                          (** the packaged_task is overwritten by move assignment *)
  | Resolved (c : nat) (o : outcome)
  | Got (c : nat) (o : option outcome)      (** get_try() / get_ready() *)
  | GotMoved (c : nat)                      (** ... reads a moved-from value *)
  | Detached (c : nat)                      (** detach() *)
  | DetachedF (k c : nat)                   (** detach(f), f being number k *)
  | DetCalled (k : nat) (o : outcome)
  | Freed (c : nat)
  | Ub.

(** _p.lock(), future.hpp:576, 657, 672: None if the shared state is gone *)
Definition get_cell (s : st) (c : nat) : option cell := match cs s !! c with Some (Some x) => Some x | _ => None end.
(** update of a shared state, future.hpp:322-340 *)
Definition put (c : nat) (x : cell) (s : st) : st := St (<[c := Some x]> (cs s)) (rs s) (nk s).
(** what is done later, future.hpp:344-398 *)
Definition add (l : list res) (s : st) : st := St (cs s) (rs s ++ l) (nk s).
(** a reference changes, future.hpp:569-690 *)
Definition set (i : nat) (r : res) (s : st) : st := St (cs s) (<[i := r]> (rs s)) (nk s).
(** a reference goes, future.hpp:569-690 *)
Definition rem (i : nat) (s : st) : st := St (cs s) (take i (rs s) ++ drop (S i) (rs s)) (nk s).

(** update of the state (the assignments in future.hpp:322-460, 569-690) *)
Definition set_strong (n : nat) (x : cell) := Cell (out x) (moved x) (thens x) (fn x) (hold x) n.
(** update of the state (the assignments in future.hpp:322-460, 569-690) *)
Definition set_thens (l : list cont) (x : cell) := Cell (out x) (moved x) l (fn x) (hold x) (strong x).
(** update of the state (the assignments in future.hpp:322-460, 569-690) *)
Definition set_fn f (x : cell) := Cell (out x) (moved x) (thens x) f (hold x) (strong x).
(** update of the state (the assignments in future.hpp:322-460, 569-690) *)
Definition set_hold h (x : cell) := Cell (out x) (moved x) (thens x) (fn x) h (strong x).
(** update of the state (the assignments in future.hpp:322-460, 569-690) *)
Definition set_moved (x : cell) := Cell (out x) true (thens x) (fn x) (hold x) (strong x).
(** update of the state (the assignments in future.hpp:322-460, 569-690) *)
Definition set_out (o : outcome) (x : cell) := Cell (Some o) (moved x) [] (fn x) (hold x) (strong x).

(** copy of a shared_ptr held by someone; future.hpp:693-720 *)
Definition incr (c : nat) (s : st) : st :=
  match get_cell s c with Some x => put c (set_strong (S (strong x)) x) s | None => s end.
(** std::move(future).get_ready() / get_try(): the value is moved out by the only user, 414, 419, 436, 445, 841, 845 *)
Definition take_out (c : nat) (s : st) : st :=
  match get_cell s c with
  | Some x => match out x with
              | Some (Val _) => if strong x =? 1 then put c (set_moved x) s else s
              | _ => s
              end
  | None => s
  end.
(** the value read has been moved out before, future.hpp:419, 445 *)
Definition got_moved (c : nat) (x : cell) : list event :=
  match out x with Some (Val _) => if moved x then [GotMoved c] else [] | _ => [] end.
(** the client has a handle of c, future.hpp:693-720 *)
Definition holds (s : st) (c : nat) : bool := existsb (fun r => match r with Fut d => c =? d | _ => false end) (rs s).

(** shared_ptr members of a function; future.hpp:348, 729-733, 996-1003 *)
Definition fn_refs (f : fkind * list nat) : list nat :=
  match f.1 with User => [] | Then a | Recover a | Forward _ a => [a] end ++ f.2.
(** the futures a running user function can use: those it captured and the one a recover function is given; future.hpp:348-350, 977-1031 *)
Definition fn_avail (f : fkind * list nat) : list nat :=
  match f.1 with Recover a => [a] | _ => [] end ++ f.2.
(** the destructor of a function, 626, 1012, 1027 *)
Definition fn_drop (f : option (fkind * list nat)) : list res :=
  match f with
  | None => []
  | Some f => (Drop <$> fn_refs f) ++ match f.1 with Forward (Some c) _ => [PromDrop c] | _ => [] end
  end.
(** the destructor of an entry of _then, future.hpp:325, 356, 374, 383 *)
Definition cont_drop (k : cont) : res :=
  match k with KTask d => TokDrop d | KSelf c => Drop c | KDet _ c => Drop c end.

(** _set_exception, 386-398 / set_value, 1639-1654: the critical section; [c] is alive, locked by the caller *)
Definition resolve (c : nat) (o : outcome) (s : st) : option (st * list event) :=
  match get_cell s c with
  | None => None
  | Some x => match out x with
              | Some _ => Some (s, [Ub])          (* data race on _result / second set *)
              | None => Some (add [Hand (Some c) (thens x)] (put c (set_strong (S (strong x)) (set_out o x)) s), [Resolved c o])
              end
  end.

(** a packaged_task with an exception: 657-662, 680-685; shared::set_exception, 624-627 *)
Definition abandon (c : nat) (e : exn) (s : st) : option (st * list event) :=
  match get_cell s c with
  | None => Some (s, [Cancelled c])
  | Some x => match resolve c (Exc e) (put c (set_fn None x) s) with
              | None => None
              | Some (s', ev) => Some (add (fn_drop (fn x)) s', Abandoned c :: ev)
              end
  end.
(** packaged_task::operator(), 671-676 *)
Definition invoke (c : nat) (s : st) : st * list event :=
  match get_cell s c with
  | None => (s, [Cancelled c])
  | Some x => (add [Frame c Enter] (put c (set_strong (S (strong x)) x) s), [])
  end.

(** make_shared of a shared state with function f, future.hpp:977-1031 *)
Definition fresh (f : fkind * list nat) (s : st) : st :=
  St (cs s ++ [Some (Cell None false [] (Some f) None 1)]) (rs s) (nk s).
(** copies of the futures captured, future.hpp:977-1031 *)
Definition incrs (l : list nat) (s : st) : st := foldr incr s l.

(** recover, 344-362, called with the executor for cell d, whose function has been made *)
Definition attach (a d : nat) (s : st) : option st :=
  match get_cell s a with
  | None => None
  | Some x => match out x with
              | None => Some (put a (set_thens (thens x ++ [KTask d]) x) s)
              | Some _ => Some (add [Hand None [KTask d]] s)
              end
  end.

(** what may happen to a resource, future.hpp:344-460, 569-690, 693-860 *)
Inductive act :=
  | AStep | ADrop | AInvoke | AExec | AExc (e : nat) | AOverwrite
  | AVal (v : nat) | AThrow (e : nat) | AFut (r : nat) | ANull | ACopy (x : nat) | AGet (mv : bool) | ADetach | ADetachF.
(** atomic steps, future.hpp:344-460, 569-690, 693-1031 *)
Inductive label :=
  | LPackage (caps : list nat)            (** package(ex, f), f capturing copies of the futures caps; 977-1031 *)
  | LThen (a : nat) (caps : list nat)     (** then, 727-783 *)
  | LRecover (a : nat) (caps : list nat)  (** recover, 785-825 *)
  | L (i : nat) (a : act).                (** something happens to resource i *)

(** a step of a call of a packaged_task, future.hpp:671-676, 977-1031 *)
Definition frame (s : st) (i c : nat) (p : phase) (a : act) : option (st * list event) :=
  match get_cell s c with
  | None => None
  | Some x =>
    match p, a with
    | Enter, AStep =>                                                   (* 617-618, 990-992, 1019-1022 *)
      match fn x with
      | None => Some (s, [Ub])                                          (* assert, 990/1019 *)
      | Some (User, _) => Some (set i (Frame c Body) s, [Called c None])
      | Some (Recover q, _) =>
        match get_cell s q with
        | None => Some (s, [Ub])
        | Some y => match out y with
                    | None => Some (s, [Ub])
                    | Some o => Some (set i (Frame c Body) s, [Called c (Some o)])
                    end
        end
      | Some (Then q, _) =>
        match get_cell s q with
        | None => Some (s, [Ub])
        | Some y =>
          match out y with
          | None => Some (s, [Ub])                                      (* assert, 416 *)
          | Some (Exc e) =>                                             (* 418, 1010/1025 *)
            match resolve c (Exc e) (set i (Frame c Fin) s) with
            | None => None
            | Some (s', ev) => Some (s', Skipped c :: ev)
            end
          | Some (Val v) =>                                             (* 413-420 *)
            Some (set i (Frame c Body) (take_out q s), got_moved q y ++ [Called c (Some (Val v))])
          end
        end
      | Some (Forward None _, _) => Some (s, [Ub])
      | Some (Forward (Some t) q, l) =>                                      (* 997-1002 *)
        match get_cell s q with
        | None => Some (s, [Ub])
        | Some y =>
          match out y with
          | None => Some (s, [Ub])
          | Some o =>
            let s1 := put c (set_fn (Some (Forward None q, l)) x) (set i (Frame c Ret) (take_out q s)) in
            let e := got_moved q y ++ [Skipped c] in
            match get_cell s1 t with
            | None => Some (s1, e)
            | Some _ => match resolve t o s1 with
                        | None => None
                        | Some (s', ev) => Some (s', e ++ ev)
                        end
            end
          end
        end
      end
    | Body, AVal v =>                                                   (* 1021-1023 *)
      match resolve c (Val v) (set i (Frame c Fin) s) with
      | None => None
      | Some (s', ev) => Some (s', Returned c (RVal v) :: ev)
      end
    | Body, AThrow e =>                                                 (* 1010, 1025 *)
      match resolve c (Exc (Err e)) (set i (Frame c Fin) s) with
      | None => None
      | Some (s', ev) => Some (s', Returned c (RExc e) :: ev)
      end
    | Body, AFut r =>                                                   (* 992-1003 *)
      if holds s r then
        let h := length (cs s) in
        let s1 := fresh (Forward (Some c) r, []) (incr r (put c (set_hold (Some h) x) (set i (Frame c Fin) s))) in
        match attach r h s1 with
        | None => None
        | Some s' => Some (s', [New h (Forward (Some c) r); Returned c (RFut r)])
        end
      else None
    | Body, ANull => Some (s, [Ub])                                     (* an invalid future: 818 dereferences null *)
    | Body, ACopy q =>                                                  (* the function copies a future it has captured or was given *)
      match fn x with
      | Some f => if existsb (fun r => q =? r) (fn_avail f) then Some (add [Fut q] (incr q s), []) else None
      | None => None
      end
    | Ret, AStep => resolve c (Val 0) (set i (Frame c Fin) s)           (* 1021-1023, result void *)
    | Fin, AStep => Some (add (fn_drop (fn x)) (put c (set_fn None x) (set i (Drop c) s)), [])     (* 1012/1027, 675 *)
    | _, _ => None
    end
  end.

(** a step that concerns resource r, future.hpp:344-460, 569-690, 693-860 *)
Definition act_on (s : st) (i : nat) (r : res) (a : act) : option (st * list event) :=
  match r, a with
  | Fut c, ADrop => Some (set i (Drop c) s, [])
  | Fut c, ACopy _ => Some (add [Fut c] (incr c s), [])
  | Fut c, AGet mv =>                                                  (* 422-448, 839-845 *)
    match get_cell s c with
    | None => None
    | Some x =>
      Some (if mv then set i (Drop c) (take_out c s) else s, got_moved c x ++ [Got c (out x)])
    end
  | Fut c, ADetach =>                                                  (* 380-384, 827 *)
    match get_cell s c with
    | None => None
    | Some x => match out x with
                | None => Some (put c (set_strong (S (strong x)) (set_thens (thens x ++ [KSelf c]) x)) s, [Detached c])
                | Some _ => Some (s, [Detached c])
                end
    end
  | Fut c, ADetachF =>                                                 (* 364-378, 830-833 *)
    match get_cell s c with
    | None => None
    | Some x =>
      let s1 := St (cs s) (rs s) (S (nk s)) in
      match out x with
      | None => Some (rem i (put c (set_thens (thens x ++ [KDet (nk s) c]) x) s1), [DetachedF (nk s) c])
      | Some _ => Some (set i (Det (nk s) c) s1, [DetachedF (nk s) c])
      end
    end
  | Tok c, AInvoke | Job c, AInvoke => Some (invoke c (rem i s))
  | Tok c, AExec => Some (set i (Job c) s, [])
  | Tok c, AExc e => abandon c (Err e) (rem i s)
  | Tok c, ADrop => abandon c Broken (rem i s)
  | Job c, ADrop =>
    match get_cell s c with
    | Some (Cell _ _ _ (Some (Forward _ _, _)) _ _) => None            (* immediate_executor invokes it at once, 995 *)
    | _ => abandon c Broken (rem i s)
    end
  | Tok c, AOverwrite => Some (rem i s, [Lost c])                      (* 668, defaulted *)
  | Frame c p, a => frame s i c p a
  | Hand o [], AStep => Some (match o with Some c => set i (Drop c) s | None => rem i s end, [])
  | Hand o (k :: l), AStep =>                                          (* 395-397, 1646-1647 *)
    let s1 := set i (Hand o l) s in
    match k with
    | KTask d => Some (add [Job d] s1, [Handed d])
    | KSelf c => Some (add [Drop c] s1, [])
    | KDet k c => Some (add [Det k c] s1, [])
    end
  | Drop c, AStep =>
    match get_cell s c with
    | None => None
    | Some x =>
      if strong x =? 1 then
        Some (add (fn_drop (fn x) ++ (cont_drop <$> thens x) ++ match hold x with Some h => [Drop h] | None => [] end)
                (rem i (St (<[c := None]> (cs s)) (rs s) (nk s))), [Freed c])
      else Some (rem i (put c (set_strong (pred (strong x)) x) s), [])
    end
  | TokDrop c, AStep => abandon c Broken (rem i s)
  | PromDrop c, AStep =>                                               (* 576-581 *)
    match get_cell s c with None => Some (rem i s, []) | Some _ => resolve c (Exc Broken) (rem i s) end
  | Det k c, AStep =>                                                  (* 366-368 *)
    match get_cell s c with
    | None => None
    | Some x => match out x with
                | None => Some (s, [Ub])
                | Some o => Some (set i (Drop c) s, [DetCalled k o])
                end
    end
  | _, _ => None
  end.

(** one step, future.hpp:344-460, 569-690, 693-1031 *)
Definition step (s : st) (l : label) : option (st * list event) :=
  match l with
  | LPackage caps =>
    if forallb (holds s) caps then
      let c := length (cs s) in
      Some (add [Fut c; Tok c] (fresh (User, caps) (incrs caps s)), [New c User])
    else None
  | LThen a caps =>
    if holds s a && forallb (holds s) caps then
      let d := length (cs s) in
      match attach a d (add [Fut d] (fresh (Then a, caps) (incrs (a :: caps) s))) with
      | None => None
      | Some s' => Some (s', [New d (Then a)])
      end
    else None
  | LRecover a caps =>
    if holds s a && forallb (holds s) caps then
      let d := length (cs s) in
      match attach a d (add [Fut d] (fresh (Recover a, caps) (incrs (a :: caps) s))) with
      | None => None
      | Some s' => Some (s', [New d (Recover a)])
      end
    else None
  | L i a => match rs s !! i with None => None | Some r => act_on s i r a end
  end.

(** executions: any sequence of steps (future.hpp:322-460, 569-690) *)
Fixpoint run (s : st) (ls : list label) : option (st * list event) :=
  match ls with
  | [] => Some (s, [])
  | l :: ls => match step s l with
               | None => None
               | Some (s1, e1) => match run s1 ls with None => None | Some (s2, e2) => Some (s2, e1 ++ e2) end
               end
  end.
(** no future made yet, future.hpp:977-1031 *)
Definition init : st := St [] [] 0.
