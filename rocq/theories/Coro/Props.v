(** Properties of coroutines that return futures and await them: C66, C67. *)
From Coq Require Import List Bool Arith Lia.
From stdpp Require Import list.
From Verif.Coro Require Import Model Spec Inv Final Trace Rest.

Definition ends_in (r : option (st * list event)) (f : st -> list event -> Prop) : Prop :=
  match r with Some (s, tr) => f s tr | None => False end.

(** ** a run that meets the hypotheses. The coroutine 0 awaits 1, catches its exception, and awaits 9, which the environment
    fulfils; 1 awaits 9 and throws if that is 5 *)
Definition ex_prog (c : nat) : option body :=
  match c with
  | 0 => Some (Await 1 (fun o => match o with Value v => Ret v | Error e => Await 9 (fun o => match o with Value v => Ret (e + v) | Error e => Throw e end) end))
  | 1 => Some (Await 9 (fun o => match o with Value 5 => Throw 100 | Value v => Ret v | Error e => Throw e end))
  | _ => None
  end.
(** 1 is suspended when 9 becomes ready; 0 attaches to 1 after 1 has finished *)
Definition ex_late : list label :=
  [LStart 1; LAct 0; LAct 0; LStart 0; LAct 0; LResolve 9 (Value 5); LAct 1; LAct 2; LAct 2] ++ repeat (LAct 0) 7.
(** 9 is ready before *)
Definition ex_early : list label := [LResolve 9 (Value 5); LAct 0; LStart 0; LAct 0; LAct 0; LStart 1] ++ repeat (LAct 0) 9.
Example ex_late_run : ends_in (run ex_prog init ex_late) (fun s tr =>
  rest s /\ outs s 0 = Some (Value 105) /\ outs s 1 = Some (Error 100) /\ outs s 9 = Some (Value 5) /\
  saw 0 tr = [(1, Error 100); (9, Value 5)] /\ saw 1 tr = [(9, Value 5)] /\ finished 0 tr = [Value 105] /\ freed 0 tr = [tt] /\ began 1 tr = [tt]).
Proof. by vm_compute. Qed.
Example ex_early_run : ends_in (run ex_prog init ex_early) (fun s tr =>
  rest s /\ outs s 0 = Some (Value 105) /\ outs s 9 = Some (Value 5) /\ saw 0 tr = [(1, Error 100); (9, Value 5)]).
Proof. by vm_compute. Qed.
Example ex_den : den ex_prog (fun f => if f =? 9 then Some (Value 5) else None) 0 (Value 105).
Proof.
  assert (forall f, f = 9 -> den ex_prog (fun f => if f =? 9 then Some (Value 5) else None) f (Value 5)) as N.
  { intros f ->. by apply den_ext. }
  eapply den_coro; [done|]. eapply eval_await with (o := Error 100).
  - eapply den_coro; [done|]. eapply eval_await; [by apply N|]. cbn. constructor.
  - cbn. eapply eval_await; [by apply N|]. cbn. apply (eval_ret _ _ 105).
Qed.
(** two coroutines that await each other: no result is defined, and they wait *)
Definition ex_cycle (c : nat) : option body := match c with 0 => Some (Await 1 (fun _ => Ret 1)) | 1 => Some (Await 0 (fun _ => Ret 2)) | _ => None end.
Example ex_cycle_run : ends_in (run ex_cycle init [LStart 0; LAct 0; LAct 0; LStart 1; LAct 0; LAct 0]) (fun s tr =>
  rest s /\ outs s 0 = None /\ outs s 1 = None /\ began 0 tr = [tt] /\ finished 0 tr = []).
Proof. by vm_compute. Qed.

(** ** C66: a coroutine has the result that its text says, in every schedule, and has it as soon as what it needs is there *)
Theorem C66_result prog ls s tr c o : run prog init ls = Some (s, tr) -> outs s c = Some o -> den prog (outs s) c o.
Proof. exact (results prog ls s tr c o). Qed.
Theorem C66_same prog ls ls' s s' tr tr' c o o' : run prog init ls = Some (s, tr) -> run prog init ls' = Some (s', tr') ->
  (forall f x x', prog f = None -> outs s f = Some x -> outs s' f = Some x' -> x = x') ->
  outs s c = Some o -> outs s' c = Some o' -> o = o'.
Proof. exact (same_results prog ls ls' s s' tr tr' c o o'). Qed.
Theorem C66_complete prog ls s tr c o : run prog init ls = Some (s, tr) -> rest s -> (forall d, prog d <> None -> began d tr <> []) ->
  den prog (outs s) c o -> outs s c = Some o.
Proof. exact (complete_tr prog ls s tr c o). Qed.
Print Assumptions C66_result.
Print Assumptions C66_same.
Print Assumptions C66_complete.

(** ** C67: a coroutine is resumed once for each await, with what it awaits; its frame is used until it is destroyed, once; nothing
    goes on for ever *)
Theorem C67_safe prog ls s tr : run prog init ls = Some (s, tr) -> bad s = false.
Proof. exact (safe prog ls s tr). Qed.
Theorem C67_awaits prog ls s tr c : run prog init ls = Some (s, tr) ->
  match prog c with
  | Some b => (exists r, follows b (saw c tr) r /\ forall o, o ∈ finished c tr -> r = match o with Value v => Ret v | Error e => Throw e end) /\
      Forall (fun p => outs s (fst p) = Some (snd p)) (saw c tr)
  | None => saw c tr = [] /\ finished c tr = []
  end.
Proof. exact (awaited_tr prog ls s tr c). Qed.
Theorem C67_frame prog ls s tr c : run prog init ls = Some (s, tr) ->
  length (began c tr) <= 1 /\ length (finished c tr) <= length (began c tr) /\ length (freed c tr) <= length (finished c tr) /\
  (rest s -> length (freed c tr) = length (finished c tr)).
Proof. exact (frames_tr prog ls s tr c). Qed.
Theorem C67_waits prog ls s tr c b : run prog init ls = Some (s, tr) -> rest s -> prog c = Some b -> began c tr <> [] -> finished c tr = [] ->
  exists f k, follows b (saw c tr) (Await f k) /\ outs s f = None.
Proof. exact (waits prog ls s tr c b). Qed.
Theorem C67_ends prog s : Acc (fun s' s => exists i ev, step prog s (LAct i) = Some (s', ev)) s.
Proof. exact (ends_always prog s). Qed.
Theorem C67_rest prog s : rest s <-> forall i, step prog s (LAct i) = None.
Proof. exact (rest_iff prog s). Qed.
Print Assumptions C67_safe.
Print Assumptions C67_awaits.
Print Assumptions C67_frame.
Print Assumptions C67_waits.
Print Assumptions C67_ends.
Print Assumptions C67_rest.
