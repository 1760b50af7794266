(** Properties of networks with any buffer sizes. *)
From Coq Require Import List Bool ZArith.
From stdpp Require Import list.
From Verif.Channel Require Import Queue Model Spec Sched AnyProof AnyTerm Props.

(** ** C82: with any buffer sizes, no message is lost, doubled or invented, in calls or (until a process closes) in results; only the order changes *)
Theorem C82_calls ls s tr i n : run init ls = Some (s, tr) -> nodes s !! i = Some n ->
  exists taken pending, served (strat n) (length (ups n)) (fun p => sent i p tr) taken /\ taken ≡ₚ handled i tr ++ pending /\ (jobs s = [] -> pending = []).
Proof. exact (any_calls ls s tr i n). Qed.
Theorem C82_results ls s tr i : run init ls = Some (s, tr) -> length (results i tr) <= length (invoked i tr) /\ (jobs s = [] -> length (results i tr) = length (invoked i tr)).
Proof. exact (any_results ls s tr i). Qed.
Theorem C82_flow ls s tr d nd p u : run init ls = Some (s, tr) -> nodes s !! d = Some nd -> ups nd !! p = Some (Some u) -> exists tr2, since u d p tr tr2 /\ sent d p tr ⊆+ results u tr2 /\
  (Closed u ∉ tr -> deadb d s = false -> jobs s = [] -> sent d p tr ≡ₚ results u tr2).
Proof. exact (any_flow ls s tr d nd p u). Qed.
(** Three messages, calls in the wrong order and at once, through a buffer of size two: no message or result is missing. *)
Definition after (ls : list label) : list label := match run init ls with Some (s, _) => ls ++ settle 500 s | None => [] end.
Example C82_ex : match run init (after (overtaking 2)) with
  | Some (s, tr) => jobs s = [] /\ dead s = [] /\ closed 0 tr = [] /\ map bsize (nodes s) = [1; 2] /\ map ups (nodes s) = [[None]; [Some 0]] /\
      sent 0 0 tr = [Val 1; Val 2; Val 3] /\ handled 0 tr = [[Val 1]; [Val 3]; [Val 2]] /\ sent 1 0 tr = [Val 1; Val 2; Val 3] /\ handled 1 tr = [[Val 1]; [Val 2]; [Val 3]]
  | None => False end.
Proof. vm_compute. auto 10. Qed.

(** ** closing, with another buffer size than one: C43, C44 and C46 fail there too *)
(** With buffers of size one, the function object of a process is destroyed when none of its jobs executes it or has yet to. *)
Theorem C44_destroyed ls s tr t1 t2 i rest p : Forall InvRun.buf1 ls -> run init ls = Some (s, tr) -> jobs s !! t1 = Some (i, JClear rest) -> jobs s !! t2 = Some (i, p) ->
  match p with JInvoke _ | JSusp _ _ _ | JSend _ _ | JPend | JCts _ _ (Some _) => False | _ => True end.
Proof. exact (closing_alone ls s tr t1 t2 i rest p). Qed.
Example C44_destroyed_ex : let ls := plan [LNew; LPipe 0 true 1; LReady 0; LSend 0 (Val 1)] init ++ [LDropS 0; LPend 0; LJob 0; LJob 0; LJob 0; LJob 0; LJob 0] in
  Forall InvRun.buf1 ls /\ match run init ls with Some (s, tr) => jobs s = [(0, JClear [])] /\ handled 0 tr = [[Val 1]] | None => False end.
Proof. split; [vm_compute; repeat constructor|]. vm_compute. auto. Qed.
(** With buffers of size two, it is destroyed while it is executed (undefined behaviour), what it returns is sent to nobody; *)
Definition closed_early : list label := overtaking 2 ++ [LDropS 0; LPend 0; LRet 2 (Val 3)] ++ repeat (LJob 2) 10.
Theorem C44_destroyed_refuted : exists s tr, run init closed_early = Some (s, tr) /\ jobs s !! 2 = Some (0, JClear []) /\ jobs s !! 1 = Some (0, JInvoke [Val 2]).
Proof. vm_compute. do 2 eexists. repeat split; reflexivity. Qed.
Theorem C46_buffer_refuted : exists ls s tr, run init ls = Some (s, tr) /\ at_rest s /\ dead s = [] /\ all_ready s /\ snd_h s = [] /\ map ups (nodes s) = [[None]; [Some 0]] /\
  since 0 1 0 tr (tail tr) /\ results 0 tr = [Val 1; Val 3; Val 2] /\ sent 1 0 tr = [Val 1; Val 3] /\ closed 0 tr = [tt] /\ closed 1 tr = [tt].
Proof.
  exists (after (closed_early ++ [LJob 2; LRet 1 (Val 2)])). vm_compute. do 2 eexists. repeat split; try reflexivity; [|by exists []].
  intros i n b Hn V H. repeat (apply elem_of_cons in H as [H|H]; [injection H as -> ->|]); [done|by injection Hn as <-|by apply elem_of_nil in H].
Qed.
(** or it is called although it has been destroyed; *)
Theorem C43_buffer_ub_refuted : exists ls s tr, run init ls = Some (s, tr) /\ tr = removelast tr ++ [Ub] /\ closed 0 tr = [tt].
Proof. exists (removelast (overtaking 2) ++ [LDropS 0; LPend 0; LRet 2 (Val 3)] ++ repeat (LJob 2) 11 ++ [LJob 1]). vm_compute. do 2 eexists. repeat split; reflexivity. Qed.
(** or the channel is never closed: of two jobs that find the queue empty, the second revokes what the first has decided. *)
Definition not_closed : list label := overtaking 2 ++ [LDropS 0; LPend 0; LRet 2 (Val 3); LRet 1 (Val 2)] ++ repeat (LJob 2) 5 ++ repeat (LJob 1) 5 ++ [LJob 1; LJob 2].
Theorem C46_buffer_open_refuted : exists ls s tr, run init ls = Some (s, tr) /\ at_rest s /\ dead s = [] /\ snd_h s = [] /\ 
  sent 1 0 tr = [Val 1; Val 3; Val 2] /\ handled 1 tr = [[Val 1]; [Val 3]; [Val 2]] /\ closed 0 tr = [] /\ closed 1 tr = [].
Proof. exists (after not_closed). vm_compute. do 2 eexists. repeat split; reflexivity. Qed.

(** ** C56 with any buffer sizes: networks come to rest, unless their behaviour is undefined *)
Theorem C56_any_settles ls s tr : run init ls = Some (s, tr) -> exists b, forall ls' s' tr', Forall (fun l => internal l = true) ls' -> run s ls' = Some (s', tr') -> Ub ∉ tr' ->
  length ls' <= b /\ (at_rest s' \/ exists l, internal l = true /\ is_Some (step s' l)).
Proof. exact (any_settles ls s tr). Qed.
Theorem C56_any_progress ls s tr : run init ls = Some (s, tr) ->
  (forall k, k < length (pends s) -> is_Some (step s (LPend k))) /\
  (forall t i ms o, jobs s !! t = Some (i, JInvoke ms) -> is_Some (step s (LRet t o))) /\
  (forall t i p, jobs s !! t = Some (i, p) -> (forall ms, p <> JInvoke ms) -> is_Some (step s (LJob t))).
Proof. exact (any_progress ls s tr). Qed.
Theorem C56_any_rest ls s tr : run init ls = Some (s, tr) -> exists ls' s' tr', Forall (fun l => internal l = true) ls' /\ run s ls' = Some (s', tr') /\ (at_rest s' \/ Ub ∈ tr').
Proof. exact (any_rest ls s tr). Qed.
(** two jobs of one process at once, a buffer of size two; then all the steps it takes to come to rest, without undefined behaviour *)
Example C56_any_ex : match run init (overtaking 2) with
  | Some (s, _) => map fst (jobs s) = [1; 0; 0] /\ forallb internal (settle 500 s) = true /\ length (settle 500 s) = 36 /\
      match run s (settle 500 s) with Some (s', tr') => at_rest s' /\ forallb (fun e => match e with Ub => false | _ => true end) tr' = true | None => False end
  | None => False end.
Proof. vm_compute. auto 10. Qed.

Print Assumptions C82_calls.
Print Assumptions C82_results.
Print Assumptions C82_flow.
Print Assumptions C44_destroyed.
Print Assumptions C44_destroyed_refuted.
Print Assumptions C46_buffer_refuted.
Print Assumptions C43_buffer_ub_refuted.
Print Assumptions C46_buffer_open_refuted.
Print Assumptions C56_any_settles.
Print Assumptions C56_any_progress.
Print Assumptions C56_any_rest.
