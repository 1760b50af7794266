(** C43-C51, C56: channels. [run init ls = Some (s, tr)]: the clients and the threads of the executors have taken the steps ls, which
    has led to the state s and caused the events tr. [Forall buf1 ls]: every process has the default buffer size. *)
From Coq Require Import List Bool ZArith Arith.
From stdpp Require Import list.
From Verif.Channel Require Import Queue Model Spec Exact Facts InvRun Reach Term Sched.

(** ** C43: messages are received in order and exactly once *)
(** A process with one upstream or fed by the client deals with the messages one by one, in the order in which they were sent. *)
Theorem C43_order ls s tr i n : Forall buf1 ls -> run init ls = Some (s, tr) -> nodes s !! i = Some n -> strat n = Default ->
  exists ms rest, handled i tr = map (fun m => [m]) ms /\ sent i 0 tr = ms ++ rest.
Proof. exact (fun B R => f_fifo ls s tr B R i n). Qed.
(** What is sent to it is what its upstream process has produced since it was attached, in that order, up to some point. *)
Theorem C43_flow ls s tr d nd p u : Forall buf1 ls -> run init ls = Some (s, tr) -> nodes s !! d = Some nd -> ups nd !! p = Some (Some u) ->
  exists tr2, since u d p tr tr2 /\ sent d p tr `prefix_of` results u tr2.
Proof. exact (fun B R => f_flow ls s tr B R d nd p u). Qed.
(** A sender sends, as long as its process exists. *)
Theorem C43_send ls s tr h i m : Forall buf1 ls -> run init ls = Some (s, tr) -> snd_h s !! h = Some i -> deadb i s = false ->
  exists s', step s (LSend h m) = Some (s', [Appended i 0 m]).
Proof. exact (fun B R => f_send ls s tr B R h i m). Qed.
(** When all is done they have all been received. *)
Theorem C43_all ls s tr i n : Forall buf1 ls -> run init ls = Some (s, tr) -> tidy_run init ls = true -> at_rest s -> dead s = [] -> all_ready s ->
  (forall i, ~ refused i tr) -> (forall i n, nodes s !! i = Some n -> strat n = Default \/ strat n = Unordered) -> nodes s !! i = Some n ->
  drained (strat n) (length (ups n)) (fun p => sent i p tr) (handled i tr).
Proof. exact (fun B R T Re D Rd NR K => f_rest_all ls s tr B R T Re D Rd NR (f_simple s tr K) i n). Qed.
Theorem C43_no_ub ls s tr : Forall buf1 ls -> run init ls = Some (s, tr) -> Ub ∉ tr.
Proof. exact (fun B R => f_no_ub ls s tr B R). Qed.
(** a channel and a process: three messages, the sender disposed of, all ends well *)
Definition line : list label := plan [LNew; LPipe 0 true 1; LReady 0; LSend 0 (Val 1); LSend 0 (Val 2); LSend 0 (Val 3); LDropS 0] init.
Example C43_ex : usual line = true /\ match run init line with
  | Some (s, tr) => map strat (nodes s) = [Default; Default] /\ map ups (nodes s) = [[None]; [Some 0]] /\ snd_h s = [] /\
      sent 1 0 tr = [Val 1; Val 2; Val 3] /\ handled 1 tr = [[Val 1]; [Val 2]; [Val 3]] /\ closed 1 tr = [tt]
  | None => False end.
Proof. vm_compute. auto 10. Qed.
(** With another buffer size the channel may call the process with a later message before an earlier one, in two threads at once. *)
Definition overtaking (b : nat) : list label :=
  [LNew; LPipe 0 true b; LReady 0; LPend 0; LSend 0 (Val 1); LSend 0 (Val 2); LSend 0 (Val 3); LJob 0; LJob 0; LRet 0 (Val 1); LJob 0; LJob 0; LJob 0;
   LJob 0; LJob 0; LJob 1; LJob 0; LJob 0; LJob 0; LJob 2; LJob 2; LJob 1].
Theorem C43_buffer_refuted : exists ls s tr n, run init ls = Some (s, tr) /\ nodes s !! 0 = Some n /\ strat n = Default /\
  sent 0 0 tr = [Val 1; Val 2; Val 3] /\ handled 0 tr = [[Val 1]; [Val 3]; [Val 2]].
Proof. exists (overtaking 2). vm_compute. do 3 eexists. repeat split; reflexivity. Qed.

(** ** C44: a process never runs concurrently with itself *)
Theorem C44_one ls s tr t1 t2 i m1 m2 : Forall buf1 ls -> run init ls = Some (s, tr) ->
  jobs s !! t1 = Some (i, JInvoke m1) -> jobs s !! t2 = Some (i, JInvoke m2) -> t1 = t2.
Proof. exact (fun B R => f_one ls s tr B R t1 t2 i m1 m2). Qed.
(** At any time all calls but at most the last have returned. *)
Theorem C44_alternate ls s tr i : Forall buf1 ls -> run init ls = Some (s, tr) -> length (results i tr) <= length (invoked i tr) <= S (length (results i tr)).
Proof. exact (fun B R => f_exclusive ls s tr B R i). Qed.
Example C44_ex : let ls := [LNew; LPipe 0 true 1; LReady 0; LPend 0; LSend 0 (Val 1); LSend 0 (Val 2); LJob 0; LJob 0] in
  Forall buf1 ls /\ match run init ls with Some (s, tr) => jobs s = [(0, JInvoke [Val 1])] /\ length (invoked 0 tr) = 1 /\ results 0 tr = [] | None => False end.
Proof. split; [repeat constructor|]. vm_compute. auto. Qed.
(** Not so with another buffer size downstream, or none. *)
Theorem C44_buffer_refuted : forall b, b = 0 \/ b = 2 -> exists s tr, run init (overtaking b) = Some (s, tr) /\
  jobs s !! 1 = Some (0, JInvoke [Val 2]) /\ jobs s !! 2 = Some (0, JInvoke [Val 3]).
Proof. intros b [->| ->]; vm_compute; do 2 eexists; repeat split; reflexivity. Qed.

(** ** C45: no stall *)
(** When nothing is going on, every process has dealt with all it can deal with, or what it produces flows into a merge that has,
    and holds messages that cannot be completed. *)
Theorem C45_rest ls s tr i n : Forall buf1 ls -> run init ls = Some (s, tr) -> tidy_run init ls = true -> at_rest s -> dead s = [] -> all_ready s ->
  (forall i, ~ refused i tr) -> nodes s !! i = Some n ->
  drained (strat n) (length (ups n)) (fun p => sent i p tr) (handled i tr) \/ exists d nd, leads s i d /\ nodes s !! d = Some nd /\ left_over d nd tr.
Proof. exact (fun B R T Re D Rd NR => f_rest ls s tr B R T Re D Rd NR i n). Qed.
Theorem C45_all ls s tr i n : Forall buf1 ls -> run init ls = Some (s, tr) -> tidy_run init ls = true -> at_rest s -> dead s = [] -> all_ready s ->
  (forall i, ~ refused i tr) -> (forall d nd, nodes s !! d = Some nd -> ~ left_over d nd tr) -> nodes s !! i = Some n ->
  drained (strat n) (length (ups n)) (fun p => sent i p tr) (handled i tr).
Proof. exact (fun B R T Re D Rd NR NL => f_rest_all ls s tr B R T Re D Rd NR NL i n). Qed.
(** two channels zipped, one message more in the first than in the second; then one more than that *)
Definition zipped (extra : bool) : list label :=
  plan ([LNew; LNew; LMerge Zip [0; 1] true; LReady 0; LReady 1; LSend 0 (Val 1); LSend 1 (Val 2); LSend 0 (Val 3)] ++ if extra then [LSend 0 (Val 4); LSend 0 (Val 5)] else []) init.
Example C45_ex : usual (zipped true) = true /\ match run init (zipped true) with
  | Some (s, tr) => map strat (nodes s) = [Default; Default; Zip] /\ handled 2 tr = [[Val 1; Val 2]] /\ sent 2 0 tr = [Val 1; Val 3] /\ sent 2 1 tr = [Val 2] /\
      handled 0 tr = [[Val 1]; [Val 3]] /\ sent 0 0 tr = [Val 1; Val 3; Val 4; Val 5]
  | None => False end.
Proof. vm_compute. auto 10. Qed.
(** Destroying one of two processes attached to a channel stalls the channel for the other one. *)
Theorem C45_destroy_refuted : exists ls s tr n, Forall buf1 ls /\ run init ls = Some (s, tr) /\ tidy_run init ls = true /\ at_rest s /\ nodes s !! 0 = Some n /\ strat n = Default /\
  sent 0 0 tr = [Val 1; Val 2; Val 3] /\ handled 0 tr = [[Val 1]; [Val 2]].
Proof.
  exists (plan [LNew; LPipe 0 true 1; LPipe 0 true 1; LReady 0; LSend 0 (Val 1); LDropR 1; LDestroy 1; LSend 0 (Val 2); LSend 0 (Val 3)] init).
  do 3 eexists. split; [vm_compute; repeat constructor|]. split; [vm_compute; reflexivity|]. split; [vm_compute; reflexivity|]. vm_compute. auto 10.
Qed.
(** So does copying a receiver that is ready, and assigning to a receiver that is not. *)
Theorem C45_receiver_refuted : exists ls1 s1 tr1 ls2 s2 tr2, Forall buf1 ls1 /\ run init ls1 = Some (s1, tr1) /\ at_rest s1 /\ sent 0 0 tr1 = [Val 1] /\ handled 0 tr1 = [] /\ rcv_h s1 = [] /\
  Forall buf1 ls2 /\ run init ls2 = Some (s2, tr2) /\ at_rest s2 /\ sent 0 0 tr2 = [Val 1] /\ handled 0 tr2 = [] /\ rcv_h s2 = [].
Proof.
  exists (plan [LNew; LPipe 0 true 1; LReady 0; LCopyR 0; LDropR 0; LDropR 1; LDropR 0; LSend 0 (Val 1)] init). do 2 eexists. exists (plan [LNew; LPipe 0 true 1; LOverR 0; LDropR 0; LSend 0 (Val 1)] init). do 2 eexists.
  split; [vm_compute; repeat constructor|]. split; [vm_compute; reflexivity|]. do 4 (split; [vm_compute; auto|]). split; [vm_compute; repeat constructor|]. split; [vm_compute; reflexivity|]. vm_compute. auto 10.
Qed.

(** ** C46: closing *)
Theorem C46_once ls s tr i : Forall buf1 ls -> run init ls = Some (s, tr) -> length (closed i tr) <= 1.
Proof. exact (fun B R => f_closed_once ls s tr B R i). Qed.
(** Who closes has dealt with all that was sent to it, and its function has returned. *)
Theorem C46_complete ls s tr i : Forall buf1 ls -> run init ls = Some (s, tr) -> Closed i ∈ tr -> exists n, nodes s !! i = Some n /\
  drained (strat n) (length (ups n)) (fun p => sent i p tr) (handled i tr) /\ length (results i tr) = length (invoked i tr).
Proof. exact (fun B R => f_closing ls s tr B R i). Qed.
(** All its results have been sent on to those that exist and were attached in time. *)
Theorem C46_delivered ls s tr u d nd p : Forall buf1 ls -> run init ls = Some (s, tr) -> Closed u ∈ tr -> nodes s !! d = Some nd -> deadb d s = false ->
  ups nd !! p = Some (Some u) -> exists tr2, since u d p tr tr2 /\ sent d p tr = results u tr2.
Proof. exact (fun B R => f_closing_down ls s tr B R u d nd p). Qed.
(** Nothing is sent to it, and it does nothing, afterwards. *)
Theorem C46_last ls s tr i t1 t2 : Forall buf1 ls -> run init ls = Some (s, tr) -> tr = t1 ++ Closed i :: t2 ->
  (forall p, sent i p t2 = []) /\ handled i t2 = [] /\ results i t2 = [].
Proof. exact (fun B R => f_after ls s tr B R i t1 t2). Qed.
(** It closes only when its senders are gone: the upstream processes have closed, the clients have disposed of theirs. *)
Theorem C46_upstream ls s tr d nd p u : Forall buf1 ls -> run init ls = Some (s, tr) -> Closed d ∈ tr -> nodes s !! d = Some nd -> deadb d s = false ->
  ups nd !! p = Some (Some u) -> Closed u ∈ tr.
Proof. exact (fun B R => f_closing_up ls s tr B R d nd p u). Qed.
Theorem C46_clients ls s tr i : Forall buf1 ls -> run init ls = Some (s, tr) -> Closed i ∈ tr -> deadb i s = false -> i ∉ snd_h s.
Proof. exact (fun B R => f_closing_clients ls s tr B R i). Qed.
(** When the clients have disposed of all senders and nothing is going on any more, every process has closed. *)
Theorem C46_all_closed ls s tr : Forall buf1 ls -> run init ls = Some (s, tr) -> tidy_run init ls = true -> at_rest s -> dead s = [] -> all_ready s ->
  (forall i, ~ refused i tr) -> (forall d nd, nodes s !! d = Some nd -> ~ left_over d nd tr) -> snd_h s = [] -> no_late tr ->
  forall i, i < length (nodes s) -> closed i tr = [tt].
Proof. exact (fun B R T Re D Rd NR NL => f_rest_closed ls s tr B R T Re D Rd NR NL). Qed.
(** two channels merged, the merge piped into a process *)
Definition merged : list label :=
  plan [LNew; LNew; LMerge Unordered [0; 1] false; LPipe 2 true 1; LReady 0; LReady 1; LReady 2; LSend 0 (Val 1); LSend 1 (Val 3); LDropS 1; LSend 0 (Val 2); LDropS 0] init.
Example C46_ex : usual merged = true /\ match run init merged with
  | Some (s, tr) => map strat (nodes s) = [Default; Default; Unordered; Default] /\ snd_h s = [] /\ map (fun i => closed i tr) [0; 1; 2; 3] = [[tt]; [tt]; [tt]; [tt]] /\
      handled 3 tr = [[Val 1]; [Val 3]; [Val 2]]
  | None => False end.
Proof. vm_compute. auto 10. Qed.
(** A channel with more messages than the other that it is zipped with never closes, and neither does the zip. *)
Theorem C46_zip_refuted : exists ls s tr, Forall buf1 ls /\ run init ls = Some (s, tr) /\ tidy_run init ls = true /\ at_rest s /\ dead s = [] /\ all_ready s /\
  (forall i, ~ refused i tr) /\ no_late tr /\ snd_h s = [] /\ map (fun i => closed i tr) [0; 1; 2] = [[]; [tt]; []].
Proof.
  set (ls := plan [LNew; LNew; LMerge Zip [0; 1] true; LReady 0; LReady 1; LSend 0 (Val 1); LSend 0 (Val 2); LSend 1 (Val 3); LDropS 1; LDropS 0] init).
  assert (usual ls = true) as U by (vm_compute; reflexivity). destruct (usual_ok ls U) as (s & tr & H1 & H2 & H3 & H4 & H5 & H6 & H7 & H8).
  exists ls, s, tr. do 8 (split; [assumption|]). clear -H2. vm_compute in H2. injection H2 as <- <-. vm_compute. auto.
Qed.
(** A process attached to a channel that has closed is never told. *)
Theorem C46_late_refuted : exists ls s tr n, Forall buf1 ls /\ run init ls = Some (s, tr) /\ tidy_run init ls = true /\ at_rest s /\ snd_h s = [] /\
  nodes s !! 1 = Some n /\ ups n = [Some 0] /\ closed 0 tr = [tt] /\ closed 1 tr = [].
Proof.
  exists (plan [LNew; LReady 0; LDropS 0; LMerge Unordered [0] true] init). do 3 eexists. split; [vm_compute; repeat constructor|].
  split; [vm_compute; reflexivity|]. split; [vm_compute; reflexivity|]. vm_compute. auto 10.
Qed.

(** ** C47: zip *)
Theorem C47_aligned ls s tr d nd k ms : Forall buf1 ls -> run init ls = Some (s, tr) -> nodes s !! d = Some nd -> strat nd = Zip -> handled d tr !! k = Some ms ->
  length ms = length (ups nd) /\
  forall p m, ms !! p = Some m -> sent d p tr !! k = Some m /\ forall u, ups nd !! p = Some (Some u) -> exists tr2, since u d p tr tr2 /\ results u tr2 !! k = Some m.
Proof. exact (fun B R => f_zip ls s tr B R d nd k ms). Qed.
(** When nothing is going on, and no merge further downstream waits, some upstream has no further message. *)
Theorem C47_prompt ls s tr d nd : Forall buf1 ls -> run init ls = Some (s, tr) -> tidy_run init ls = true -> at_rest s -> dead s = [] -> all_ready s ->
  (forall i, ~ refused i tr) -> nodes s !! d = Some nd -> strat nd = Zip ->
  (exists p, p < length (ups nd) /\ length (sent d p tr) = length (handled d tr)) \/ exists e ne, leads s d e /\ nodes s !! e = Some ne /\ left_over e ne tr.
Proof. exact (fun B R T Re D Rd NR Hd K => eq_rect _ (fun k => drained k _ _ _ \/ _) (f_rest ls s tr B R T Re D Rd NR d nd Hd) _ K). Qed.
Example C47_ex : usual (zipped true) = true /\ match run init (zipped true) with
  | Some (s, tr) => map ups (nodes s) = [[None]; [None]; [Some 0; Some 1]] /\ handled 2 tr !! 0 = Some [Val 1; Val 2] /\ results 0 tr = [Val 1; Val 3] /\ results 1 tr = [Val 2]
  | None => False end.
Proof. vm_compute. auto 10. Qed.

(** With another buffer size downstream of the zip, the third pair may be dealt with before the second. *)
Definition merge_busy (k : strategy) (b n : nat) : list label :=
  [LNew; LNew; LMerge k [0; 1] false; LPipe 2 true b; LReady 0; LReady 1; LReady 2] ++ map (fun i => LSend 0 (Val i)) (seq 1 n) ++ map (fun i => LSend 1 (Val i)) (seq 11 n).
Theorem C47_buffer_refuted : exists ls s tr n, run init ls = Some (s, tr) /\ nodes s !! 2 = Some n /\ strat n = Zip /\
  handled 2 tr = [[Val 1; Val 11]; [Val 3; Val 13]] /\ sent 2 0 tr = [Val 1; Val 2; Val 3] /\ sent 2 1 tr = [Val 11; Val 12; Val 13].
Proof.
  exists (merge_busy Zip 3 3 ++
    [LPend 2; LPend 1; LPend 0; LJob 0; LJob 0; LRet 0 (Val 1); LJob 0; LJob 0; LJob 0; LJob 0; LJob 2; LJob 1; LJob 0; LJob 1; LJob 0; LRet 0 (Val 11); LJob 1; LJob 0;
     LJob 0; LJob 0; LJob 0; LJob 1; LJob 1; LJob 0; LJob 0; LJob 0; LJob 0; LJob 2; LJob 1; LJob 2; LJob 1; LRet 2 (Val 12); LRet 1 (Val 2); LJob 0; LJob 1; LRet 0 (Val 1);
     LJob 1; LJob 0; LJob 0; LJob 1; LJob 1; LJob 0; LJob 0; LJob 2; LJob 2; LJob 3; LJob 1; LJob 0; LJob 1; LJob 0; LJob 0; LJob 0; LJob 1; LJob 1;
     LJob 1; LJob 0; LJob 1; LJob 1; LJob 0; LJob 2; LJob 3; LJob 3; LRet 0 (Val 1); LRet 3 (Val 13); LJob 2; LJob 3; LJob 0; LJob 3; LJob 4; LRet 2 (Val 3); LJob 2; LJob 4;
     LJob 2; LJob 0; LJob 0; LJob 0; LJob 3; LJob 2; LJob 3; LJob 3; LJob 3; LJob 2; LJob 1; LJob 2; LJob 2; LJob 2; LJob 1; LJob 1; LJob 1]).
  vm_compute. do 3 eexists. repeat split; reflexivity.
Qed.

(** ** C48: round_robin *)
Theorem C48_rotation ls s tr d nd k ms : Forall buf1 ls -> run init ls = Some (s, tr) -> nodes s !! d = Some nd -> strat nd = RoundRobin -> handled d tr !! k = Some ms ->
  exists m, ms = [m] /\ let p := k mod length (ups nd) in let j := k / length (ups nd) in
    sent d p tr !! j = Some m /\ forall u, ups nd !! p = Some (Some u) -> exists tr2, since u d p tr tr2 /\ results u tr2 !! j = Some m.
Proof. exact (fun B R => f_rr ls s tr B R d nd k ms). Qed.
(** When nothing is going on, and no merge further downstream waits, the upstream whose turn it is has no further message. *)
Theorem C48_prompt ls s tr d nd : Forall buf1 ls -> run init ls = Some (s, tr) -> tidy_run init ls = true -> at_rest s -> dead s = [] -> all_ready s ->
  (forall i, ~ refused i tr) -> nodes s !! d = Some nd -> strat nd = RoundRobin ->
  length (sent d (length (handled d tr) mod length (ups nd)) tr) = length (handled d tr) / length (ups nd) \/ exists e ne, leads s d e /\ nodes s !! e = Some ne /\ left_over e ne tr.
Proof. exact (fun B R T Re D Rd NR Hd K => eq_rect _ (fun k => drained k _ _ _ \/ _) (f_rest ls s tr B R T Re D Rd NR d nd Hd) _ K). Qed.
Example C48_ex : let ls := plan [LNew; LNew; LNew; LMerge RoundRobin [0; 1; 2] true; LReady 0; LReady 1; LReady 2; LSend 2 (Val 5); LSend 0 (Val 1); LSend 0 (Val 2); LSend 1 (Val 3)] init in
  usual ls = true /\ match run init ls with
  | Some (s, tr) => map strat (nodes s) = [Default; Default; Default; RoundRobin] /\ handled 3 tr = [[Val 1]; [Val 3]; [Val 5]; [Val 2]]
  | None => False end.
Proof. vm_compute. auto 10. Qed.

(** With another buffer size downstream, two messages of one upstream may be dealt with before one of the other. *)
Theorem C48_buffer_refuted : exists ls s tr n, run init ls = Some (s, tr) /\ nodes s !! 2 = Some n /\ strat n = RoundRobin /\
  handled 2 tr = [[Val 1]; [Val 2]] /\ sent 2 0 tr = [Val 1; Val 2] /\ sent 2 1 tr = [Val 11].
Proof.
  exists (merge_busy RoundRobin 2 3 ++
    [LJob 0; LJob 1; LPend 0; LPend 0; LJob 0; LRet 0 (Val 1); LJob 0; LJob 0; LJob 0; LJob 1; LJob 2; LJob 2; LJob 0; LPend 0; LJob 0; LJob 1; LRet 0 (Val 11); LJob 2;
     LJob 1; LJob 2; LRet 1 (Val 1); LJob 0; LRet 2 (Val 2); LJob 1; LJob 2; LJob 1; LJob 1; LJob 3; LJob 1; LJob 2; LJob 1; LJob 0; LJob 2; LJob 3; LJob 2; LJob 4;
     LJob 3; LJob 4; LJob 0; LJob 4; LJob 4]).
  vm_compute. do 3 eexists. repeat split; reflexivity.
Qed.

(** ** C49: unordered *)
Theorem C49_interleaving ls s tr d nd : Forall buf1 ls -> run init ls = Some (s, tr) -> nodes s !! d = Some nd -> strat nd = Unordered ->
  exists src : list nat, length src = length (handled d tr) /\ Forall (fun p => p < length (ups nd)) src /\ Forall (fun ms => length ms = 1) (handled d tr) /\
  forall p, p < length (ups nd) -> let mine := concat (omap (fun '(q, ms) => pick (q =? p) ms) (zip src (handled d tr))) in
    mine `prefix_of` sent d p tr /\ forall u, ups nd !! p = Some (Some u) -> exists tr2, since u d p tr tr2 /\ mine `prefix_of` results u tr2.
Proof. exact (fun B R => f_unordered ls s tr B R d nd). Qed.
(** When nothing is going on, and no merge further downstream waits, they are complete. *)
Theorem C49_complete ls s tr d nd : Forall buf1 ls -> run init ls = Some (s, tr) -> tidy_run init ls = true -> at_rest s -> dead s = [] -> all_ready s ->
  (forall i, ~ refused i tr) -> nodes s !! d = Some nd -> strat nd = Unordered ->
  length (handled d tr) = list_sum (map (fun p => length (sent d p tr)) (seq 0 (length (ups nd)))) \/ exists e ne, leads s d e /\ nodes s !! e = Some ne /\ left_over e ne tr.
Proof. exact (fun B R T Re D Rd NR Hd K => eq_rect _ (fun k => drained k _ _ _ \/ _) (f_rest ls s tr B R T Re D Rd NR d nd Hd) _ K). Qed.
Example C49_ex : usual merged = true /\ match run init merged with
  | Some (s, tr) => map ups (nodes s) = [[None]; [None]; [Some 0; Some 1]; [Some 2]] /\ handled 2 tr = [[Val 1]; [Val 3]; [Val 2]] /\ sent 2 0 tr = [Val 1; Val 2] /\ sent 2 1 tr = [Val 3]
  | None => False end.
Proof. vm_compute. auto 10. Qed.

(** With another buffer size downstream, the order of the messages of an upstream may be lost. *)
Theorem C49_buffer_refuted : exists ls s tr n, run init ls = Some (s, tr) /\ nodes s !! 2 = Some n /\ strat n = Unordered /\
  handled 2 tr = [[Val 11]; [Val 2]] /\ sent 2 0 tr = [Val 1; Val 2] /\ (exists rest, sent 2 1 tr = Val 11 :: rest).
Proof.
  exists (merge_busy Unordered 3 4 ++
    [LJob 0; LPend 0; LPend 0; LJob 0; LJob 1; LPend 0; LJob 1; LRet 1 (Val 11); LRet 0 (Val 1); LJob 1; LJob 1; LJob 0; LJob 2; LJob 1; LJob 1; LJob 0; LJob 0; LJob 2;
     LJob 0; LJob 2; LJob 1; LJob 1; LJob 0; LRet 0 (Val 11); LJob 1; LJob 0; LJob 1; LJob 0; LJob 2; LJob 2; LRet 1 (Val 12); LJob 0; LJob 2; LJob 1; LJob 1; LJob 3;
     LJob 1; LJob 2; LJob 1; LJob 3; LJob 3; LJob 4; LRet 2 (Val 11); LJob 4; LRet 4 (Val 2); LJob 0; LJob 4; LJob 4; LJob 1; LJob 0; LJob 3; LJob 3; LJob 0; LJob 3;
     LJob 2; LJob 3]).
  vm_compute. do 3 eexists. repeat split; try reflexivity. eexists. reflexivity.
Qed.

(** ** C50: exceptions *)
(** A process that throws sends the exception in place of the value: it is a result like any other. *)
Theorem C50_in_place ls s tr d nd p u k e : Forall buf1 ls -> run init ls = Some (s, tr) -> nodes s !! d = Some nd -> ups nd !! p = Some (Some u) ->
  sent d p tr !! k = Some (Err e) -> exists tr2, since u d p tr tr2 /\ results u tr2 !! k = Some (Err e).
Proof. exact (fun B R Hd Hp Hk => match f_flow ls s tr B R d nd p u Hd Hp with ex_intro _ tr2 (conj Si Pr) => ex_intro _ tr2 (conj Si (prefix_lookup _ _ _ _ Hk Pr)) end). Qed.
(** But the process that receives it never does anything again: no later message is dealt with, and it does not close. *)
Theorem C50_silent ls s tr i ms ls2 s2 tr2 : Forall buf1 ls -> run init ls = Some (s, tr) -> Refused i ms ∈ tr -> Forall buf1 ls2 -> run s ls2 = Some (s2, tr2) ->
  handled i tr2 = [] /\ results i tr2 = [] /\ closed i tr2 = [].
Proof. exact (fun B R => f_silent ls s tr B R i ms ls2 s2 tr2). Qed.
(** a process throws; the next receives the exception, then a value, then all senders are gone *)
Theorem C50_refuted : exists ls s tr n, Forall buf1 ls /\ run init ls = Some (s, tr) /\ tidy_run init ls = true /\ at_rest s /\ dead s = [] /\ snd_h s = [] /\
  nodes s !! 1 = Some n /\ sent 1 0 tr = [Err 7; Val 2] /\ invoked 1 tr = [] /\ results 1 tr = [] /\ closed 0 tr = [] /\ closed 1 tr = [].
Proof.
  exists ([LNew; LPipe 0 true 1; LReady 0; LPend 0; LSend 0 (Val 1); LJob 0; LJob 0; LRet 0 (Err 7)] ++ repeat (LJob 0) 9 ++
          [LSend 0 (Val 2); LJob 0; LJob 0; LRet 0 (Val 2)] ++ repeat (LJob 0) 5 ++ [LDropS 0; LPend 0]).
  do 3 eexists. split; [vm_compute; repeat constructor|]. split; [vm_compute; reflexivity|]. split; [vm_compute; reflexivity|]. vm_compute. auto 20.
Qed.

(** ** C51: free_buffer *)
(** From 0 to the size of the buffer, and exact, as long as there are no more messages than that. *)
Theorem C51_partial n p c : qs (que n) !! p = Some c -> 0 < bsize n -> (Z.of_nat (bsize n) < 2 ^ 64)%Z -> length c <= bsize n ->
  (0 <= free_of n p <= Z.of_nat (bsize n))%Z /\ free_of n p = Z.of_nat (bsize n - length c).
Proof. exact (f_free_exact n p c). Qed.
(** That is always so for a sender of an upstream process. *)
Theorem C51_upstream_partial ls s tr i n p u : Forall buf1 ls -> run init ls = Some (s, tr) -> nodes s !! i = Some n -> ups n !! p = Some (Some u) -> (0 <= free_of n p <= 1)%Z.
Proof. exact (fun B R => f_free ls s tr B R i n p u). Qed.
(** A client who sends more messages is told that there is room for nearly 2^64 further ones. *)
Theorem C51_wrap n p c : qs (que n) !! p = Some c -> 0 < bsize n -> bsize n < length c -> (Z.of_nat (length c) < 2 ^ 64)%Z ->
  free_of n p = (2 ^ 64 - Z.of_nat (length c - bsize n))%Z.
Proof. exact (f_free_wrap n p c). Qed.
Theorem C51_refuted : exists ls s tr, Forall buf1 ls /\ run init ls = Some (s, tr) /\ snd_h s = [0] /\ free_buffer (0, 0) s = Some (2 ^ 64 - 1)%Z.
Proof. exists [LNew; LSend 0 (Val 1); LSend 0 (Val 2)]. do 2 eexists. split; [repeat constructor|]. split; [vm_compute; reflexivity|]. vm_compute. auto. Qed.

(** ** C56: networks come to rest *)
(** Left alone by the clients, a network takes at most b more steps, whatever the schedule and whatever the functions return;
    if it is not at rest after them, then some thread can take another one. *)
Theorem C56_settles ls s tr : Forall buf1 ls -> run init ls = Some (s, tr) -> exists b, forall ls' s' tr', Forall (fun l => internal l = true) ls' -> run s ls' = Some (s', tr') ->
  length ls' <= b /\ (at_rest s' \/ exists l, internal l = true /\ is_Some (step s' l)).
Proof. exact (f_settles ls s tr). Qed.
(** No job and no critical section ever has to wait for another one. *)
Theorem C56_progress ls s tr : Forall buf1 ls -> run init ls = Some (s, tr) ->
  (forall k, k < length (pends s) -> is_Some (step s (LPend k))) /\
  (forall t i ms o, jobs s !! t = Some (i, JInvoke ms) -> is_Some (step s (LRet t o))) /\
  (forall t i p, jobs s !! t = Some (i, p) -> (forall ms, p <> JInvoke ms) -> is_Some (step s (LJob t))).
Proof. exact (f_progress ls s tr). Qed.
(** So from every state rest can be reached, by any choice of steps. *)
Theorem C56_rest ls s tr : Forall buf1 ls -> run init ls = Some (s, tr) -> exists ls' s' tr', Forall (fun l => internal l = true) ls' /\ run s ls' = Some (s', tr') /\ at_rest s'.
Proof. exact (f_comes_to_rest ls s tr). Qed.
(** a network that is busy: a channel and two processes, messages sent and nothing dealt with *)
Example C56_ex : let ls := [LNew; LPipe 0 true 1; LPipe 0 true 1; LReady 0; LSend 0 (Val 1); LSend 0 (Val 2); LPend 0] in forallb (fun l => match l with LPipe _ _ 1 => true | LPipe _ _ _ => false | _ => true end) ls = true /\
  match run init ls with Some (s, tr) => length (jobs s) = 1 /\ sent 0 0 tr = [Val 1; Val 2] /\ handled 0 tr = [] | None => False end.
Proof. vm_compute. auto. Qed.
Print Assumptions C43_order.
Print Assumptions C43_flow.
Print Assumptions C43_send.
Print Assumptions C43_all.
Print Assumptions C43_no_ub.
Print Assumptions C43_buffer_refuted.
Print Assumptions C44_one.
Print Assumptions C44_alternate.
Print Assumptions C44_buffer_refuted.
Print Assumptions C45_rest.
Print Assumptions C45_all.
Print Assumptions C45_destroy_refuted.
Print Assumptions C45_receiver_refuted.
Print Assumptions C46_once.
Print Assumptions C46_complete.
Print Assumptions C46_delivered.
Print Assumptions C46_last.
Print Assumptions C46_upstream.
Print Assumptions C46_clients.
Print Assumptions C46_all_closed.
Print Assumptions C46_zip_refuted.
Print Assumptions C46_late_refuted.
Print Assumptions C47_aligned.
Print Assumptions C47_prompt.
Print Assumptions C47_buffer_refuted.
Print Assumptions C48_rotation.
Print Assumptions C48_prompt.
Print Assumptions C48_buffer_refuted.
Print Assumptions C49_interleaving.
Print Assumptions C49_complete.
Print Assumptions C49_buffer_refuted.
Print Assumptions C50_in_place.
Print Assumptions C50_silent.
Print Assumptions C50_refuted.
Print Assumptions C51_partial.
Print Assumptions C51_upstream_partial.
Print Assumptions C51_wrap.
Print Assumptions C51_refuted.
Print Assumptions C56_settles.
Print Assumptions C56_progress.
Print Assumptions C56_rest.
