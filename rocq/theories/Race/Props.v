(** C76: futures that share a state, used in several threads. *)
From Coq Require Import List Bool Arith Lia.
From stdpp Require Import gmap.
From Verif.Race Require Import Model Spec Proof.

(** If whoever has destroyed a future has synchronised with those who consume one later, there is no data race on the value. *)
Theorem C76_synchronised_partial ls s tr : run false init ls = Some (s, tr) -> drops_seen tr -> ~ race tr.
Proof. exact (no_race false ls s tr). Qed.

(** With an acquire fence after use_count() there would never be one. *)
Theorem C76_with_fence ls s tr : run true init ls = Some (s, tr) -> ~ race tr.
Proof. exact (no_race_acq ls s tr). Qed.

(** The code has none, and there is a race: of two futures in two threads, both consumed, the first copies the value and is destroyed,
    the second finds that it is the only one, and moves the value, which nothing orders after the copying. *)
Theorem C76_refuted : exists ls s tr, run false init ls = Some (s, tr) /\ race tr.
Proof.
  exists [Copy 0 1; Send 1; Recv 1 1; Load 1; Take 1; Destroy 1; Load 0; Take 0].
  eexists _, [Copied 0; Sent 0 0; Received 1 0; Loaded 1 false; Read 1; Destroyed 1; Loaded 0 false; Moved 0].
  split; [vm_compute; reflexivity|].
  exists 4, 7, (Read 1), (Moved 0). split; [lia|]. split_and!; try done; [by right|].
  intros H. apply (closed_hb _ (fun i => i = 4 \/ i = 5)) in H; [lia| |by left].
  intros i j (L & x & y & Hx & Hy & R) [->| ->]; simplify_eq/=;
    do 8 (destruct j as [|j]; simplify_eq/=; try lia; try (by destruct R as [?|[]])).
Qed.

(** The hypothesis of the first theorem can be met by threads that do all of it: thread 1 reads and destroys its future, then
    sends another one, which it has copied, back to thread 0, which consumes it when it is the only one. *)
Example C76_ex : exists ls s tr, run false init ls = Some (s, tr) /\ drops_seen tr /\
  tr = [Copied 0; Sent 0 0; Received 1 0; Read 1; Destroyed 0; Copied 1; Destroyed 1; Sent 1 1; Received 0 1; Loaded 0 false; Moved 0].
Proof.
  exists [Copy 0 1; Send 1; Recv 1 1; Get 1; Destroy 0; Copy 1 2; Destroy 1; Send 2; Recv 2 0; Load 2; Take 2].
  eexists _, _. split; [vm_compute; reflexivity|]. split; [|reflexivity].
  intros a b t t' L Ha Hb.
  assert (Hb' : b = 10) by (do 11 (destruct b as [|b]; simplify_eq/=; try done)). subst b.
  assert (Ha' : a = 4 \/ a = 6) by (do 11 (destruct a as [|a]; simplify_eq/=; try lia)).
  destruct Ha' as [-> | ->].
  - apply tc_once. split; [lia|]. do 2 eexists. split_and!; [reflexivity|reflexivity|]. by left.
  - apply tc_l with 7; [split; [lia|]; do 2 eexists; split_and!; [reflexivity|reflexivity|]; by left|].
    apply tc_l with 8; [split; [lia|]; do 2 eexists; split_and!; [reflexivity|reflexivity|]; by right|].
    apply tc_once; split; [lia|]; do 2 eexists; split_and!; [reflexivity|reflexivity|]; by left.
Qed.
(** With the fence the execution of the refutation is ordered. *)
Example C76_ex_fence : exists s, run true init [Copy 0 1; Send 1; Recv 1 1; Load 1; Take 1; Destroy 1; Load 0; Take 0] =
  Some (s, [Copied 0; Sent 0 0; Received 1 0; Loaded 1 false; Read 1; Destroyed 1; Loaded 0 true; Moved 0]).
Proof. eexists. vm_compute. reflexivity. Qed.

Print Assumptions C76_synchronised_partial.
Print Assumptions C76_with_fence.
Print Assumptions C76_refuted.
