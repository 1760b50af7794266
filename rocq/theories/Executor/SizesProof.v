From Coq Require Import ZArith Bool Lia.
From stdpp Require Import base tactics.
From Verif.Executor Require Import Sizes.
Local Open Scope Z_scope.

Lemma u32_small x : 0 <= x < 2 ^ 32 -> u32 x = x.
Proof. intros. by apply Z.mod_small. Qed.
Lemma cores_bounds m h c : 0 <= m < 2 ^ 32 -> 0 <= h < 2 ^ 30 -> cores m h = Some c ->
  1 <= c < 2 ^ 30 /\ (0 < m -> c <= m) /\ (0 < h -> c <= h) /\ (m = 0 -> 0 < h -> c = h) /\ (0 < m <= h -> c = m).
Proof.
  unfold cores. intros Hm Hh H. destruct (Z.ltb_spec 0 m) as [M|M].
  - destruct (Z.ltb_spec h 1) as [K|K]; [done|]. injection H as <-. lia.
  - injection H as <-. lia.
Qed.
Lemma pool_sizes m h p : 0 <= m < 2 ^ 32 -> 0 <= h < 2 ^ 30 -> pool m h = Some p ->
  1 <= queues p /\ threads p = queues p /\ 0 < waiters p /\ threads p + waiters p < 2 ^ 32 /\
  (threads p + waiters p) mod 2 = 1 /\ (0 < h -> threads p <= h) /\ (0 < m -> threads p <= m) /\
  (m = 0 -> 1 < h -> threads p = h - 1 /\ 4 * h < threads p + waiters p).
Proof.
  unfold pool. intros Hm Hh H. destruct (cores m h) as [c|] eqn:E; [|done].
  destruct (cores_bounds m h c Hm Hh E) as (B & B1 & B2 & B3 & B4). injection H as <-. cbn [queues threads waiters].
  assert (C : count c = Z.max 1 (c - 1)) by (unfold count; rewrite u32_small; lia).
  assert (L : limit c = Z.max 9 (c * 4 + 1)) by (unfold limit; rewrite (u32_small (c * 4)), u32_small; lia).
  rewrite C, L. rewrite u32_small by lia. split; [lia|]. split; [done|]. split; [lia|]. split; [lia|]. split.
  - destruct (Z.max_spec 9 (c * 4 + 1)) as [[? ->]|[? ->]].
    + replace (Z.max 1 (c - 1) + (c * 4 + 1 - Z.max 1 (c - 1))) with (1 + (c * 2) * 2) by lia. by rewrite Z.mod_add.
    + replace (Z.max 1 (c - 1) + (9 - Z.max 1 (c - 1))) with 9 by lia. done.
  - lia.
Qed.
Lemma pool_defined m h : pool m h = None <-> 0 < m /\ h < 1.
Proof.
  unfold pool, cores. destruct (Z.ltb_spec 0 m); [destruct (Z.ltb_spec h 1)|]; split; intros; try done; try lia.
Qed.
