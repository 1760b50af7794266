(** C85: cancelling the arguments of when_all and when_any. [enter _ v imm s i o]: the continuation of argument i, with outcome o,
    on a call of kind v whose executor is immediate_executor ([imm]) or not. *)
From stdpp Require Import list.
From Verif.When Require Import Model.
From Verif.Reenter Require Import Model Spec Proof.

(** The first arrival that decides the result cancels all the other arguments attached and calls _f, once, if the executor is not
    immediate, or no task of a waiting argument owns the promise of a later one. *)
Theorem C85_cancel v imm s i o : locked s = false -> slots s !! i <> Some Held -> decides v o = true -> undecided v s = true ->
  imm = false \/ ~ forward s ->
  exists s', enter enough v imm s i o = Fine s' /\ locked s' = false /\ calls s' = S (calls s) /\ undecided v s' = false /\ forall j, j <> i -> ~ waiting s' j.
Proof. exact (decide_ok v imm s i o). Qed.
(** Otherwise its thread locks the mutex that it holds. *)
Theorem C85_stuck v imm s i o : locked s = false -> slots s !! i <> Some Held ->
  (exists k, enter enough v imm s i o = Stuck k) <-> imm = true /\ decides v o = true /\ undecided v s = true /\ forward s.
Proof. exact (decide_iff v imm s i o). Qed.
(** Whole histories: nothing gets stuck if the executor is not immediate, *)
Theorem C85_deferred v n own ls : exists s', run v false (st0 n own) ls = Fine s' /\ locked s' = false.
Proof. exact (run_ok v false ls (st0 n own) eq_refl (or_introl eq_refl)). Qed.
(** or if tasks own promises of earlier arguments only, *)
Theorem C85_ordered v imm n own ls : ordered (st0 n own) -> exists s', run v imm (st0 n own) ls = Fine s' /\ locked s' = false.
Proof. exact (fun H => run_ok v imm ls (st0 n own) eq_refl (or_intror (or_introl H))). Qed.
(** or if the call is when_any of a pack. *)
Theorem C85_any v imm n own ls : v = PackAny \/ v = PackAnyVoid -> exists s', run v imm (st0 n own) ls = Fine s' /\ locked s' = false.
Proof. exact (fun H => run_ok v imm ls (st0 n own) eq_refl (or_intror (or_intror (any_never v H)))). Qed.
(** The three other calls do get stuck: the task of argument 0, not started, owns the promise of argument 1, and argument 2 decides. *)
Definition three (o : outcome) : list label := [Attach 0; Attach 1; Attach 2; Ready 2 o].
Theorem C85_refuted : exists own,
  run PackAll true (st0 3 own) (three (Exc 7)) = Stuck 1 /\ run RangeAll true (st0 3 own) (three (Exc 7)) = Stuck 1 /\
  run RangeAny true (st0 3 own) (three (Val 7)) = Stuck 1.
Proof. exists [[1]; []; []]. repeat split; vm_compute; reflexivity. Qed.
(** With the first two arguments in the other order, or another executor, the same program completes. *)
Example C85_ex1 : exists s', run RangeAll true (st0 3 [[]; [0]; []]) (three (Exc 7)) = Fine s' /\ calls s' = 1 /\ slots s' = [Cut; Cut; Done].
Proof. eexists. repeat split; vm_compute; reflexivity. Qed.
Example C85_ex2 : exists s', run RangeAll false (st0 3 [[1]; []; []]) (three (Exc 7) ++ [Exec 2; Exec 1]) = Fine s' /\ calls s' = 1 /\ slots s' = [Cut; Cut; Done].
Proof. eexists. repeat split; vm_compute; reflexivity. Qed.
(** the hypotheses of C85_cancel, with an immediate executor: the task of 1 owns the promise of 0, and that of 0 one of its own *)
Example C85_ex3 : let s := St [Held; Held; Done] [[0]; [0]; []] (ctx0 3) false 0 in
  locked s = false /\ slots s !! 2 <> Some Held /\ decides PackAll (Exc 7) = true /\ undecided PackAll s = true /\ ~ forward s /\ own s !!! 1 = [0].
Proof.
  repeat split; try done. intros (j & k & Ej & Hk & Ek & L).
  destruct j as [|[|[|j]]]; simpl in *; try done; apply elem_of_list_singleton in Hk; lia.
Qed.
Example C85_ex4 : forward (St [Held; Held; Done] [[1]; []; []] (ctx0 3) false 0) /\ ordered (st0 3 [[]; [0]; [1; 0]]).
Proof.
  split; [exists 0, 1; repeat split; [by left|lia]|].
  intros j k Hk. destruct j as [|[|[|j]]]; simpl in *.
  - by apply elem_of_nil in Hk.
  - apply elem_of_list_singleton in Hk. lia.
  - repeat (apply elem_of_cons in Hk as [->|Hk]; [lia|]). by apply elem_of_nil in Hk.
  - by apply elem_of_nil in Hk.
Qed.
Print Assumptions C85_cancel. Print Assumptions C85_stuck. Print Assumptions C85_deferred. Print Assumptions C85_ordered.
Print Assumptions C85_any. Print Assumptions C85_refuted.
