(** C89, C90: senders and receivers as values. *)
From Coq Require Import Lia.
From stdpp Require Import list.
From Verif.Handles Require Import Model Spec Proof.

(** ** C89: the counters of senders and receivers *)
(** Whatever is done with senders or receivers: the counter of a process is the number of those that count, plus the number of miscounts. *)
Theorem C89_count k ls s t p : run k st0 ls = Some (s, t) -> p < length (cnt s) -> p ∉ gone s ->
  cnt s !! p = Some (holders p s + lost k p st0 ls).
Proof. intros R. apply (good_run k ls s t R). Qed.
(** It never goes below 0, and becomes 0 at most once. *)
Theorem C89_under k ls s t p : run k st0 ls = Some (s, t) -> Under p ∉ t.
Proof. intros R. apply (good_run k ls s t R). Qed.
Theorem C89_once k ls s t p : run k st0 ls = Some (s, t) -> length (filter (λ e, e = Zero p) t) <= 1.
Proof. intros R. apply (good_run k ls s t R). Qed.
(** It becomes 0 only when the last one goes; and then it does, if no one is assigned to while it counts, and no receiver copied that is ready. *)
Theorem C89_not_before k ls s t l s' e p : run k st0 ls = Some (s, t) -> step k s l = Some (s', e) -> Zero p ∈ e -> 0 < holders p s /\ holders p s' = 0.
Proof.
  intros R S H. destruct (step_ev k s l s' e p S (or_introl H)) as [G [c C]]. apply lookup_lt_Some in C.
  by apply (zero_iff k ls s t l s' e p R S C G) in H as (? & ? & _).
Qed.
Theorem C89_zero_partial k ls s t l s' e p : run k st0 ls = Some (s, t) -> step k s l = Some (s', e) -> p < length (cnt s) -> p ∉ gone s ->
  lost k p st0 (ls ++ [l]) = 0 -> (Zero p ∈ e <-> 0 < holders p s /\ holders p s' = 0).
Proof. intros R S L G Z. pose proof (zero_iff k ls s t l s' e p R S L G). tauto. Qed.
(** After one miscount it never becomes 0, whatever is done. *)
Theorem C89_forever_refuted k ls s t p : run k st0 ls = Some (s, t) -> 0 < lost k p st0 ls ->
  forall ls' s' t', run k s ls' = Some (s', t') -> Zero p ∉ t'.
Proof. exact (forever k ls s t p). Qed.
(** two channels; one sender assigned, by moving, to the other; both destroyed: the first channel is not told *)
Theorem C89_sender_refuted : exists ls s t, run Snd st0 ls = Some (s, t) /\ Forall (λ o, o = None) (objs s) /\ gone s = [] /\ t = [Zero 1] /\ cnt s = [1; 0].
Proof.
  exists [LNew 1; LNew 1; LMoveAssign 0 1; LDestroy 0; LDestroy 1]. eexists _, _. split; [by vm_compute|]. split; [by repeat constructor|done].
Qed.
(** the same by copying, with receivers; copying a receiver that is ready *)
Theorem C89_receiver_refuted : exists ls s t, run Rcv st0 ls = Some (s, t) /\ Forall (λ o, o = None) (objs s) /\ t = [Zero 1] /\ cnt s = [1; 0; 1].
Proof.
  exists [LNew 1; LNew 1; LCopyAssign 0 1; LDestroy 0; LReady 1; LDestroy 1; LNew 1; LCopy 3; LReady 3; LCopy 3; LDestroy 4; LDestroy 5; LDestroy 3].
  eexists _, _. split; [by vm_compute|]. split; [by repeat constructor|done].
Qed.
Example C89_ex : exists ls s t, run Snd st0 ls = Some (s, t) /\ lost Snd 0 st0 ls = 0 /\ cnt s !! 0 = Some 2 /\ holders 0 s = 2 /\
  exists s' e, step Snd s (LClose 1) = Some (s', e) /\ e = [] /\ exists s'' , step Snd s' (LDestroy 0) = Some (s'', [Zero 0]).
Proof.
  exists [LNew 2; LDefault; LSwap 0 2; LCopy 1; LDestroy 4; LMoveAssign 0 2]. eexists _, _. split; [by vm_compute|]. do 3 (split; [by vm_compute|]).
  eexists _, _. split; [by vm_compute|]. split; [done|]. eexists. by vm_compute.
Qed.

(** ** C90: values: copying, moving, swapping, comparing *)
(** Swapping, also with itself, exchanges two objects and does nothing else: the counters stay as they are. *)
Theorem C90_swap k s i j s' e : step k s (LSwap i j) = Some (s', e) -> e = [] /\ cnt s' = cnt s /\ gone s' = gone s /\
  forall n, at_ s' n = if decide (n = i) then at_ s j else if decide (n = j) then at_ s i else at_ s n.
Proof. exact (swap_at k s i j s' e). Qed.
(** Every operation gives the variables the values it should: copies and what is moved to are equal to the original, what is moved from
    refers to nothing, and everybody else is left alone. *)
Theorem C90_values k s l s' e n : step k s l = Some (s', e) ->
  at_ s' n = if decide (n < length (objs s)) then after l (at_ s) n
             else match made k l (at_ s) (length (cnt s)) !! (n - length (objs s)) with Some o => o | None => None end.
Proof. exact (values k s l s' e n). Qed.
Example C90_ex : exists s t s', run Snd st0 [LNew 1; LNew 1] = Some (s, t) /\ step Snd s (LSwap 0 1) = Some (s', []) /\
  at_ s' 0 = Some (Obj (Some 1) false) /\ at_ s' 1 = Some (Obj (Some 0) false).
Proof. eexists _, _, _. split; [by vm_compute|]. split; [by vm_compute|]. split; by vm_compute. Qed.
(** Equality is an equivalence. Receivers, and senders whose processes are there, are equal if and only if they refer to the same process. *)
Theorem C90_equivalence k s : (forall x, same k s x x = true) /\ (forall x y, same k s x y = same k s y x) /\
  (forall x y z, same k s x y = true -> same k s y z = true -> same k s x z = true).
Proof.
  split; [|split].
  - intros x. by destruct k; apply bool_decide_eq_true.
  - intros x y. destruct k; by apply bool_decide_ext.
  - intros x y z. destruct k; unfold same; rewrite !bool_decide_eq_true; congruence.
Qed.
Theorem C90_same_partial k s x y : (k = Snd -> forall p, ptr x = Some p \/ ptr y = Some p -> p ∉ gone s) -> (same k s x y = true <-> ptr x = ptr y).
Proof.
  intros H. destruct k; unfold same; rewrite bool_decide_eq_true; [|done]. specialize (H eq_refl).
  assert (L : forall q, (forall p, q = Some p -> p ∉ gone s) -> lock s q = q). { intros [q|] Hq; [|done]. apply lock_alive. by apply Hq. }
  rewrite !L; [done|..]; intros p E; apply H; auto.
Qed.
(** Senders that refer to different processes become equal when both have been destroyed, and equal to one that refers to none. *)
Theorem C90_same_refuted : exists ls s t x y z, run Snd st0 ls = Some (s, t) /\ at_ s 0 = Some x /\ at_ s 1 = Some y /\ at_ s 2 = Some z /\
  ptr x = Some 0 /\ ptr y = Some 1 /\ ptr z = None /\ same Snd s x y = true /\ same Snd s x z = true /\
  same Snd (St (objs s) (cnt s) [0]) x y = false.
Proof.
  exists [LNew 1; LNew 1; LDefault; LDie 0; LDie 1]. eexists _, _, _, _, _. split; [by vm_compute|]. repeat split; by vm_compute.
Qed.
Print Assumptions C89_count. Print Assumptions C89_under. Print Assumptions C89_once. Print Assumptions C89_not_before. Print Assumptions C89_zero_partial.
Print Assumptions C89_forever_refuted. Print Assumptions C89_sender_refuted. Print Assumptions C89_receiver_refuted. Print Assumptions C90_swap. Print Assumptions C90_values.
Print Assumptions C90_equivalence. Print Assumptions C90_same_partial. Print Assumptions C90_same_refuted.
