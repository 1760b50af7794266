(** C91: a function made into a process by function_process. *)
From Coq Require Import List Bool Arith Lia.
From Verif.FunProc Require Import Model Spec Proof.
Import ListNotations.

(** If used as channels use processes, it yields one result for each message, in order, of a function object as it was at the beginning. *)
Theorem C91_afresh S A R (f : S -> A -> S * outcome R) s os : proper f (make s) os ->
  snd (run f (make s) os) = map Some (firstn (asked os) (afresh f s (messages os))) /\ asked os <= length (messages os) <= asked os + 1.
Proof. intros P. destruct (results f os (make s) ltac:(discriminate) P) as (H1 & H2 & _). simpl in *. split; [exact H1|lia]. Qed.
(** That is the same as calling the function with one message after the other, if its calls do not depend on earlier ones. *)
Theorem C91_results_partial S A R (f : S -> A -> S * outcome R) s os : stateless f s -> proper f (make s) os ->
  snd (run f (make s) os) = map Some (firstn (asked os) (threaded f s (messages os))).
Proof. intros St P. rewrite threaded_stateless by exact St. exact (proj1 (C91_afresh S A R f s os P)). Qed.
(** Otherwise not: adding up the messages; what a process that is this function would give. *)
Definition adder (s a : nat) : nat * outcome nat := (s + a, Val (s + a)).
Theorem C91_state_refuted : exists os, proper adder (make 0) os /\ messages os = [1; 2; 3] /\
  snd (run adder (make 0) os) = [Some (Val 1); Some (Val 2); Some (Val 3)] /\ threaded adder 0 (messages os) = [Val 1; Val 3; Val 6].
Proof. exists [Await 1; Yield; Await 2; Yield; Await 3; Yield]. split; [vm_compute; tauto|]. vm_compute. tauto. Qed.
(** Whatever the call comes to, the process awaits afterwards. *)
Theorem C91_awaits S A R (f : S -> A -> S * outcome R) p : state (fst (yield f p)) = AwaitForever.
Proof. unfold yield, state. destruct (bound p) as [[s a]|]; [destruct (f s a)|]; reflexivity. Qed.
Definition thrower (s a : nat) : nat * outcome nat := (S s, if a =? 0 then Throws else Val (10 / a)).
Example C91_ex : stateless thrower 0 /\ proper thrower (make 0) [Await 5; Yield; Await 0; Yield; Await 1] /\
  snd (run thrower (make 0) [Await 5; Yield; Await 0; Yield; Await 1]) = [Some (Val 2); Some Throws].
Proof. split; [exists (fun _ => True); split; [exact I|]; intros; split; [exact I|reflexivity]|]. vm_compute. tauto. Qed.
Print Assumptions C91_afresh. Print Assumptions C91_results_partial. Print Assumptions C91_state_refuted. Print Assumptions C91_awaits.
