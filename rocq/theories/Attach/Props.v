(** C88: attaching a process to one that is sending. *)
From stdpp Require Import list.
From Verif.Attach Require Import Model Spec Proof.

(** Whoever attaches processes, and whenever: as long as no iterator is used that is not valid, every broadcast reaches exactly the processes
    that were attached when it began, once each, in order. *)
Theorem C88_delivers s t : runs s t -> Ub ∉ t -> delivers t.
Proof. exact (delivered s t). Qed.
(** That is so if nobody attaches a process while a loop is in progress; between counting and the loop is not too late. *)
Theorem C88_calm_partial s t : runs s t -> calm false t = true -> Ub ∉ t /\ delivers t.
Proof. exact (fun R C => conj (calm_fine s t R C) (delivered s t R (calm_fine s t R C))). Qed.
(** Otherwise not: in every run, attaching a process while there is something left to do for the loop makes the loop's next step undefined. *)
Theorem C88_attach_refuted s t x : runs s t -> busy s -> exists s1, step s (LAttach x) = Some (s1, [Attached x]) /\
  forall l s2 e, step s1 l = Some (s2, e) -> (forall y, l <> LAttach y) -> e = [Ub].
Proof. exact (disturbed s t x). Qed.
(** two processes attached, a third while the message is sent; the same a little earlier *)
Fixpoint play (s : st) (t : list ev) (ls : list label) : option (st * list ev) :=
  match ls with [] => Some (s, t) | l :: ls => match step s l with Some (s', e) => play s' (t ++ e) ls | None => None end end.
Lemma play_runs ls s t s' t' : runs s t -> play s t ls = Some (s', t') -> runs s' t'.
Proof.
  revert s t. induction ls as [|l ls IH]; simpl; intros s t R E; [by injection E as <- <-|].
  destruct (step s l) as [[s1 e]|] eqn:ES; [|done]. eapply IH; [|done]. by eapply runs_step.
Qed.
Theorem C88_ub_refuted : exists s t, runs s t /\ t = [Attached 1; Attached 2; Began; First; Sent 1; Attached 3; Ub].
Proof.
  eexists _, _. split; [apply (play_runs [LAttach 1; LAttach 2; LBegin; LFirst; LTest; LAttach 3; LIncr] st0 []); [constructor|by vm_compute]|done].
Qed.
Example C88_ex : exists s t, runs s t /\ calm false t = true /\ Ub ∉ t /\
  t = [Attached 1; Attached 2; Began; Attached 3; First; Sent 1; Sent 2; Ended; Began; First; Sent 1; Sent 2; Sent 3; Ended].
Proof.
  eexists _, _. split; [apply (play_runs [LAttach 1; LAttach 2; LBegin; LAttach 3; LFirst; LTest; LIncr; LTest; LIncr; LTest; LBegin; LFirst; LTest; LIncr; LTest; LIncr; LTest; LIncr; LTest] st0 []); [constructor|by vm_compute]|].
  split; [by vm_compute|]. split; [|done]. intros H. repeat (apply elem_of_cons in H as [[=]|H]). by apply elem_of_nil in H.
Qed.
Example C88_ex_busy : exists s t, runs s t /\ busy s.
Proof. eexists _, _. split; [apply (play_runs [LAttach 1; LBegin; LFirst] st0 []); [constructor|by vm_compute]|done]. Qed.
Print Assumptions C88_delivers. Print Assumptions C88_calm_partial. Print Assumptions C88_attach_refuted. Print Assumptions C88_ub_refuted.
