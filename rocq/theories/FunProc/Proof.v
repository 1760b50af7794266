(** Proofs about FunProc. *)
From Coq Require Import List Bool Lia.
From Verif.FunProc Require Import Model Spec.
Import ListNotations.

Section Proof.
Context {S A R : Type} (f : S -> A -> S * outcome R).

(** a process that awaits gives what calling afresh gives; one that yields owes one result *)
Lemma results os : forall p, (done p = false -> exists a, bound p = Some (fs p, a)) -> proper f p os ->
  snd (run f p os) = map Some (firstn (asked os) (afresh f (fs p) (match bound p with Some (_, a) => if done p then [] else [a] | None => [] end ++ messages os))) /\
  asked os <= length (if done p then messages os else match bound p with Some (_, a) => [a] | None => [] end ++ messages os) <= Datatypes.S (asked os) /\
  fs (fst (run f p os)) = fs p.
Proof.
  induction os as [|[a|] os IH]; intros p I Pr; simpl in *.
  - split; [reflexivity|]. split; [|reflexivity]. unfold asked, messages. simpl. rewrite ?app_nil_r. destruct (done p); simpl; [lia|]. destruct (I eq_refl) as [a ->]. simpl. lia.
  - destruct Pr as [St Pr]. unfold state in St. destruct (done p) eqn:D; [|discriminate].
    destruct (IH (await a p) (fun _ => ex_intro _ a eq_refl) Pr) as (H1 & H2 & H3). simpl in *. rewrite H1.
    split; [|split; [|exact H3]].
    + unfold asked, messages. simpl. destruct (bound p) as [[]|]; reflexivity.
    + unfold asked, messages in *. simpl in *. exact H2.
  - destruct Pr as [St Pr]. unfold state in St. destruct (done p) eqn:D; [discriminate|]. destruct (I eq_refl) as [a B]. unfold yield in *. rewrite B in *.
    destruct (f (fs p) a) as [s' r] eqn:F. simpl in Pr.
    destruct (IH (Fp (fs p) (Some (s', a)) true) (fun E => match Bool.diff_true_false E with end) Pr) as (H1 & H2 & H3). simpl in *.
    destruct (run f (Fp (fs p) (Some (s', a)) true) os) as [p2 rs] eqn:Ru. simpl in *. rewrite H1.
    split; [|split; [|exact H3]].
    + unfold asked. simpl. rewrite F. reflexivity.
    + unfold asked, messages in *. simpl. lia.
Qed.
Lemma threaded_stateless s l : stateless f s -> threaded f s l = afresh f s l.
Proof.
  intros (P & P0 & H). assert (K : forall s1, P s1 -> threaded f s1 l = afresh f s l); [|exact (K s P0)].
  induction l as [|a l IH]; intros s1 P1; [reflexivity|]. simpl. destruct (H s1 a P1) as [H1 H2]. destruct (f s1 a) as [s2 r]. simpl in *. rewrite (IH s2 H1). congruence.
Qed.
End Proof.
