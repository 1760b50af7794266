(** Invariants of Verif.Unique.Model. *)
From Coq Require Import List Bool Arith Lia ZifyBool.
From stdpp Require Import list.
From Verif.Unique Require Import Model Spec.

Definition cont_in (o : option cont) : list cont := match o with Some (Cont k n) => [Cont k n] | _ => [] end.
Definition in_call (o : option ccall) : list cont := match o with Some (CLock c) | Some (CHand c) => cont_in (Some c) | _ => [] end.
Definition in_rcall (o : option rcall) : list cont := match o with Some (RHand c) => cont_in c | _ => [] end.
Definition conts (s : st) : list cont := in_call (ccl s) ++ cont_in (thn s) ++ in_rcall (rcl s) ++ jobs s.
Definition held (h : owner) : nat := match h with Nobody => 0 | _ => 1 end.
Definition keep (o : option cont) : nat := match o with Some Keep => 1 | _ => 0 end.
Definition rkeep (o : option rcall) : nat := match o with Some (RHand c) => S (keep c) | Some _ => 1 | None => 0 end.
Definition fits (o : option ccall) (h : owner) (ready : bool) : Prop :=
  match o with
  | Some (CLock (Cont _ n)) => h = Waits n
  | Some (CHand (Cont _ n)) => h = Waits n /\ ready = true
  | Some (CLock Keep) | Some CGet => h = Client
  | Some CTake => h = Client /\ ready = true
  | Some (CHand Keep) => False
  | Some (CThen n) | Some (CThen2 n) => h = Runs n /\ ready = true
  | Some CFree => exists n, h = Runs n
  | None => match h with Runs _ => False | _ => True end
  end.
Definition waits (h : owner) (cs : list cont) : Prop :=
  match h with
  | Waits n => exists k, cs = [Cont k n]
  | Nobody => cs = [] \/ exists k n, cs = [Cont k n] /\ k <> KDetach
  | _ => cs = []
  end.
Definition plain (js : list cont) : Prop := js = [] \/ exists k n, js = [Cont k n] /\ k <> KDetach.

Record inv (s : st) : Prop := {
  i_refs : refs s = held (holder s) + keep (thn s) + rkeep (rcl s);
  i_alive : alive s = (0 <? refs s);
  i_bad : bad s = false;
  i_fits : fits (ccl s) (holder s) (ready s);
  i_waits : waits (holder s) (conts s);
  i_plain : plain (jobs s);
  i_jobs : jobs s <> [] -> ready s = true;
  i_thn : ready s = true -> thn s = None;
  i_rcl : match rcl s with Some (RWrite _) | Some RLock => ready s = false | Some _ => ready s = true | None => True end;
  i_prom : prom s = true -> ready s = false /\ rcl s = None;
  i_dead : alive s = false -> thn s = None
}.

Lemma init_inv : inv init.
Proof. by constructor; cbn; auto; left. Qed.

Ltac split_step :=
  repeat (match goal with
  | H : None = Some _ |- _ => discriminate
  | H : Some (_, _) = Some (_, _) |- _ => injection H as <- <-
  | H : context [match ?x with _ => _ end] |- _ => destruct x eqn:?
  end; cbn in *; try discriminate; try done).

(** everything but the numbers of the continuations is finite *)
Ltac shape I s :=
  destruct I as [Ir Ia Ib If Iw Ip Ij It Ic Im Id];
  destruct s as [al rf rs ex rd th pr rc ho cc js nx bd];
  cbn [alive refs result exn ready thn prom rcl holder ccl jobs next bad conts] in *; unfold conts in *;
  cbn [alive refs result exn ready thn prom rcl holder ccl jobs next bad] in *;
  destruct cc as [[[k0 n0|]|[k0 n0|]| | |n0|n0|]|]; cbn in If;
  try match goal with H : _ /\ _ = true |- _ => destruct H as [-> ->] | H : exists _, _ = Runs _ |- _ => destruct H as [? ->] end;
  subst; try done;
  try match goal with H : match ?h with Client => True | _ => _ end |- _ => destruct h as [|?|?|]; try done end;
  try match goal with H : ?b = true -> _ = None |- _ => is_var b; destruct b end;
  try match goal with H : true = true -> _ |- _ => specialize (H eq_refl) end; subst;
  try match goal with H : false = true -> _ |- _ => clear H end;
  repeat match goal with o : option cont |- _ => destruct o as [[?k ?n|]|] end;
  match goal with o : option rcall |- _ => destruct o as [[[?v|?e]| |[[?k ?n|]|]|]|] end; cbn in *; try done;
  try match goal with H : ?b = true -> _ /\ _ |- _ => is_var b; destruct b; [by destruct (H eq_refl)|]; clear H end;
  match goal with H : plain _ |- _ => destruct H as [->|(?k & ?n & -> & ?Hk)] end;
  try (by match goal with H : _ -> false = true |- _ => specialize (H ltac:(done)) end);
  cbn in *; subst; cbn in *;
  repeat match goal with
  | H : exists _, _ = _ |- _ => destruct H as [? H]; try discriminate H; injection H as ??; subst
  | H : _ :: _ = [] |- _ => discriminate H
  | H : _ = [] \/ _ |- _ => destruct H as [H|(? & ? & H & ?)]; try discriminate H; try (injection H as ??; subst)
  end;
  try done.

Ltac cases l H :=
  destruct l as [[?v|?e]| |[]| | | | | | |[|?i]|[|?i]]; cbn in H; unfold take in H; cbn in H; try discriminate H;
  repeat (rewrite Nat.eqb_refl in H; cbn in H);
  repeat (match type of H with
  | context [match ?b with _ => _ end] => is_var b; destruct b
  | context [if ?b then _ else _] => destruct b eqn:?
  | context [match ?b with _ => _ end] => destruct b eqn:?
  end; cbn in H; try discriminate H);
  try (injection H as <- <-).

Ltac triv := cbn in *; auto; try done; try congruence; try (left; done); try (right; eauto; done); try (by eauto); try lia.

Lemma step_inv s l s' ev : inv s -> step s l = Some (s', ev) -> inv s'.
Proof.
  intros I H. shape I s.
  all: cases l H.
  all: constructor; unfold conts; triv.
Qed.

Lemma run_inv s ls s' tr : inv s -> run s ls = Some (s', tr) -> inv s'.
Proof.
  revert s s' tr. induction ls as [|l ls IH]; intros s s' tr I R; cbn in R; [by injection R as <- <-|].
  destruct (step s l) as [[s1 ev]|] eqn:E; [|done]. destruct (run s1 ls) as [[s2 tr2]|] eqn:E2; [|done].
  injection R as <- <-. eapply IH; [|done]. by eapply step_inv.
Qed.
