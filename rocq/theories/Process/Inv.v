(** The invariants. *)
From Coq Require Import List Bool Arith Lia.
From stdpp Require Import list.
From Verif.Process Require Import Model Spec Count Move.

Definition b2n (b : bool) : nat := if b then 1 else 0.
Definition pos (n : nat) : nat := Nat.min n 1.
Definition wl (w : why) : nat := match w with Delay => 0 | _ => 1 end.
Definition wt (w : why) : nat := match w with Timeout => 1 | _ => 0 end.
(** may run the process *)
Definition hw (p : pc) : nat :=
  match p with JRun | JTop | JCall _ _ | JDecide | JBcast _ _ | JSusp _ _ _ | JDone | JDelay => 1 | _ => 0 end.
(** is sending a result *)
Definition bw (p : pc) : nat := match p with JSend _ _ _ _ | JSelf _ | JSelf2 _ => 1 | _ => 0 end.
(** what it will take off the suspend count *)
Definition sh (p : pc) : nat := match p with JSend _ _ i n => S (n - i) | JSelf _ | JSelf2 _ | JCts | JCts2 => 1 | _ => 0 end.
(** holds the mutex *)
Definition lk (p : pc) : nat :=
  match p with
  | JTop | JDecide | JDone | JFinal => 1
  | JCall w _ | JBcast w _ | JSusp w _ _ | JSend w _ _ _ | JSelf w | JSelf2 w | JEnd w => wl w
  | _ => 0
  end.
(** comes from a timeout *)
Definition tm (p : pc) : nat :=
  match p with
  | JTimer => 1
  | JCall w _ | JBcast w _ | JSusp w _ _ | JSend w _ _ _ | JSelf w | JSelf2 w | JEnd w => wt w
  | _ => 0
  end.
Definition nf (p : pc) : nat :=
  match p with JRun | JTop | JSelf2 _ | JCts2 | JCall _ (CAwait _) | JCall _ (CSetError _) | JCall _ (CClose false) => 1 | _ => 0 end.
Definition cl (p : pc) : nat := match p with JCall _ _ => 1 | _ => 0 end.
Definition dl (p : pc) : nat := match p with JDelay => 1 | _ => 0 end.
Definition jf (p : pc) : nat := match p with JFinal => 1 | _ => 0 end.
Definition ct (p : pc) : nat := match p with JCts | JCts2 => 1 | _ => 0 end.
Definition wd (d : nat) (p : pc) : nat :=
  match p with
  | JSusp _ _ n => b2n (negb (n =? d))
  | JSend _ _ i n => b2n (negb ((n =? d) && (i <=? n)))
  | _ => 0
  end.
Fixpoint psends (l : list pend) : nat := match l with [] => 0 | PSend :: l => S (psends l) | PRecv :: l => psends l end.
Fixpoint precvs (l : list pend) : nat := match l with [] => 0 | PRecv :: l => S (precvs l) | PSend :: l => precvs l end.
Lemma precvs_app a b : precvs (a ++ b) = precvs a + precvs b.
Proof. induction a as [|[] a IH]; simpl; lia. Qed.
Lemma precvs_del l k p : l !! k = Some p -> precvs l = precvs (delete k l) + match p with PRecv => 1 | PSend => 0 end.
Proof. revert k; induction l as [|q l IH]; intros [|k] H; simplify_eq/=; [by destruct p; lia|]. destruct q; rewrite (IH _ H); lia. Qed.
Lemma psends_app a b : psends (a ++ b) = psends a + psends b.
Proof. induction a as [|[] a IH]; simpl; lia. Qed.
Lemma psends_del l k p : l !! k = Some p -> psends l = psends (delete k l) + match p with PSend => 1 | PRecv => 0 end.
Proof. revert k; induction l as [|q l IH]; intros [|k] H; simplify_eq/=; [by destruct p; lia|]. destruct q; rewrite (IH _ H); lia. Qed.

Ltac counts :=
  repeat (rewrite cnt_app; cbn [cnt]);
  repeat match goal with
         | H : jobs ?s !! ?k = Some ?p |- context [cnt ?f (<[?k := ?q]> (jobs ?s))] =>
             rewrite (cnt_set f (jobs s) k p q H); pose proof (cnt_le f _ _ _ H)
         | H : jobs ?s !! ?k = Some ?p |- context [cnt ?f (delete ?k (jobs ?s))] =>
             rewrite (cnt_del f (jobs s) k p H); pose proof (cnt_le f _ _ _ H)
         end.

(** ** all runs *)
Definition od (p : pc) : nat := match p with JCall Step _ | JCall _ CYield => 0 | JCall _ _ => 1 | _ => 0 end.
Definition held (s : st) : Prop := cnt lk (jobs s) = b2n (tlock s) /\ cnt od (jobs s) = 0.
Lemma held_step c s l s' e : held s -> step c s l = Some (s', e) -> held s'.
Proof.
  unfold held. intros [I1 I2] H%step_move.
  assert (O : forall k p, jobs s !! k = Some p -> od p = 0) by (intros; by eapply cnt_zero).
  destruct H; repeat match goal with w : why |- _ => destruct w | H : _ \/ _ |- _ => destruct H end; subst; cbn; counts; cbn in *;
    repeat match goal with H : jobs s !! _ = Some _ |- _ => apply O in H; cbn in H end;
    repeat match goal with cc : call |- _ => destruct cc as [| |[]|] end;
    try destruct (final s); cbn in *;
    repeat match goal with H : tlock s = _ |- _ => rewrite H in * end; try destruct (tlock s) eqn:?; cbn in *; try lia; try done.
Qed.

Definition took (tr : list event) : list msg := flat_map (fun e => match e with Took m => [m] | _ => [] end) tr.
Definition stream (c : conf) (s : st) (tr : list event) : Prop := took tr ++ queue s = sents tr /\ handed tr = wanted c (took tr).
Lemma stream_step c s tr l s' e : stream c s tr -> step c s l = Some (s', e) -> stream c s' (tr ++ e).
Proof.
  unfold stream, took, sents, handed, wanted. intros [I1 I2] H%step_move.
  rewrite !flat_map_app, I2.
  destruct H; cbn; rewrite ?app_nil_r; try done;
    repeat match goal with H : queue s = _ |- _ => rewrite H in * end; rewrite ?flat_map_app; cbn;
    repeat match goal with H : has_set_error c = _ |- _ => rewrite H in * end;
    rewrite ?app_nil_r, <- ?I1; try done; rewrite <- ?app_assoc; done.
Qed.

(** ** runs without timeouts *)
Record inv (c : conf) (s : st) : Prop := Inv {
  i_active : active s = false;
  i_state : timed (pst s) = false;
  i_tm : cnt tm (jobs s) = 0;
  i_early : rcount s <> 0 -> running s = false /\ jobs s = [] /\ susp s = 0 /\ owed s = 0 /\ proc s = true /\ final s = false;
  i_lin : pos (scount s) + psends (pends s) + b2n (closeq s) + b2n (final s) = 1;
  i_tok : final s = false -> cnt hw (jobs s) + pos (susp s) <= b2n (running s);
  i_wake : final s = false -> has_await c = true -> b2n (running s) <= cnt hw (jobs s) + pos (susp s);
  i_susp : final s = false -> susp s = cnt sh (jobs s) + owed s;
  i_open : final s = false -> proc s = true /\ cnt jf (jobs s) = 0;
  i_fin : final s = true -> cnt hw (jobs s) + cnt bw (jobs s) + cnt jf (jobs s) + b2n (negb (proc s)) <= 1 /\
            cnt nf (jobs s) = 0 /\ queue s = [] /\ has_await c = true;
  i_owed : final s = true -> cnt hw (jobs s) > 0 -> owed s = 0;
  i_down : cnt (wd (ndown s)) (jobs s) = 0;
  i_act : cnt hw (jobs s) + cnt bw (jobs s) <= 1;
  i_idle : final s = false -> running s = false -> rcount s = 0 -> precvs (pends s) = 0 -> queue s = [] /\ closeq s = false;
  i_ready : precvs (pends s) > 0 -> rcount s = 0;
  i_delay : cnt dl (jobs s) > 0 -> (pst s).1 = Yield
}.
Lemma inv_init c p : timed p = false -> inv c (init p).
Proof. intros. by constructor; cbn; try done; try lia. Qed.

Lemma cnt_mono2 f g h js : (forall p, f p <= g p + h p) -> cnt f js <= cnt g js + cnt h js.
Proof. intros H. induction js as [|q js IH]; simpl; [lia|]. specialize (H q). lia. Qed.
Lemma cnt_sum f g h js : (forall p, f p + g p <= h p) -> cnt f js + cnt g js <= cnt h js.
Proof. intros H. induction js as [|q js IH]; simpl; [lia|]. specialize (H q). lia. Qed.
Lemma bw_sh js : cnt bw js <= cnt sh js.
Proof. apply cnt_mono. intros []; cbn; lia. Qed.
Lemma ct_sh js : cnt bw js + cnt ct js <= cnt sh js.
Proof. apply cnt_sum. intros []; cbn; lia. Qed.
Lemma nf_hs js : cnt nf js <= cnt hw js + cnt sh js.
Proof. apply cnt_mono2. intros [| |w [| |[]|]| | | | | | | | | | | | |]; cbn; lia. Qed.
Lemma b2n_le b : b2n b <= 1.
Proof. destruct b; simpl; lia. Qed.
Lemma wd_hb d js : cnt (wd d) js <= cnt hw js + cnt bw js.
Proof. apply cnt_mono2. intros []; cbn; try lia; apply b2n_le. Qed.
Lemma dl_cl js : cnt dl js + cnt cl js <= cnt hw js.
Proof. apply cnt_sum. intros []; cbn; lia. Qed.
Ltac facts s :=
  pose proof (bw_sh (jobs s)); pose proof (ct_sh (jobs s)); pose proof (nf_hs (jobs s)); pose proof (wd_hb 0 (jobs s)); pose proof (wd_hb (ndown s) (jobs s)); pose proof (dl_cl (jobs s));
  repeat match goal with
         | H : jobs s !! ?k = Some ?p |- _ =>
           pose proof (cnt_le hw _ _ _ H); pose proof (cnt_le bw _ _ _ H); pose proof (cnt_le sh _ _ _ H); pose proof (cnt_le tm _ _ _ H);
           pose proof (cnt_le nf _ _ _ H); pose proof (cnt_le dl _ _ _ H); pose proof (cnt_le cl _ _ _ H); pose proof (cnt_le jf _ _ _ H);
           pose proof (cnt_le od _ _ _ H); pose proof (cnt_le ct _ _ _ H);
           pose proof (cnt_le (wd (ndown s)) _ _ _ H); revert H
         end; intros.

Ltac bools s :=
  repeat match goal with
         | H : ?f s = true |- _ => progress rewrite H in *
         | H : ?f s = false |- _ => progress rewrite H in *
         end.
Lemma inv_step c s l s' e : sane c -> held s -> inv c s -> (match l with LRet _ r => timed (state_of r) = false | _ => True end) ->
  step c s l = Some (s', e) -> inv c s'.
Proof.
  intros W [_ O] I L H%step_move. destruct I as [Ia Is It Ie Il Itok Iw Isu Io If Iow Id Iact Idle Ird Idl].
  assert (R0 : forall k p, jobs s !! k = Some p -> rcount s = 0).
  { intros k p Hk. destruct (decide (rcount s = 0)) as [|N]; [done|]. apply Ie in N as (_ & J & _). by rewrite J in Hk. }
  destruct H; facts s; cbn in L;
  repeat match goal with H : jobs s !! _ = Some _ |- _ => pose proof (R0 _ _ H); clear R0 end;
  repeat match goal with H : pends s !! _ = Some _ |- _ => pose proof (psends_del _ _ _ H); pose proof (precvs_del _ _ _ H); revert H end; intros;
  try (destruct w; cbn in *; try lia; [..]);
  unfold pos in *;
  (destruct (final s) eqn:F; cbn in Il;
    [specialize (If eq_refl) as (If1 & If2 & If3 & If4); specialize (Iow eq_refl); clear Itok Iw Isu Io
    |specialize (Itok eq_refl); specialize (Iw eq_refl); specialize (Isu eq_refl); specialize (Io eq_refl) as [Io1 Io2]; clear If Iow]);
  try (exfalso; cbn in *; lia);
  repeat match goal with H : _ \/ _ |- _ => destruct H end;
  try (exfalso; congruence);
  try (exfalso; rewrite (W ltac:(done)) in *; done);
  try match goal with H : pst s = (Await, Later) |- _ => by rewrite H in Is end;
  try (assert (RR : rcount s = 0) by (cbn in *; lia || (apply Ird; cbn in *; lia)));
  try (destruct (Ie ltac:(done || lia)) as (E1 & E2 & E3 & E4 & E5 & E6));
  (constructor; cbn; rewrite ?F; try done; try match goal with H : jobs s = [] |- _ => rewrite ?H in * end; counts; rewrite ?psends_app, ?precvs_app, ?Nat.eqb_refl; cbn; intros; try congruence; cbn in *; bools s; cbn in *; try lia; repeat split; try done; try lia;
  try (apply Idl; lia); try (apply Iow; lia); try (apply Ird; lia); try (apply Idle; solve [done|lia]); try (destruct Idle; solve [done|lia]);
  destruct (running s) eqn:?, (closeq s) eqn:?, (proc s) eqn:?; cbn in *; try lia; try congruence; try (apply Idl; lia); try (apply Iow; lia); try (specialize (Iw ltac:(done)); lia)).
  all: try (destruct (n =? ndown s) eqn:?; cbn in *; lia).
  all: try (rewrite Nat.eqb_refl; cbn; lia).
  all: try (match goal with |- context [match ?n with 0 => false | S m => ?i <=? m end] => change (match n with 0 => false | S m => i <=? m end) with (S i <=? n) end;
    match goal with L : ?i < ?n |- _ => rewrite (proj2 (Nat.leb_le (S i) n)) by lia; rewrite (proj2 (Nat.leb_le i n)) in * by lia end; cbn in *; lia).
  1: tauto.
  all: destruct cc as [| |[]|]; cbn in *; try done; lia.
Qed.
