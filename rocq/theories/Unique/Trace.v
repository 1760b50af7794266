(** What the trace says, by induction over runs of Verif.Unique.Model. *)
From Coq Require Import List Bool Arith Lia ZifyBool.
From stdpp Require Import list.
From Verif.Unique Require Import Model Spec Inv.

(** ** readings of a longer trace *)
Lemma fates_app a b : fates (a ++ b) = fates a ++ fates b.
Proof. apply flat_map_app. Qed.
Lemma started_app a b : started (a ++ b) = started a ++ started b.
Proof. apply flat_map_app. Qed.
Lemma attached_app a b : attached (a ++ b) = attached a ++ attached b.
Proof. apply flat_map_app. Qed.
Lemma resolved_app a b : resolved (a ++ b) = resolved a ++ resolved b.
Proof. apply flat_map_app. Qed.
Lemma gone_app a b : gone (a ++ b) = gone a ++ gone b.
Proof. apply flat_map_app. Qed.
Lemma kept_app a b : kept (a ++ b) = kept a ++ kept b.
Proof. apply flat_map_app. Qed.
Lemma reads_app a b : reads (a ++ b) = reads a ++ reads b.
Proof. apply flat_map_app. Qed.

Definition kept_of (tr : list event) : nat := length (kept tr).
(** what the trace says of the fates *)
Record fated (s : st) (tr : list event) : Prop := {
  f_att : attached tr = seq 0 (next s);
  f_once : NoDup (fates tr);
  f_fate : forall n, n ∈ fates tr <-> n < next s /\ holder s <> Waits n;
  f_wait : match holder s with Waits n => n < next s | _ => True end
}.
(** and of the value *)
Definition has (s : st) (r : option slot) (e : option nat) : Prop := alive s = true -> result s = r /\ exn s = e.
Definition valued (s : st) (tr : list event) : Prop :=
  match resolved tr with
  | [] => ready s = false /\ rcl s <> Some RLock /\ reads tr = [] /\ has s None None
  | [Value v] => (ready s = true \/ rcl s = Some RLock) /\
      (has s (Some (Full v)) None /\ reads tr = [] \/ has s (Some Hollow) None /\ exists m, reads tr = given (Value v) (S m))
  | [Error e] => (ready s = true \/ rcl s = Some RLock) /\ has s None (Some e) /\ exists m, reads tr = given (Error e) m
  | _ => False
  end.
Definition ends (s : st) (tr : list event) : Prop := gone tr = if alive s then [] else [tt].

Lemma given_more o m : given o (S (S m)) = given o (S m) ++ [match o with Value _ => Slot Hollow | Error e => Thrown e end].
Proof.
  destruct o as [v|e].
  - cbn. f_equal. induction m as [|m IH]; cbn; [done|]. f_equal. exact IH.
  - induction m as [|m IH]; [done|]. change (Thrown e :: given (Error e) (S (S m)) = Thrown e :: given (Error e) (S m) ++ [Thrown e]).
    f_equal. exact IH.
Qed.

Lemma step_ends s l s' ev tr : inv s -> ends s tr -> step s l = Some (s', ev) -> ends s' (tr ++ ev).
Proof.
  unfold ends. rewrite gone_app. intros I E H. shape I s.
  all: cases l H; rewrite E; done.
Qed.

(** the fates: what a step adds *)
Definition moves (s s' : st) (ev : list event) : Prop :=
  (next s' = next s /\ attached ev = [] /\ fates ev = [] /\ holder s' = holder s) \/
  (next s' = next s /\ attached ev = [] /\ fates ev = [] /\ (forall n, holder s <> Waits n) /\ (forall n, holder s' <> Waits n)) \/
  (next s' = S (next s) /\ attached ev = [next s] /\ fates ev = [] /\ holder s' = Waits (next s) /\ forall n, holder s <> Waits n) \/
  (next s' = next s /\ attached ev = [] /\ exists n, fates ev = [n] /\ holder s = Waits n /\ forall m, holder s' <> Waits m).
Lemma step_moves s l s' ev : inv s -> step s l = Some (s', ev) -> moves s s' ev.
Proof.
  intros I H. shape I s.
  all: cases l H.
  all: unfold moves; cbn.
  all: first [by left|by right; left|by right; right; left|right; right; right; split; [done|split; [done|eexists; done]]].
Qed.
Lemma step_fated s l s' ev tr : inv s -> fated s tr -> step s l = Some (s', ev) -> fated s' (tr ++ ev).
Proof.
  intros I [A O F W] H. destruct (step_moves s l s' ev I H) as [(N & Ae & Fe & Hh)|[(N & Ae & Fe & H1 & H2)|[(N & Ae & Fe & H1 & H2)|(N & Ae & n & Fe & H1 & H2)]]].
  - refine (Build_fated _ _ _ _ _ _); rewrite ?attached_app, ?fates_app, ?Ae, ?Fe, ?app_nil_r, ?N, ?Hh; try done.
  - refine (Build_fated _ _ _ _ _ _); rewrite ?attached_app, ?fates_app, ?Ae, ?Fe, ?app_nil_r, ?N; try done.
    + intros m. rewrite F. firstorder.
    + destruct (holder s') eqn:E; try done. by destruct (H2 n).
  - refine (Build_fated _ _ _ _ _ _); rewrite ?attached_app, ?fates_app, ?Ae, ?Fe, ?app_nil_r, ?N, ?H1; try done; [by rewrite seq_S, A| |lia].
    intros m. rewrite F. split; [intros [? ?]; split; [lia|]; intros [= E]; lia|]. intros [? ?]. split; [|done].
    assert (m <> next s) by congruence. lia.
  - rewrite H1 in W. refine (Build_fated _ _ _ _ _ _); rewrite ?attached_app, ?fates_app, ?Ae, ?Fe, ?app_nil_r, ?N; try done.
    + apply NoDup_app. split; [done|]. split; [|by apply NoDup_singleton]. intros m Hm%F. rewrite elem_of_list_singleton. intros ->. by destruct Hm.
    + intros m. rewrite elem_of_app, elem_of_list_singleton, F, H1. split.
      * intros [[? ?]| ->]; [done|]. done.
      * intros [? _]. destruct (decide (m = n)); [by right|left]. split; [done|congruence].
    + destruct (holder s') eqn:E; try done. by destruct (H2 n0).
Qed.

(** the value: what a step adds *)
Lemma given_one o : given o 1 = [intact o].
Proof. by destruct o. Qed.
Definition told (s : st) : Prop := ready s = true \/ rcl s = Some RLock.
Definition reading (s s' : st) (ev : list event) : Prop :=
  (resolved ev = [] /\ reads ev = [] /\ (told s' <-> told s) /\ (alive s' = true -> alive s = true /\ result s' = result s /\ exn s' = exn s)) \/
  (~ told s /\ told s' /\ reads ev = [] /\ alive s = true /\ alive s' = true /\
    exists o, resolved ev = [o] /\ match o with Value v => result s' = Some (Full v) /\ exn s' = exn s | Error e => exn s' = Some e /\ result s' = result s end) \/
  (told s /\ told s' /\ resolved ev = [] /\ alive s = true /\ alive s' = true /\ exn s' = exn s /\
    match exn s, result s with
    | Some e, r => reads ev = [Thrown e] /\ result s' = r
    | None, Some x => reads ev = [Slot x] /\ result s' = Some Hollow
    | None, None => result s' = None
    end).
Lemma step_reading s l s' ev : inv s -> step s l = Some (s', ev) -> reading s s' ev.
Proof.
  intros I H. shape I s.
  all: cases l H.
  all: unfold reading, told; cbn.
  all: first
    [ left; repeat split; try done; intros [?|?]; (done || (left; done) || (right; done))
    | right; left; repeat split; try done; try (intros [?|?]; done); [right; done|eexists; done]
    | right; right; repeat split; try done; left; done].
Qed.
Lemma step_valued s l s' ev tr : inv s -> valued s tr -> step s l = Some (s', ev) -> valued s' (tr ++ ev).
Proof.
  intros I V H. pose proof (step_reading s l s' ev I H) as R. unfold valued, has in *. rewrite resolved_app, reads_app.
  destruct R as [(Re & Rd & T & K)|[(T & T' & Rd & L & L' & o & Re & K)|(T & T' & Re & L & L' & X & K)]].
  - rewrite Re, Rd, !app_nil_r. destruct (resolved tr) as [|[v|e] [|]]; try done.
    + destruct V as (V1 & V2 & V3 & V4). assert (~ told s') as N by (rewrite T; intros [?|?]; congruence). unfold told in N.
      split; [by destruct (ready s'); [destruct N; left|]|]. split; [tauto|]. split; [done|].
      intros A. destruct (K A) as (B & -> & ->). auto.
    + destruct V as (V1 & V2). split; [by apply T|]. destruct V2 as [[V2 V3]|[V2 V3]]; [left|right].
      all: split; [|done]; intros A; destruct (K A) as (B & -> & ->); auto.
    + destruct V as (V1 & V2 & V3). split; [by apply T|]. split; [|done]. intros A; destruct (K A) as (B & -> & ->); auto.
  - rewrite Re, Rd, app_nil_r. destruct (resolved tr) as [|[v|e] [|]]; try done.
    + destruct V as (V1 & V2 & V3 & V4). destruct (V4 L) as [E1 E2]. cbn. destruct o as [v|e]; (split; [done|]).
      * left. split; [|done]. intros _. by rewrite (proj1 K), (proj2 K).
      * split; [|by exists 0]. intros _. by rewrite (proj1 K), (proj2 K).
    + by destruct V.
    + by destruct V.
  - rewrite Re, app_nil_r. destruct (resolved tr) as [|[v|e] [|]]; try done.
    + destruct V as (V1 & V2 & _). destruct T; congruence.
    + destruct V as (V1 & V2). split; [done|]. right. destruct V2 as [[V2 V3]|(V2 & m & V3)]; destruct (V2 L) as [E1 E2]; rewrite E1, E2 in K; destruct K as [K1 K2].
      * split; [by rewrite K2, X, E2|]. rewrite V3, K1. by exists 0.
      * split; [by rewrite K2, X, E2|]. rewrite V3, K1. exists (S m). by rewrite (given_more (Value v)).
    + destruct V as (V1 & V2 & m & V3). destruct (V2 L) as [E1 E2]. rewrite E1, E2 in K. destruct K as [K1 K2]. split; [done|].
      split; [by rewrite K2, X, E2|]. rewrite V3, K1. exists (S m). destruct m as [|m]; [done|]. by rewrite (given_more (Error e)).
Qed.

(** ** all runs *)
Lemma run_ind (P : st -> list label -> list event -> Prop) :
  P init [] [] -> (forall s ls tr l s' ev, inv s -> P s ls tr -> step s l = Some (s', ev) -> P s' (ls ++ [l]) (tr ++ ev)) ->
  forall ls s tr, run init ls = Some (s, tr) -> P s ls tr.
Proof.
  intros P0 P1.
  assert (forall ls s0 ls0 tr0 s tr, inv s0 -> P s0 ls0 tr0 -> run s0 ls = Some (s, tr) -> P s (ls0 ++ ls) (tr0 ++ tr)) as G.
  { intros ls. induction ls as [|l ls IH]; intros s0 ls0 tr0 s tr I P2 R; cbn in R.
    { injection R as <- <-. by rewrite !app_nil_r. }
    destruct (step s0 l) as [[s1 ev]|] eqn:E; [|done]. destruct (run s1 ls) as [[s2 tr2]|] eqn:E2; [|done]. injection R as <- <-.
    replace (ls0 ++ l :: ls) with ((ls0 ++ [l]) ++ ls) by by rewrite <- app_assoc. rewrite app_assoc.
    eapply IH; [by eapply step_inv|by eapply P1|done]. }
  intros ls s tr R. apply (G ls init [] [] s tr); [apply init_inv|done|done].
Qed.

Lemma run_fated ls s tr : run init ls = Some (s, tr) -> fated s tr.
Proof.
  apply (run_ind (fun s _ tr => fated s tr)).
  - refine (Build_fated _ _ _ _ _ _); cbn; try done; [constructor|]. intros n. rewrite elem_of_nil. split; [done|lia].
  - intros. by eapply step_fated.
Qed.
Lemma run_valued ls s tr : run init ls = Some (s, tr) -> valued s tr.
Proof.
  apply (run_ind (fun s _ tr => valued s tr)); [|intros; by eapply step_valued]. by repeat split.
Qed.
Lemma run_ends ls s tr : run init ls = Some (s, tr) -> ends s tr.
Proof. apply (run_ind (fun s _ tr => ends s tr)); [done|intros; by eapply step_ends]. Qed.
