From Coq Require Import List Bool Arith ZArith Lia.
From stdpp Require Import list.
From Verif.Counters Require Import Model Spec.
Global Arguments Nat.eqb : simpl never.

Lemma change_app a b : change (a ++ b) = (change a + change b)%Z.
Proof. induction a as [|[] a IH]; simpl; rewrite ?IH; lia. Qed.
Fixpoint goes (tr : list event) : nat := match tr with [] => 0 | Gone :: tr => S (goes tr) | _ :: tr => goes tr end.
Fixpoint noted (tr : list event) : nat := match tr with [] => 0 | Noted :: tr => S (noted tr) | _ :: tr => noted tr end.
Lemma goes_app a b : goes (a ++ b) = goes a + goes b.
Proof. induction a as [|[] a IH]; simpl; rewrite ?IH; done. Qed.
Lemma noted_app a b : noted (a ++ b) = noted a + noted b.
Proof. induction a as [|[] a IH]; simpl; rewrite ?IH; done. Qed.
Lemma goes_in tr : Gone ∈ tr -> 0 < goes tr.
Proof.
  induction tr as [|e tr IH]; [intros H; by apply elem_of_nil in H|]. rewrite elem_of_cons. intros [<-|H]; simpl; [lia|].
  destruct e; simpl; auto; lia.
Qed.
Lemma noted_in tr : Noted ∉ tr <-> noted tr = 0.
Proof.
  induction tr as [|e tr IH]; simpl; [split; [done|intros _ H; by apply elem_of_nil in H]|].
  rewrite not_elem_of_cons, IH. destruct e; simpl; split; try (intros [? ?]); intros; try done; try (split; done).
Qed.

(** the waiting thread has last checked at the end of [a] *)
Definition last_check (n k : nat) (tr a b : list event) : Prop :=
  tr = a ++ Checked false :: b /\ live k a <> Z.of_nat n.

Record good (n k : nat) (s : st) (tr : list event) : Prop := {
  g_live : Z.of_nat (made s + 1) = (live k tr + Z.of_nat (gone s))%Z;
  g_gone : gone s = goes tr;
  g_le : gone s <= made s + 1;
  g_note : goes tr = noted tr + notes s;
  g_ready : waiter s = Ready -> exists a b, last_check n k tr a b /\ Blocks ∉ b;
  g_blocked : waiter s = Blocked -> exists a b c, last_check n k tr a (b ++ Blocks :: c) /\ Blocks ∉ b /\ noted c = 0
}.
Lemma good_init n k : good n k (init k) [].
Proof. split; simpl; try done; unfold live; simpl; lia. Qed.

Lemma live_remaining n k s tr : good n k s tr -> Z.of_nat (remaining s) = live k tr.
Proof. intros [G1 G2 G3 _ _ _]. unfold remaining. lia. Qed.

(** an event that leaves the waiting thread alone *)
Lemma good_other n k s tr e s' :
  good n k s tr -> e <> Blocks -> (waiter s' = Blocked -> e <> Noted) -> waiter s' = waiter s ->
  Z.of_nat (made s' + 1) = (live k (tr ++ [e]) + Z.of_nat (gone s'))%Z -> gone s' = goes (tr ++ [e]) -> gone s' <= made s' + 1 ->
  goes (tr ++ [e]) = noted (tr ++ [e]) + notes s' -> good n k s' (tr ++ [e]).
Proof.
  intros [G1 G2 G3 G4 G5 G6] He He2 Hw H1 H2 H3 H4. split; try done.
  - intros R. rewrite Hw in R. destruct (G5 R) as (a & b & (-> & L) & N). exists a, (b ++ [e]). split.
    + split; [by rewrite <- app_assoc|done].
    + rewrite elem_of_app, elem_of_list_singleton. intros [?|?]; [done|by destruct He].
  - intros R. pose proof R as R'. rewrite Hw in R. destruct (G6 R) as (a & b & c & (-> & L) & N & Z0). exists a, b, (c ++ [e]). split_and!.
    + split; [rewrite <- !app_assoc; simpl; by rewrite <- app_assoc|done].
    + done.
    + rewrite noted_app, Z0. destruct e; try done. by destruct (He2 R').
Qed.
Lemma good_w n k s tr w e : good n k s tr -> w <> Ready -> w <> Blocked ->
  change e = 0%Z -> goes e = 0 -> noted e = 0 -> good n k (set_w w s) (tr ++ e).
Proof.
  intros [G1 G2 G3 G4 G5 G6] H1 H2 E1 E2 E3. split; simpl; try done.
  - unfold live in *. rewrite change_app, E1. rewrite G1. lia.
  - rewrite goes_app, E2. lia.
  - rewrite goes_app, noted_app, E2, E3. lia.
Qed.

Lemma good_step n k s tr l s' e : good n k s tr -> step n s l = Some (s', e) -> good n k s' (tr ++ e).
Proof.
  intros G H. pose proof G as [G1 G2 G3 G4 G5 G6]. unfold live in G1. destruct l; simpl in H.
  - destruct (Nat.eqb_spec (remaining s) 0) as [|Hr]; [done|]. destruct (dead s) eqn:Hd; simplify_eq.
    + eapply good_other; try done; try exact G; unfold live; rewrite ?change_app, ?goes_app, ?noted_app; simpl; lia.
    + eapply good_other; try done; try exact G; unfold live; rewrite ?change_app, ?goes_app, ?noted_app; simpl; lia.
  - destruct (Nat.eqb_spec (remaining s) 0) as [|Hr]; [done|]. unfold remaining in Hr. destruct (dead s) eqn:Hd; simplify_eq.
    + eapply good_other; try done; try exact G; unfold live; rewrite ?change_app, ?goes_app, ?noted_app; simpl; lia.
    + eapply good_other; try done; try exact G; unfold live; rewrite ?change_app, ?goes_app, ?noted_app; simpl; lia.
  - destruct (notes s) as [|q] eqn:Hn; [done|]. destruct (dead s) eqn:Hd; simplify_eq.
    + eapply good_other; try done; try exact G; unfold live; rewrite ?change_app, ?goes_app, ?noted_app; simpl; lia.
    + destruct (waiter s) eqn:W.
      3:{ split; simpl; try done; unfold live; rewrite ?change_app, ?goes_app, ?noted_app; simpl; lia. }
      all: eapply good_other; try done; try exact G; unfold live; rewrite ?change_app, ?goes_app, ?noted_app; simpl; try lia; done.
  - destruct (waiter s) eqn:W; try done.
    + destruct (Nat.eqb_spec (remaining s) n) as [Hr|Hr]; simplify_eq.
      * by apply good_w.
      * pose proof (live_remaining _ _ _ _ G) as HL.
        split; simpl; try done; unfold live; rewrite ?change_app, ?goes_app, ?noted_app; simpl; try lia.
        intros _. exists tr, []. split; [split; [done|unfold live in *; lia]|]. intros F. by apply elem_of_nil in F.
    + simplify_eq. split; simpl; try done; unfold live; rewrite ?change_app, ?goes_app, ?noted_app; simpl; try lia.
      intros _. destruct (G5 eq_refl) as (a & b & (-> & L) & N). exists a, b, []. split_and!; try done.
      split; [by rewrite <- app_assoc|done].
    + simplify_eq. by apply good_w.
  - destruct (waiter s) eqn:W; try done. simplify_eq. by apply good_w.
  - destruct (waiter s) eqn:W; try done. destruct (dead s); try done. simplify_eq. rewrite app_nil_r.
    split; simpl; try done. 
Qed.
Lemma good_run n k ls tr s s' e : good n k s tr -> run n s ls = Some (s', e) -> good n k s' (tr ++ e).
Proof.
  revert tr s s' e. induction ls as [|l ls IH]; intros tr s s' e G H; simpl in H.
  - simplify_eq. by rewrite app_nil_r.
  - destruct (step n s l) as [[s1 e1]|] eqn:E; [|done]. destruct (run n s1 ls) as [[s2 e2]|] eqn:E2; [|done]. simplify_eq.
    rewrite app_assoc. eapply IH; [by eapply good_step|done].
Qed.
Lemma good_from n k ls s tr : run n (init k) ls = Some (s, tr) -> good n k s tr.
Proof. intros H. apply (good_run n k ls [] (init k) s tr (good_init n k) H). Qed.

(** wait returns when n objects are left *)
Lemma returns_run n k ls tr s s' e : good n k s tr -> run n s ls = Some (s', e) ->
  forall a b, e = a ++ Returned :: b -> live k (tr ++ a) = Z.of_nat n.
Proof.
  revert tr s s' e. induction ls as [|l ls IH]; intros tr s s' e G H a b E; simpl in H; [simplify_eq; by destruct a|].
  destruct (step n s l) as [[s1 e1]|] eqn:E1; [|done]. destruct (run n s1 ls) as [[s2 e2]|] eqn:E2; [|done]. injection H as <- H. rewrite E in H.
  pose proof (good_step _ _ _ _ _ _ _ G E1) as G1.
  assert (IHH : forall a', e2 = a' ++ Returned :: b -> live k (tr ++ e1 ++ a') = Z.of_nat n).
  { intros a' ->. rewrite app_assoc. by eapply (IH _ _ _ _ G1 E2). }
  assert (D : (exists a', a = e1 ++ a' /\ e2 = a' ++ Returned :: b) \/ (exists c, e1 = a ++ Returned :: c)).
  { apply app_eq_app in H as [x [[-> Hx]|[-> Hx]]].
    - destruct x as [|y x]; simpl in Hx.
      + left. exists []. rewrite app_nil_r. by rewrite app_nil_r.
      + right. injection Hx as <- ->. by exists x.
    - left. by exists x. }
  destruct D as [(a' & -> & HH)|(c & Hc)]; [by apply IHH|].
  destruct l; simpl in E1; repeat case_match; simplify_eq; destruct a as [|? [|? a]]; simplify_eq/=; try (by destruct a).
  unfold live. rewrite change_app. simpl. pose proof (live_remaining _ _ _ _ G) as HL. unfold live in HL.
  match goal with H : (_ =? _) = true |- _ => apply Nat.eqb_eq in H end. lia.
Qed.
Lemma returns n k ls s tr a b : run n (init k) ls = Some (s, tr) -> tr = a ++ Returned :: b -> live k a = Z.of_nat n.
Proof. intros H E. by eapply (returns_run n k ls [] (init k) s tr (good_init n k) H a b). Qed.

Lemma change_quiet tr : Made ∉ tr -> goes tr = 0 -> change tr = 0%Z.
Proof. induction tr as [|e tr IH]; [done|]. rewrite not_elem_of_cons. intros [? ?]. destruct e; simpl; auto; done. Qed.

(** nothing is left to do but n objects are left: wait has returned, unless a notification came in the gap *)
Lemma wakes n k ls s tr : run n (init k) ls = Some (s, tr) -> at_rest n s -> live k tr = Z.of_nat n ->
  last_gone tr -> ~ gap tr -> waiter s = Out.
Proof.
  intros H [R1 R2] HL LG NG. pose proof (good_from _ _ _ _ _ H) as [G1 G2 G3 G4 G5 G6].
  assert (Hn : notes s = 0). { simpl in R1. destruct (notes s); [done|]. destruct (dead s); done. }
  destruct (waiter s) eqn:W; try done.
  - simpl in R2. rewrite W in R2. destruct (_ =? _); done.
  - simpl in R2. by rewrite W in R2.
  - exfalso. destruct (G6 eq_refl) as (a & b & c & (E & L) & N & Z0).
    assert (Hb : noted b = 0).
    { apply noted_in. intros F. apply NG. exists a, b, c. split; [by rewrite E|done]. }
    assert (HG : goes b = 0 /\ goes c = 0).
    { rewrite Hn in G4. rewrite E in G4. rewrite !goes_app, !noted_app in G4. simpl in G4.
      rewrite !goes_app, !noted_app in G4. simpl in G4. rewrite Hb, Z0 in G4.
      (* what was noted before the check had gone before *)
      assert (noted a <= goes a); [|lia].
      clear -H E. rewrite E in H.
      assert (P : forall ls tr0 s s' e, good n k s tr0 -> run n s ls = Some (s', e) -> forall a b, e = a ++ b -> noted (tr0 ++ a) <= goes (tr0 ++ a)).
      { clear. induction ls as [|l ls IH]; intros tr0 s s' e G H a b E; simpl in H.
        - injection H as <- <-. symmetry in E. apply app_eq_nil in E as [-> ->]. rewrite app_nil_r. rewrite (g_note _ _ _ _ G). lia.
        - destruct (step n s l) as [[s1 e1]|] eqn:E1; [|done]. destruct (run n s1 ls) as [[s2 e2]|] eqn:E2; [|done].
          injection H as <- H. rewrite <- H in E. clear H. pose proof (good_step _ _ _ _ _ _ _ G E1) as G'.
          apply app_eq_app in E as [x [[-> Hx]|[-> Hx]]].
          + pose proof (g_note _ _ _ _ G) as K0. rewrite noted_app, goes_app. pose proof (g_note _ _ _ _ G') as K1.
            rewrite !noted_app, !goes_app in K1.
            assert (x = [] \/ (goes x = 0 /\ noted x = 0) \/ a = []) as [->|[[X1 X2]| ->]].
            { destruct l; simpl in E1; repeat case_match; simplify_eq; destruct a as [|? a]; auto;
                simplify_eq/=; destruct a as [|? a]; simplify_eq/=; auto; destruct a; simplify_eq/=; auto. }
            * simpl in K1. lia.
            * lia.
            * simpl. lia.
          + rewrite app_assoc. eapply IH; [exact G'|exact E2|exact Hx]. }
      apply (P ls [] (init k) s _ (good_init n k) H a (Checked false :: b ++ Blocks :: c)). done. }
    assert (HM : Made ∉ b ++ Blocks :: c).
    { intros F. apply elem_of_list_split in F as (u & v & Eu).
      assert (Gone ∈ v) as FG by (apply (LG (a ++ Checked false :: u) v); rewrite E, Eu; by rewrite <- app_assoc).
      apply goes_in in FG. assert (X : goes (b ++ Blocks :: c) = 0) by (rewrite goes_app; simpl; lia).
      rewrite Eu, goes_app in X. simpl in X. lia. }
    apply L. rewrite <- HL, E. unfold live. rewrite change_app. simpl. rewrite (change_quiet (b ++ Blocks :: c)); [lia|done|].
    rewrite goes_app. simpl. lia.
  - simpl in R2. by rewrite W in R2.
Qed.
