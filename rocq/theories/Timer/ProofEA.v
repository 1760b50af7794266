From Coq Require Import ZArith List Bool Lia.
From stdpp Require Import list sets.
From Verif.Timer Require Import Model ExecuteAt.
Open Scope Z_scope.

(** ** zero duration *)
Lemma zero_step s l s' : held s = true -> dead s = false -> handed s = calls s -> estep 0 s l = Some s' ->
  (match l with T Finish => match thr (timer s) with Running (Entry _ _ (Job _ _)) => False | _ => True end | _ => True end) ->
  held s' = true /\ dead s' = false /\ handed s' = calls s'.
Proof.
  intros Hh Hd He E Hl. unfold estep in E. rewrite Hd in E. destruct l as [f|l].
  - simpl in E. rewrite Hh in E. injection E as <-. simpl. rewrite He. auto.
  - destruct l; try (repeat (case_match; try discriminate); injection E as <-; simpl; auto; fail).
    destruct (step (timer s) Finish) as [[t e]|]; [|discriminate].
    destruct (thr (timer s)) as [| | |[? ? [|f []]]| |]; try tauto; injection E as <-; simpl; auto.
Qed.

(** what the timer still holds *)
Definition pending (t : st job) : list (entry job) := (match thr t with Running e => [e] | _ => [] end) ++ queue t.
Definition is_job (e : entry job) : bool := match payload e with Job _ _ => true | Other => false end.
Definition good (e : entry job) : option (nat * Z) := match payload e with Job f true => Some (f, due e) | _ => None end.
Definition bads (t : st job) : list (entry job) := filter (fun e => is_job e = true) (pending t).
Definition goods (t : st job) : list (nat * Z) := omap good (pending t).

Lemma eval_pending (t t' : st job) k ev : (forall e, thr t <> Running e) -> evaluate t k = Some (t', ev) ->
  pending t' ≡ₚ pending t /\ now t' = now t /\ (forall e, thr t' = Running e -> due e <= now t').
Proof.
  intros Hr E. assert (Hp : pending t = queue t). { unfold pending. destruct (thr t); try reflexivity. destruct (Hr e); auto. }
  unfold evaluate in E. destruct (stop t).
  { injection E as <- <-. rewrite Hp. simpl. split; [reflexivity|]. split; [auto|discriminate]. }
  destruct (queue t) as [|e0 q] eqn:Eq.
  { destruct (thr t); injection E as <- <-; rewrite Hp; simpl; split; try reflexivity; (split; [auto|discriminate]). }
  rewrite <- Eq in *. destruct (queue t !! k) as [e|] eqn:Ek; [|discriminate]. destruct (minimal _ _); [|discriminate].
  destruct (Z.ltb_spec (now t) (due e)).
  - injection E as <- <-. rewrite Hp. simpl. split; [reflexivity|]. split; [auto|discriminate].
  - injection E as <- <-. rewrite Hp. unfold pending. simpl. split; [|split; [auto|congruence]].
    rewrite <- (take_drop_middle _ _ _ Ek) at 3. rewrite Permutation_middle. auto.
Qed.

Lemma goods_perm (t t' : st job) : pending t' ≡ₚ pending t -> goods t' ≡ₚ goods t.
Proof. intros H. unfold goods. rewrite H. auto. Qed.
Lemma bads_perm (t t' : st job) : pending t' ≡ₚ pending t -> bads t' ≡ₚ bads t.
Proof. intros H. unfold bads. rewrite H. auto. Qed.

Record einv (d : Z) (s : est) : Prop := {
  e_count : (length (bads (timer s)) + length (handed s) + (if dead s then 1 else 0) = length (calls s))%nat;
  e_run e : thr (timer s) = Running e -> due e <= now (timer s);
  e_state : if held s then calls s = [] /\ goods (timer s) = [] /\ handed s = []
            else exists f0 t0 c, calls s = (f0, t0) :: c /\
              ((goods (timer s) = [(f0, t0 + d)] /\ handed s = []) \/
               (goods (timer s) = [] /\ exists t1, handed s = [(f0, t1)] /\ t0 + d <= t1))
}.

Lemma einv_perm d s t : einv d s -> dead s = false -> pending t ≡ₚ pending (timer s) ->
  (forall e, thr t = Running e -> due e <= now t) -> einv d (Est t (held s) (calls s) (handed s) false).
Proof.
  intros [Hc Hr Hs] Hd Hp Hr'. rewrite Hd in Hc. constructor; simpl; auto.
  - rewrite (Permutation_length (bads_perm _ _ Hp)). auto.
  - destruct (held s).
    + destruct Hs as (?&H&?). split; [auto|]. split; [|auto]. apply Permutation_nil. rewrite <- H. symmetry. apply goods_perm, Hp.
    + destruct Hs as (f0&t0&c&H1&H2). exists f0, t0, c. split; [auto|]. destruct H2 as [[H2 H3]|[H2 H3]]; [left|right]; (split; [|auto]).
      * symmetry. apply Permutation_singleton_l. rewrite <- H2. symmetry. apply goods_perm, Hp.
      * apply Permutation_nil. rewrite <- H2. symmetry. apply goods_perm, Hp.
Qed.

Lemma estep_inv d s l s' : d <> 0 -> einv d s -> estep d s l = Some s' -> einv d s'.
Proof.
  intros Hd0 I E. unfold estep in E. destruct (dead s) eqn:Hd; [discriminate|]. destruct l as [f|l].
  - destruct (Z.eqb_spec d 0); [tauto|]. simpl in E. injection E as <-. destruct I as [Hc Hr Hs].
    assert (Hpend : forall e, pending (St (now (timer s)) (S (next (timer s))) (queue (timer s) ++ [e]) (stop (timer s)) (notify (thr (timer s))))
                    = pending (timer s) ++ [e]).
    { intros e. unfold pending. simpl. destruct (thr (timer s)); reflexivity. }
    constructor; simpl.
    + unfold bads in *. rewrite Hpend, filter_app, app_length. simpl. rewrite app_length. simpl. rewrite Hd in Hc. lia.
    + intros e He. apply Hr. destruct (thr (timer s)); simpl in *; congruence.
    + unfold goods in *. rewrite Hpend, omap_app. simpl. destruct (held s).
      * destruct Hs as (H1&H2&H3). exists f, (now (timer s)), []. rewrite H1, H2, H3. auto.
      * destruct Hs as (f0&t0&c&H1&H2). exists f0, t0, (c ++ [(f, now (timer s))]). rewrite H1. split; [auto|].
        rewrite app_nil_r. auto.
  - destruct l as [n|d' a|sp k| | |].
    + simpl in E. injection E as <-. apply einv_perm; auto. intros e He. simpl. pose proof (e_run _ _ I e He). lia.
    + destruct a; [|discriminate]. simpl in E. injection E as <-. destruct I as [Hc Hr Hs].
      assert (Hpend : forall e, pending (St (now (timer s)) (S (next (timer s))) (queue (timer s) ++ [e]) (stop (timer s)) (notify (thr (timer s))))
                      = pending (timer s) ++ [e]).
      { intros e. unfold pending. simpl. destruct (thr (timer s)); reflexivity. }
      rewrite Hd in Hc. constructor; simpl.
      * unfold bads in *. rewrite Hpend, filter_app, app_length. simpl. lia.
      * intros e He. apply Hr. destruct (thr (timer s)); simpl in *; congruence.
      * unfold goods in *. rewrite Hpend, omap_app. simpl. rewrite app_nil_r. auto.
    + destruct (step (timer s) (Check sp k)) as [[t ev]|] eqn:Es; [|discriminate].
      assert (E' : s' = Est t (held s) (calls s) (handed s) false) by congruence. subst s'. clear E.
      assert (exists k, (forall e, thr (timer s) <> Running e) /\ evaluate (timer s) k = Some (t, ev)) as (k'&Hn&Ev).
      { exists k. simpl in Es. destruct (thr (timer s)); try discriminate; (split; [discriminate|]); auto; destruct (_ || _); congruence. }
      destruct (eval_pending _ _ _ _ Hn Ev) as (P1&P2&P3). apply einv_perm; auto.
    + simpl in E. destruct (thr (timer s)) as [| | |e| |] eqn:Et; try discriminate.
      destruct I as [Hc Hr Hs]. rewrite Hd in Hc.
      assert (Hp : pending (timer s) = e :: queue (timer s)) by (unfold pending; rewrite Et; auto).
      set (t := St (now (timer s)) (next (timer s)) (queue (timer s)) (stop (timer s)) Top) in *.
      assert (Hp' : pending t = queue (timer s)) by reflexivity.
      unfold bads, goods in *. rewrite Hp in *. simpl in Hc, Hs. specialize (Hr e Et).
      destruct e as [du i [|f []]]; simpl in *; injection E as <-; constructor; simpl; rewrite ?Hp'; try (intros; discriminate); auto.
      * unfold bads. rewrite Hp', app_length. simpl. lia.
      * unfold goods. rewrite Hp'. 
        destruct (held s); [destruct Hs as (?&?&?); discriminate|].
        destruct Hs as (f0&t0&c&H1&[[H2 H3]|[H2 _]]); [|discriminate]. injection H2 as -> -> H2.
        exists f0, t0, c. split; [auto|]. right. split; [auto|]. exists (now (timer s)). rewrite H3. auto.
      * unfold bads. rewrite Hp'. lia.
    + simpl in E. destruct (stop (timer s)); [discriminate|]. injection E as <-. apply einv_perm; auto. apply (e_run _ _ I).
    + simpl in E. destruct (stop (timer s)); [|discriminate]. injection E as <-. apply einv_perm; auto.
      * unfold pending. simpl. destruct (thr (timer s)); reflexivity.
      * simpl. intros e He. apply (e_run _ _ I). destruct (thr (timer s)); simpl in *; congruence.
Qed.

Lemma einit_inv d t : einv d (einit t).
Proof. constructor; simpl; auto. discriminate. Qed.
Lemma erun_inv d ls : forall s s', d <> 0 -> einv d s -> erun d s ls = Some s' -> einv d s'.
Proof.
  induction ls as [|l ls IH]; intros s s' H I E; simpl in E; [injection E as <-; auto|].
  destruct (estep d s l) eqn:E1; [|discriminate]. eapply IH; [auto| |exact E]. eapply estep_inv; eauto.
Qed.

(** zero duration: no job ever enters the timer *)
Lemma zero_nojob s l s' : bads (timer s) = [] -> estep 0 s l = Some s' -> bads (timer s') = [].
Proof.
  intros Hb E. unfold estep in E. destruct (dead s); [discriminate|]. destruct l as [f|l].
  - simpl in E. destruct (held s); injection E as <-; auto.
  - assert (Hperm : forall t', pending t' ≡ₚ pending (timer s) -> bads t' = []).
    { intros t' H. apply Permutation_nil. rewrite <- Hb. symmetry. apply bads_perm, H. }
    destruct l as [n|d' a|sp k| | |].
    + simpl in E. injection E as <-. apply Hperm. auto.
    + destruct a; [|discriminate]. simpl in E. injection E as <-. simpl. unfold bads in *.
      assert (H : pending (St (now (timer s)) (S (next (timer s))) (queue (timer s) ++ [Entry (now (timer s) + d') (next (timer s)) Other]) (stop (timer s)) (notify (thr (timer s))))
                      = pending (timer s) ++ [Entry (now (timer s) + d') (next (timer s)) Other]).
      { unfold pending. simpl. destruct (thr (timer s)); reflexivity. }
      rewrite H, filter_app, Hb. reflexivity.
    + destruct (step (timer s) (Check sp k)) as [[t ev]|] eqn:Es; [|discriminate].
      assert (E' : s' = Est t (held s) (calls s) (handed s) false) by congruence. subst s'. clear E. simpl.
      assert (exists k, (forall e, thr (timer s) <> Running e) /\ evaluate (timer s) k = Some (t, ev)) as (k'&Hn&Ev).
      { exists k. simpl in Es. destruct (thr (timer s)); try discriminate; (split; [discriminate|]); auto; destruct (_ || _); congruence. }
      destruct (eval_pending _ _ _ _ Hn Ev) as (P1&P2&P3). auto.
    + simpl in E. destruct (thr (timer s)) as [| | |e| |] eqn:Et; try discriminate.
      assert (bads (St (now (timer s)) (next (timer s)) (queue (timer s)) (stop (timer s)) Top) = []).
      { unfold bads, pending in *. rewrite Et in Hb. simpl in *. rewrite filter_cons in Hb. destruct (decide (is_job e = true)); [discriminate|auto]. }
      destruct e as [du i [|f []]]; injection E as <-; auto.
    + simpl in E. destruct (stop (timer s)); [discriminate|]. injection E as <-. apply Hperm. auto.
    + simpl in E. destruct (stop (timer s)); [|discriminate]. injection E as <-. apply Hperm.
      unfold pending. simpl. destruct (thr (timer s)); reflexivity.
Qed.

Lemma zero_run ls : forall s s', held s = true -> dead s = false -> handed s = calls s -> bads (timer s) = [] ->
  erun 0 s ls = Some s' -> dead s' = false /\ handed s' = calls s'.
Proof.
  induction ls as [|l ls IH]; intros s s' H1 H2 H3 H4 E; simpl in E; [injection E as <-; auto|].
  destruct (estep 0 s l) as [s1|] eqn:E1; [|discriminate].
  destruct (zero_step s l s1) as (A1&A2&A3); auto.
  { destruct l as [|[]]; auto. destruct (thr (timer s)) as [| | |[? ? []]| |] eqn:Et; auto.
    unfold bads, pending in H4. rewrite Et in H4. discriminate. }
  eapply IH; eauto. eapply zero_nojob; eauto.
Qed.

(** the calls recorded are the calls made *)
Definition called (ls : list elabel) : list nat := omap (fun l => match l with Call f => Some f | _ => None end) ls.
Lemma calls_spec d ls : forall s s', erun d s ls = Some s' -> (calls s').*1 = (calls s).*1 ++ called ls.
Proof.
  induction ls as [|l ls IH]; intros s s' E; simpl in E; [injection E as <-; simpl; rewrite app_nil_r; auto|].
  destruct (estep d s l) as [s1|] eqn:E1; [|discriminate]. rewrite (IH _ _ E). unfold estep in E1.
  destruct (dead s); [discriminate|]. destruct l as [f|l].
  - simpl. change (f :: called ls) with ([f] ++ called ls). rewrite app_assoc. f_equal.
    destruct (d =? 0); [destruct (held s)|]; simpl in E1; injection E1 as <-; simpl; rewrite fmap_app; auto.
  - simpl. f_equal. f_equal. repeat (case_match; try discriminate); injection E1 as <-; auto.
Qed.

Lemma zero_final t ls s : erun 0 (einit t) ls = Some s -> dead s = false /\ handed s = calls s /\ (handed s).*1 = called ls.
Proof.
  intros E. destruct (zero_run ls (einit t) s) as [H1 H2]; auto. split; [auto|]. split; [auto|].
  rewrite H2. apply (calls_spec _ _ _ _ E).
Qed.

Lemma single_final d t ls s f : d <> 0 -> erun d (einit t) ls = Some s -> called ls = [f] -> dead s = false /\
  exists t0, calls s = [(f, t0)] /\
    ((exists t1, handed s = [(f, t1)] /\ t0 + d <= t1) \/
     (handed s = [] /\ exists e, e ∈ pending (timer s) /\ payload e = Job f true /\ due e = t0 + d)).
Proof.
  intros Hd E Hc. pose proof (erun_inv d ls (einit t) s Hd (einit_inv d t) E) as [Ec Er Es].
  pose proof (calls_spec _ _ _ _ E) as Hcs. simpl in Hcs. rewrite Hc in Hcs.
  destruct (calls s) as [|[f0 t0] [|]] eqn:Ecs; try discriminate. injection Hcs as ->.
  destruct (held s); [destruct Es; discriminate|].
  destruct Es as (f1&t1&c&H1&H2). injection H1 as <- <- <-.
  assert (Hg : goods (timer s) = [(f, t0 + d)] -> (1 <= length (bads (timer s)))%nat /\ exists e, e ∈ pending (timer s) /\ payload e = Job f true /\ due e = t0 + d).
  { intros Hg. assert (Hin : (f, t0 + d) ∈ goods (timer s)) by (rewrite Hg; left).
    unfold goods in Hin. apply elem_of_list_omap in Hin as (e&He&H). unfold good in H.
    assert (is_job e = true /\ payload e = Job f true /\ due e = t0 + d) as (B1&B2&B3).
    { unfold is_job. destruct (payload e) as [|? []]; try discriminate. injection H as -> ->. auto. }
    split; [|eauto]. assert (e ∈ bads (timer s)) by (apply elem_of_list_filter; auto).
    destruct (bads (timer s)); [set_solver|simpl; lia]. }
  simpl in Ec. destruct H2 as [[H2 H3]|[H2 (t1&H3&H4)]].
  - destruct (Hg H2) as [Hlen Hex]. split; [destruct (dead s); [lia|auto]|]. exists t0. split; [auto|]. right. auto.
  - rewrite H3 in Ec. simpl in Ec. split; [destruct (dead s); [lia|auto]|]. exists t0. split; [auto|]. left. eauto.
Qed.

Lemma at_most_one d t ls s : d <> 0 -> erun d (einit t) ls = Some s -> (length (handed s) <= 1)%nat /\
  ((2 <= length (called ls))%nat -> bads (timer s) = [] -> dead s = true).
Proof.
  intros Hd E. pose proof (erun_inv d ls (einit t) s Hd (einit_inv d t) E) as [Ec Er Es].
  pose proof (calls_spec _ _ _ _ E) as Hcs. apply (f_equal length) in Hcs. rewrite fmap_length in Hcs. simpl in Hcs.
  assert (H : (length (handed s) <= 1)%nat).
  { destruct (held s); [destruct Es as (?&?&->); simpl; lia|].
    destruct Es as (f1&t1&c&H1&[[_ ->]|[_ (?&->&_)]]); simpl; lia. }
  split; [auto|]. intros H2 H3. rewrite H3 in Ec. simpl in Ec. destruct (dead s); [auto|lia].
Qed.
