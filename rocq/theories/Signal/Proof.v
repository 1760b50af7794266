From Coq Require Import List Bool Arith ZArith Lia.
From stdpp Require Import list.
From Verif.Signal Require Import Model Spec.
Global Arguments Nat.eqb : simpl never.
Global Arguments wrap : simpl never.

Lemma finished_app a b : finished (a ++ b) = finished a + finished b.
Proof. induction a as [|[] a IH]; simpl; rewrite ?IH; done. Qed.
Lemma tracked_app a b : tracked (a ++ b) = (tracked a + tracked b)%Z.
Proof. induction a as [|[] a IH]; simpl; rewrite ?IH; lia. Qed.
Lemma reports_app a b : reports (a ++ b) = reports a ++ reports b.
Proof. induction a as [|[] a IH]; simpl; rewrite ?IH; done. Qed.
Lemma elem_reports tr i n d : Report i n d ∈ tr <-> (i, n, d) ∈ reports tr.
Proof.
  induction tr as [|e tr IH]; simpl.
  - split; intros H; by apply elem_of_nil in H.
  - rewrite elem_of_cons, IH.
    destruct e; rewrite ?elem_of_cons; (split; [intros [H|H]|intros H]); simplify_eq; auto.
    destruct H as [H|H]; [left; congruence|by right].
Qed.

(** invocations which have not called _signal yet *)
Definition waiting (c : nat * pc) : bool := match c.2 with Args _ _ => true | Call => false end.
Definition pend (cs : list (nat * pc)) : list nat := (filter (fun c => waiting c) cs).*1.
Definition who (tr : list event) : list nat := (fun r => r.1.1) <$> reports tr.

Lemma who_app a b : who (a ++ b) = who a ++ who b.
Proof. unfold who. by rewrite reports_app, fmap_app. Qed.

Record good (s : st) (tr : list event) : Prop := Good {
  g_c : completed s = finished tr;
  g_s : steps s = wrap (tracked tr);
  g_d : forall i, Done i ∈ tr <-> i < finished tr;
  g_p : who tr ++ pend (calls s) ≡ₚ seq 0 (finished tr);
  g_a : forall i n d, (i, Args n d) ∈ calls s ->
        i < finished tr /\
        (forall v, n = Some v -> exists a b, tr = a ++ b /\ Done i ∈ a /\ v = wrap (tracked a)) /\
        (forall v, d = Some v -> exists a b, tr = a ++ b /\ Done i ∈ a /\ v = finished a);
  g_r : forall tr1 tr2 i n d, tr = tr1 ++ Report i n d :: tr2 ->
        (exists a b, tr1 = a ++ b /\ Done i ∈ a /\ n = wrap (tracked a)) /\
        (exists a b, tr1 = a ++ b /\ Done i ∈ a /\ d = finished a)
}.
(** of the shape a trace has: the numbers of the invocations count up *)
Definition counts (tr : list event) : Prop := forall tr1 tr2 i, tr = tr1 ++ Done i :: tr2 -> i = finished tr1.

Lemma good_init : good init [].
Proof.
  split; simpl; try done.
  - intros i. split; intros H; [by apply elem_of_nil in H|lia].
  - intros i n d H. by apply elem_of_nil in H.
  - intros tr1 tr2 i n d H. destruct tr1; discriminate H.
Qed.

Lemma wrap_add x y : wrap (wrap x + y) = wrap (x + y).
Proof. unfold wrap. by rewrite Zplus_mod_idemp_l. Qed.

Lemma snoc_split {A} (tr tr1 tr2 : list A) (e x : A) :
  tr ++ [e] = tr1 ++ x :: tr2 -> (tr2 = [] /\ e = x /\ tr = tr1) \/ (exists tr2', tr2 = tr2' ++ [e] /\ tr = tr1 ++ x :: tr2').
Proof.
  intros H. destruct tr2 as [|y tr2 _] using rev_ind.
  - apply app_inj_tail in H as [-> ->]. auto.
  - right. exists tr2. rewrite app_comm_cons, app_assoc in H. apply app_inj_tail in H as [-> ->]. auto.
Qed.

Lemma pend_app a b : pend (a ++ b) = pend a ++ pend b.
Proof. unfold pend. by rewrite filter_app, fmap_app. Qed.
Lemma split_at {A} (l : list A) k x : l !! k = Some x -> l = take k l ++ x :: drop (S k) l /\ length (take k l) = k.
Proof.
  intros H. split; [symmetry; by apply take_drop_middle|].
  apply take_length_le. apply lookup_lt_Some in H. lia.
Qed.

(** an event which is neither a completion nor a report changes little *)
Lemma good_quiet s tr e s' :
  good s tr -> (forall i, e <> Done i) -> (forall i n d, e <> Report i n d) ->
  completed s' = completed s -> steps s' = wrap (tracked (tr ++ [e])) ->
  (forall c, c ∈ calls s' -> c ∈ calls s) -> pend (calls s') = pend (calls s) -> good s' (tr ++ [e]).
Proof.
  intros [Hc Hs Hd Hp Ha Hr] He1 He2 Hc' Hs' Hin Hpd.
  assert (Hf : finished (tr ++ [e]) = finished tr).
  { rewrite finished_app. destruct e; simpl; try lia. by destruct (He1 i). }
  split; rewrite ?Hf; try congruence.
  - intros i. rewrite <- Hd, elem_of_app, elem_of_list_singleton. split; [intros [H|H]; auto|auto]. by destruct (He1 i).
  - unfold who. rewrite reports_app, Hpd.
    replace (reports [e]) with (@nil (nat * Z * nat)); [rewrite app_nil_r; exact Hp|].
    destruct e; try done. by destruct (He2 i n d).
  - intros i n d H. apply Hin in H. apply Ha in H as (H1 & H2 & H3). split; [done|]. split.
    + intros v Hv. destruct (H2 v Hv) as (a & b & -> & ? & ?). exists a, (b ++ [e]). by rewrite app_assoc.
    + intros v Hv. destruct (H3 v Hv) as (a & b & -> & ? & ?). exists a, (b ++ [e]). by rewrite app_assoc.
  - intros tr1 tr2 i n d H. apply snoc_split in H as [(-> & H & ->)|(tr2' & -> & H)].
    + by destruct (He2 i n d).
    + by apply (Hr tr1 tr2').
Qed.

Lemma elem_insert {A} (l : list A) k x y : y ∈ <[k := x]> l -> y = x \/ y ∈ l.
Proof.
  intros H. apply elem_of_list_lookup in H as [j H]. destruct (decide (k = j)) as [->|Hk].
  - destruct (decide (j < length l)) as [Hl|Hl].
    + rewrite list_lookup_insert in H by done. left. congruence.
    + rewrite list_insert_ge in H by lia. right. by eapply elem_of_list_lookup_2.
  - rewrite list_lookup_insert_ne in H by done. right. by eapply elem_of_list_lookup_2.
Qed.
Lemma pend_insert cs k i p p' :
  cs !! k = Some (i, p) -> waiting (i, p) = waiting (i, p') -> pend (<[k := (i, p')]> cs) = pend cs.
Proof.
  intros H Hw. destruct (split_at _ _ _ H) as [E L]. rewrite E at 1 2.
  replace k with (length (take k cs) + 0) at 1 by lia. rewrite insert_app_r. simpl.
  rewrite !pend_app. f_equal. unfold pend. rewrite !filter_cons. rewrite Hw. by destruct (decide _).
Qed.

Lemma pend_report cs k i n d :
  cs !! k = Some (i, Args n d) -> pend cs ≡ₚ i :: pend (<[k := (i, Call)]> cs).
Proof.
  intros H. destruct (split_at _ _ _ H) as [E L]. set (x := take k cs) in *. set (y := drop (S k) cs) in *.
  rewrite E. replace k with (length x + 0) by lia. rewrite insert_app_r. simpl.
  rewrite !pend_app. unfold pend at 2 4. rewrite !filter_cons. simpl. symmetry. apply Permutation_middle.
Qed.

Lemma good_step s tr l s' e : good s tr -> step s l = Some (s', e) -> good s' (tr ++ e).
Proof.
  intros G H. pose proof G as [Hc Hs Hd Hp Ha Hr]. destruct l; simpl in H.
  - simplify_eq. apply (good_quiet s); simpl; try done.
    rewrite tracked_app, Hs, wrap_add. done.
  - simplify_eq. apply (good_quiet s); simpl; try done.
    rewrite tracked_app, Hs. unfold Z.sub. rewrite wrap_add. done.
  - simplify_eq. rewrite Hc.
    assert (Hf : finished (tr ++ [Done (finished tr)]) = S (finished tr)) by (rewrite finished_app; simpl; lia).
    split; simpl; rewrite ?Hf; try congruence.
    + rewrite tracked_app, Hs. simpl. f_equal. lia.
    + intros i. rewrite elem_of_app, elem_of_list_singleton, Hd. split.
      * intros [H|H]; [lia|injection H; lia].
      * intros H. destruct (decide (i = finished tr)) as [->|]; [by right|left; lia].
    + change (0 :: seq 1 (finished tr)) with (seq 0 (S (finished tr))).
      unfold who. rewrite reports_app. rewrite app_nil_r, pend_app, seq_S, app_assoc. simpl.
      apply Permutation_app_tail. exact Hp.
    + intros i n d H. apply elem_of_app in H as [H|H].
      * apply Ha in H as (H1 & H2 & H3). split; [lia|]. split.
        -- intros v Hv. destruct (H2 v Hv) as (a & b & E & ? & ?). exists a, (b ++ [Done (finished tr)]).
           rewrite app_assoc, <- E. done.
        -- intros v Hv. destruct (H3 v Hv) as (a & b & E & ? & ?). exists a, (b ++ [Done (finished tr)]).
           rewrite app_assoc, <- E. done.
      * apply elem_of_list_singleton in H. simplify_eq. split; [lia|]. split; intros v Hv; discriminate.
    + intros tr1 tr2 i n d H. apply snoc_split in H as [(-> & H & E)|(tr2' & -> & H)]; [discriminate|].
      by apply (Hr tr1 tr2').
  - destruct (calls s !! k) as [[i [[n|] d|]]|] eqn:Hk; try discriminate. simplify_eq. rewrite app_nil_r.
    pose proof (elem_of_list_lookup_2 _ _ _ Hk) as Hin.
    split; simpl; try done.
    + erewrite pend_insert; [exact Hp|exact Hk|done].
    + intros i' n' d' H. apply elem_insert in H as [H|H]; [|by apply Ha].
      simplify_eq. destruct (Ha _ _ _ Hin) as (H1 & H2 & H3). split; [done|]. split; [|done].
      intros v Hv. simplify_eq. exists tr, []. rewrite app_nil_r. split_and!; [done|by apply Hd|done].
  - destruct (calls s !! k) as [[i [n [d|]|]]|] eqn:Hk; try discriminate. simplify_eq. rewrite app_nil_r.
    pose proof (elem_of_list_lookup_2 _ _ _ Hk) as Hin.
    split; simpl; try done.
    + erewrite pend_insert; [exact Hp|exact Hk|done].
    + intros i' n' d' H. apply elem_insert in H as [H|H]; [|by apply Ha].
      simplify_eq. destruct (Ha _ _ _ Hin) as (H1 & H2 & H3). split; [done|]. split; [done|].
      intros v Hv. simplify_eq. exists tr, []. rewrite app_nil_r. split_and!; [done|by apply Hd|done].
  - destruct (calls s !! k) as [[i [[n|] [d|]|]]|] eqn:Hk; try discriminate. simplify_eq.
    pose proof (elem_of_list_lookup_2 _ _ _ Hk) as Hin. destruct (Ha _ _ _ Hin) as (H1 & H2 & H3).
    assert (Hf : finished (tr ++ [Report i n d]) = finished tr) by (rewrite finished_app; simpl; lia).
    split; simpl; rewrite ?Hf; try done.
    + rewrite tracked_app, Hs. simpl. f_equal. lia.
    + intros j. rewrite elem_of_app, elem_of_list_singleton, Hd. split; [intros [H|H]; [done|discriminate]|auto].
    + unfold who. rewrite reports_app, fmap_app. simpl. rewrite <- Hp.
      rewrite (pend_report _ _ _ _ _ Hk). unfold who. rewrite <- app_assoc. done.
    + intros i' n' d' H. apply elem_insert in H as [H|H]; [discriminate|].
      apply Ha in H as (H1' & H2' & H3'). split; [done|]. split.
      * intros v Hv. destruct (H2' v Hv) as (a & b & E & ? & ?). exists a, (b ++ [Report i n d]). rewrite app_assoc, <- E. done.
      * intros v Hv. destruct (H3' v Hv) as (a & b & E & ? & ?). exists a, (b ++ [Report i n d]). rewrite app_assoc, <- E. done.
    + intros tr1 tr2 i' n' d' H. apply snoc_split in H as [(-> & H & ->)|(tr2' & -> & H)]; [|by apply (Hr tr1 tr2')].
      simplify_eq. split; [by apply H2|by apply H3].
  - destruct (calls s !! k) as [[i [n d|]]|] eqn:Hk; try discriminate. simplify_eq.
    apply (good_quiet s); simpl; try done.
    + rewrite tracked_app, Hs. simpl. f_equal. lia.
    + intros c H. apply elem_of_list_lookup in H as [j H]. destruct (decide (j < k)).
      * rewrite lookup_delete_lt in H by done. by eapply elem_of_list_lookup_2.
      * rewrite lookup_delete_ge in H by lia. by eapply elem_of_list_lookup_2.
    + destruct (split_at _ _ _ Hk) as [E L]. rewrite E at 2. rewrite delete_take_drop, !pend_app. done.
Qed.

Lemma good_run ls s tr s' tr' : good s tr -> run s ls = Some (s', tr') -> good s' (tr ++ tr').
Proof.
  revert s tr s' tr'. induction ls as [|l ls IH]; intros s tr s' tr' G H; simpl in H.
  - simplify_eq. by rewrite app_nil_r.
  - destruct (step s l) as [[s1 e1]|] eqn:E; [|done]. destruct (run s1 ls) as [[s2 e2]|] eqn:E2; [|done]. simplify_eq.
    rewrite app_assoc. eapply IH; [|exact E2]. by eapply good_step.
Qed.
Lemma good_from ls s tr : run init ls = Some (s, tr) -> good s tr.
Proof. intros H. apply (good_run ls init [] s tr good_init H). Qed.

Lemma counts_step s tr l s' e : good s tr -> counts tr -> step s l = Some (s', e) -> counts (tr ++ e).
Proof.
  intros G C H tr1 tr2 i E. destruct l; simpl in H; repeat case_match; simplify_eq;
    rewrite ?app_nil_r in E; try (by eapply C);
    apply snoc_split in E as [(-> & E & ->)|(t & -> & E)]; try discriminate; try (by eapply C).
  injection E as <-. apply G.
Qed.
Lemma counts_run ls s tr s' tr' : good s tr -> counts tr -> run s ls = Some (s', tr') -> counts (tr ++ tr').
Proof.
  revert s tr s' tr'. induction ls as [|l ls IH]; intros s tr s' tr' G C H; simpl in H.
  - simplify_eq. by rewrite app_nil_r.
  - destruct (step s l) as [[s1 e1]|] eqn:E; [|done]. destruct (run s1 ls) as [[s2 e2]|] eqn:E2; [|done]. simplify_eq.
    rewrite app_assoc. eapply IH; [| |exact E2]; [by eapply good_step|by eapply counts_step].
Qed.
Lemma counts_from ls s tr : run init ls = Some (s, tr) -> counts tr.
Proof.
  intros H. apply (counts_run ls init [] s tr good_init); [|done].
  intros tr1 tr2 i E. destruct tr1; discriminate.
Qed.

Lemma rest_none s : at_rest s -> calls s = [].
Proof.
  intros H. destruct (calls s) as [|[i p] cs] eqn:E; [done|exfalso].
  destruct (H 0) as (H1 & H2 & H3 & H4). simpl in *. rewrite E in *. simpl in *.
  destruct p as [[n|] [d|]|]; discriminate.
Qed.

(** each completed invocation is numbered, and reports at most once; exactly once when all is at rest *)
Lemma once ls s tr :
  run init ls = Some (s, tr) ->
  NoDup (who tr) /\ (forall i, i ∈ who tr -> i < finished tr) /\ (at_rest s -> who tr ≡ₚ seq 0 (finished tr)).
Proof.
  intros H. apply good_from in H as [_ _ _ Hp _ _].
  assert (N : NoDup (who tr ++ pend (calls s))) by (rewrite Hp; apply NoDup_ListNoDup, List.seq_NoDup).
  split_and!.
  - by apply NoDup_app in N as [N _].
  - intros i Hi. assert (i ∈ seq 0 (finished tr)) as Hs by (rewrite <- Hp; apply elem_of_app; by left).
    apply elem_of_list_In, in_seq in Hs. lia.
  - intros R. apply rest_none in R. rewrite R, app_nil_r in Hp. exact Hp.
Qed.

Lemma finished_mono a b : finished a <= finished (a ++ b).
Proof. rewrite finished_app. lia. Qed.
Lemma done_in ls s tr a b i : run init ls = Some (s, tr) -> tr = a ++ b -> Done i ∈ a -> i < finished a.
Proof.
  intros H E Hi. apply elem_of_list_split in Hi as (a1 & a2 & ->).
  rewrite (counts_from _ _ _ H a1 (a2 ++ b) i) by (rewrite E; by rewrite <- app_assoc).
  rewrite finished_app. simpl. lia.
Qed.

(** what a report says was the case at some moment between the completion and the report *)
Lemma says ls s tr tr1 tr2 i n d :
  run init ls = Some (s, tr) -> tr = tr1 ++ Report i n d :: tr2 ->
  (exists a b, tr1 = a ++ b /\ Done i ∈ a /\ n = (tracked a mod 2 ^ 64)%Z) /\
  (exists a b, tr1 = a ++ b /\ Done i ∈ a /\ d = finished a) /\
  i < d <= finished tr1.
Proof.
  intros H E. pose proof (good_from _ _ _ H) as G. destruct (g_r _ _ G _ _ _ _ _ E) as [Hn Hd].
  split_and!; try done.
  - destruct Hd as (a & b & -> & Hi & ->). eapply done_in; [exact H|rewrite E, <- app_assoc; done|done].
  - destruct Hd as (a & b & -> & Hi & ->). apply finished_mono.
Qed.

Lemma who_report tr i : i ∈ who tr -> exists n d, Report i n d ∈ tr.
Proof.
  intros H. apply elem_of_list_fmap in H as ([[i' n] d] & -> & H). exists n, d. by apply elem_reports.
Qed.
Lemma report_who tr i n d : Report i n d ∈ tr -> i ∈ who tr.
Proof. intros H. apply elem_reports in H. apply elem_of_list_fmap. by exists (i, n, d). Qed.

(** the count of all is reported *)
Lemma final ls s tr :
  run init ls = Some (s, tr) -> at_rest s -> 0 < finished tr ->
  exists n, Report (finished tr - 1) n (finished tr) ∈ tr /\
    (forall tr1 tr2, tr = tr1 ++ Done (finished tr - 1) :: tr2 -> Added ∉ tr2 -> Gone ∉ tr2 -> n = (tracked tr mod 2 ^ 64)%Z).
Proof.
  intros H R Hpos. destruct (once _ _ _ H) as (_ & _ & Ho). specialize (Ho R).
  assert (Hw : finished tr - 1 ∈ who tr). { rewrite Ho. apply elem_of_list_In, in_seq. lia. }
  apply who_report in Hw as (n & d & Hr). pose proof Hr as Hr'. apply elem_of_list_split in Hr as (tr1 & tr2 & E).
  destruct (says _ _ _ _ _ _ _ _ H E) as ((a & b & Ea & Hi & Hn) & _ & Hd1 & Hd2).
  assert (finished tr1 <= finished tr) by (rewrite E at 1; apply finished_mono).
  assert (d = finished tr) as -> by lia. exists n. split; [done|].
  intros u1 u2 Eu Hu1 Hu2. rewrite Hn. f_equal.
  assert (Q : forall l, Added ∉ l -> Gone ∉ l -> tracked l = 0%Z).
  { clear. induction l as [|e l IH]; [done|]. rewrite !not_elem_of_cons. intros [? ?] [? ?]. destruct e; simpl; auto; done. }
  (* the events after a are among u2 *)
  assert (X : exists v, u2 = v ++ b ++ Report (finished tr - 1) n (finished tr) :: tr2 /\ a = u1 ++ Done (finished tr - 1) :: v).
  { apply elem_of_list_split in Hi as (a1 & a2 & Ei).
    set (N := finished tr) in *.
    assert (E1 : tr = a1 ++ Done (N - 1) :: (a2 ++ b ++ Report (N - 1) n N :: tr2)).
    { rewrite E, Ea, Ei. by rewrite <- !app_assoc. }
    assert (L1 := counts_from _ _ _ H _ _ _ E1). assert (L2 := counts_from _ _ _ H _ _ _ Eu).
    assert (a1 = u1 /\ a2 ++ b ++ Report (N - 1) n N :: tr2 = u2) as [-> <-].
    { clearbody N. rewrite E1 in Eu. clear -Eu L1 L2. revert u1 L2 Eu. revert N L1.
      assert (P : forall a1 u1 (x y : list event) i, finished a1 = finished u1 -> a1 ++ Done i :: x = u1 ++ Done i :: y -> a1 = u1 /\ x = y).
      { clear. induction a1 as [|e a1 IH]; intros [|e' u1] x y i L E.
        - by simplify_eq.
        - simpl in E. injection E as <- _. discriminate L.
        - simpl in E. injection E as -> _. discriminate L.
        - simpl in E. injection E as <- E. assert (Hl : finished a1 = finished u1) by (destruct e; simpl in L; lia).
          by destruct (IH _ _ _ _ Hl E) as [-> ->]. }
      intros N L1 u1 L2 Eu. eapply P; [|exact Eu]. congruence. }
    exists a2. by rewrite Ei. }
  destruct X as (v & Ev & Eva). rewrite Eu, Eva, !tracked_app. simpl. rewrite Ev, !tracked_app.
  assert (tracked (b ++ Report (finished tr - 1) n (finished tr) :: tr2) = 0%Z).
  { apply Q; intros F; [apply Hu1|apply Hu2]; rewrite Ev; apply elem_of_app; by right. }
  rewrite tracked_app in H1. simpl in *. lia.
Qed.

(** if the invocations report one after the other then each count is reported, in order *)
Lemma ordered ls s tr :
  run init ls = Some (s, tr) -> one_at_a_time tr ->
  (fun r => r.2) <$> reports tr = seq 1 (length (reports tr)).
Proof.
  intros H O. pose proof (good_from _ _ _ H) as G. pose proof (counts_from _ _ _ H) as C.
  (* for prefixes: reports are numbered in order, and say their number *)
  assert (P : forall a b, tr = a ++ b -> who a = seq 0 (length (who a)) /\ (fun r => r.2) <$> reports a = seq 1 (length (reports a)) /\
    length (who a) <= finished a <= S (length (who a))).
  { induction a as [|e a IH] using rev_ind; intros b E; [simpl; auto|].
    rewrite <- app_assoc in E. simpl in E. destruct (IH _ E) as (H1 & H2 & H3).
    destruct e as [| |i|i n d|i].
    - unfold who in *. rewrite finished_app, reports_app. simpl. rewrite app_nil_r. split_and!; auto; lia.
    - unfold who in *. rewrite finished_app, reports_app. simpl. rewrite app_nil_r. split_and!; auto; lia.
    - (* all those before have reported *)
      assert (finished a <= length (who a)).
      { destruct (decide (finished a = 0)); [lia|].
        assert (Done (finished a - 1) ∈ a) as Hd.
        { assert (F : forall l k, counts l -> k < finished l -> Done k ∈ l).
          { clear. induction l as [|e l IH] using rev_ind; intros k Cl Hk; [simpl in Hk; lia|].
            rewrite finished_app in Hk. apply elem_of_app. destruct (decide (k < finished l)) as [Hl|Hl].
            - left. apply IH; [|done]. intros t1 t2 j ->. apply (Cl t1 (t2 ++ [e])). by rewrite <- app_assoc.
            - right. apply elem_of_list_singleton. destruct e; simpl in Hk; try lia.
              rewrite (Cl l [] i); [|done]. f_equal. lia. }
          apply F; [|lia]. intros t1 t2 j ->. apply (C t1 (t2 ++ Done i :: b)). rewrite E. by rewrite <- app_assoc. }
        destruct (O _ _ _ _ E Hd) as (n' & d' & Hr'). apply report_who in Hr'. rewrite H1 in Hr'.
        apply elem_of_list_In, in_seq in Hr'. lia. }
      unfold who in *. rewrite finished_app, reports_app. simpl. rewrite app_nil_r. split_and!; auto; lia.
    - assert (E' : tr = a ++ Report i n d :: b) by done.
      destruct (says _ _ _ _ _ _ _ _ H E') as (_ & _ & Hd1 & Hd2).
      assert (Hi : i ∉ who a).
      { destruct (once _ _ _ H) as (N & _ & _). unfold who in N. rewrite E', reports_app, fmap_app in N. simpl in N.
        apply NoDup_app in N as (_ & N & _). intros F. apply (N i F). by left. }
      rewrite H1 in Hi. assert (~ i < length (who a)). { intros F. apply Hi, elem_of_list_In, in_seq. lia. }
      assert (i = length (who a)) as -> by lia. assert (d = S (length (who a))) as -> by lia.
      assert (Lw : length (who a) = length (reports a)) by (unfold who; by rewrite fmap_length).
      split_and!.
      + rewrite who_app, app_length. simpl. rewrite Nat.add_1_r, seq_S, <- H1. done.
      + rewrite reports_app, fmap_app, app_length. simpl. rewrite Nat.add_1_r, seq_S, <- H2, Lw. done.
      + rewrite finished_app, who_app, app_length. simpl. lia.
      + rewrite finished_app, who_app, app_length. simpl. lia.
    - unfold who in *. rewrite finished_app, reports_app. simpl. rewrite app_nil_r. split_and!; auto; lia. }
  destruct (P tr [] (eq_sym (app_nil_r _))) as (_ & ? & _). done.
Qed.

(** a thread in task_done can always go on, and is out of it after at most four steps of its own *)
Definition left_of (c : nat * pc) : nat :=
  match c with (_, Args None None) => 4 | (_, Args None (Some _)) => 3 | (_, Args (Some _) None) => 3 | (_, Args (Some _) (Some _)) => 2 | (_, Call) => 1 end.
Definition left_all (s : st) : nat := list_sum (left_of <$> calls s).
Lemma oaat_spec' prev tr : oaat prev tr = true ->
  forall tr1 tr2 i j, tr = tr1 ++ Done i :: tr2 -> Done j ∈ prev ++ tr1 -> exists n d, Report j n d ∈ prev ++ tr1.
Proof.
  revert prev. induction tr as [|e tr IH]; intros prev H tr1 tr2 i j E Hj; [destruct tr1; discriminate|].
  simpl in H. apply andb_prop in H as [H1 H2]. destruct tr1 as [|e' tr1]; simpl in E; simplify_eq.
  - rewrite app_nil_r in *. rewrite forallb_forall in H1. specialize (H1 (Done j)).
    apply elem_of_list_In in Hj. specialize (H1 Hj). simpl in H1. apply existsb_exists in H1 as (x & Hx & Ex).
    destruct x as [| | |k n d|]; try discriminate. apply Nat.eqb_eq in Ex as ->. exists n, d. by apply elem_of_list_In.
  - replace (prev ++ e' :: tr1) with ((prev ++ [e']) ++ tr1) in * by (by rewrite <- app_assoc). by eapply IH.
Qed.
Lemma oaat_spec tr : oaat [] tr = true -> one_at_a_time tr.
Proof. intros H tr1 tr2 i j E Hj. by eapply (oaat_spec' [] tr). Qed.

Lemma sum_insert cs k i p p' :
  cs !! k = Some (i, p) -> list_sum (left_of <$> <[k := (i, p')]> cs) + left_of (i, p) = list_sum (left_of <$> cs) + left_of (i, p').
Proof.
  intros H. destruct (split_at _ _ _ H) as [E L]. rewrite E at 1 2.
  replace k with (length (take k cs) + 0) at 1 by lia. rewrite insert_app_r. simpl.
  rewrite !fmap_app, !list_sum_app. simpl. lia.
Qed.
Lemma step_left s l s' e : step s l = Some (s', e) -> l <> Finish -> l <> Add -> l <> Drop -> left_all s = S (left_all s').
Proof.
  intros H N1 N2 N3. unfold left_all. destruct l; try done; simpl in H;
    destruct (calls s !! k) as [[i p]|] eqn:Hk; try done.
  - destruct p as [[n|] d|]; try done. simplify_eq. simpl.
    pose proof (sum_insert _ _ _ _ (Args (Some (steps s)) d) Hk) as X. destruct d; simpl in X; lia.
  - destruct p as [n [d|]|]; try done. simplify_eq. simpl.
    pose proof (sum_insert _ _ _ _ (Args n (Some (completed s))) Hk) as X. destruct n; simpl in X; lia.
  - destruct p as [[n|] [d|]|]; try done. simplify_eq. simpl.
    pose proof (sum_insert _ _ _ _ Call Hk) as X. simpl in X; lia.
  - destruct p; try done. simplify_eq. simpl. destruct (split_at _ _ _ Hk) as [E L]. rewrite E at 1.
    rewrite delete_take_drop, !fmap_app, !list_sum_app. csimpl. lia.
Qed.
Lemma goes_on s : calls s <> [] -> exists l s' e,
  step s l = Some (s', e) /\ left_all s' < left_all s.
Proof.
  intros H.
  assert (X : exists l s' e, step s l = Some (s', e) /\ l <> Finish /\ l <> Add /\ l <> Drop).
  { destruct (calls s) as [|[i p] cs] eqn:E; [done|]. destruct p as [[n|] [d|]|].
    - exists (Signal 0). simpl. rewrite E. simpl. by eexists _, _.
    - exists (ReadCompleted 0). simpl. rewrite E. simpl. by eexists _, _.
    - exists (ReadSteps 0). simpl. rewrite E. simpl. by eexists _, _.
    - exists (ReadSteps 0). simpl. rewrite E. simpl. by eexists _, _.
    - exists (End 0). simpl. rewrite E. simpl. by eexists _, _. }
  destruct X as (l & s' & e & Hs & H1 & H2 & H3). exists l, s', e. split; [done|].
  rewrite (step_left _ _ _ _ Hs H1 H2 H3). lia.
Qed.
(** from any state the calls in progress can come to an end *)
Lemma comes_to_rest s : exists ls s' tr, run s ls = Some (s', tr) /\ at_rest s' /\ completed s' = completed s.
Proof.
  remember (left_all s) as m eqn:Em. revert s Em. induction m as [m IH] using lt_wf_ind. intros s Em.
  destruct (calls s) as [|c cs] eqn:E.
  - exists [], s, []. split_and!; try done. intros k. simpl. rewrite E. simpl. done.
  - destruct (goes_on s) as (l & s1 & e & Hs & Hl); [by rewrite E|].
    destruct (IH (left_all s1)) with (s := s1) as (ls & s2 & tr & Hr & Hrest & Hc); [lia|done|].
    exists (l :: ls), s2, (e ++ tr). simpl. rewrite Hs, Hr. split_and!; [done|done|]. rewrite Hc.
    destruct l; simpl in Hs; repeat case_match; simplify_eq; try done.
    exfalso. unfold left_all in Hl. simpl in Hl. rewrite fmap_app, list_sum_app in Hl. lia.
Qed.
