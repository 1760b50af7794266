From Coq Require Import ZArith List Bool Lia.
From stdpp Require Import list list_numbers.
From Verif.Lib Require Import Perm.
From Verif.Executor Require Import Queue QueueSpec QueueProof Pool PoolProof PoolInv PoolWake PoolThm PrioSpec.

Lemma serves_push_r {A} (l : list (nat * A)) os out l' p a : serves l os out l' -> serves l (os ++ [Push p a]) out (l' ++ [(p, a)]).
Proof. induction 1; simpl; [repeat constructor|by constructor|by econstructor]. Qed.
Lemma serves_pop_r {A} (l : list (nat * A)) os out l' k a l1 :
  serves l os out l' -> takes l' a l1 -> serves l (os ++ [Pop k]) (out ++ [a]) l1.
Proof. induction 1; simpl; intros T; [econstructor; [done|constructor]|constructor; auto|econstructor; eauto]. Qed.

Lemma ops_app pr home j a b : ops pr home j (a ++ b) = ops pr home j a ++ ops pr home j b.
Proof. induction a as [|[] a IH]; simpl; rewrite ?IH, ?app_assoc; done. Qed.
Lemma started_app home j a b : started home j (a ++ b) = started home j a ++ started home j b.
Proof. unfold started. by rewrite starts_app, filter_app. Qed.

Definition carries (t p : nat) (x : cpc) : Prop := match x with Try t' p' _ _ | PushIt t' p' _ => t' = t /\ p' = p | _ => False end.
Definition same (q q' : nq nat) : Prop := items q' = items q /\ count q' = count q.

(** what a step does to the queues *)
Inductive change (s s' : st) : list event -> Prop :=
  | ch_none e : pushes e = [] -> starts e = [] ->
      (forall j q', qs s' !! j = Some q' -> exists q, qs s !! j = Some q /\ same q q') -> change s s' e
  | ch_push x t p j q : x ∈ calls s -> carries t p x -> qs s !! j = Some q -> qs s' = <[j := push p t q]> (qs s) -> change s s' [Pushed t]
  | ch_pop t j q q0 q' k : qs s !! j = Some q -> same q q0 -> pop_at k q0 = Some (t, q') -> qs s' = <[j := q']> (qs s) -> change s s' [Started t].

Lemma step_change s l s' e : step s l = Some (s', e) -> change s s' e.
Proof.
  intros H%step_t.
  assert (Hid : forall qq, qq = qs s -> forall j (q' : nq nat), qq !! j = Some q' -> exists q, qs s !! j = Some q /\ same q q').
  { intros ? -> j q' Hq. exists q'. split; [done|by split]. }
  assert (Hup : forall k q qn, qs s !! k = Some q -> same q qn ->
    forall j (q' : nq nat), <[k := qn]> (qs s) !! j = Some q' -> exists q, qs s !! j = Some q /\ same q q').
  { intros k q qn Hk Hs j q' Hq. destruct (decide (k = j)) as [->|N].
    - rewrite list_lookup_insert in Hq by (by eapply lookup_lt_Some). simplify_eq. eauto.
    - rewrite list_lookup_insert_ne in Hq by done. exists q'. split; [done|by split]. }
  destruct H; try (constructor 1; [done|done|]; simpl;
     try (destruct (notify_w_shape i s) as (w' & -> & _)); try (destruct (notify_w_shape k s) as (w' & -> & _));
     try (destruct (notify_e_shape i s) as (w' & -> & _)); try (destruct (notify_e_shape k s) as (w' & -> & _));
     try (destruct (notify_e_shape n s) as (w' & -> & _)); simpl;
     first [by apply Hid | eapply Hup; [eassumption|by split] | idtac]; fail).
  - eapply (ch_push _ _ x t p j q); [by eapply elem_of_list_lookup_2| |done|done].
    destruct H0 as [[-> _]|[-> _]]; simpl; auto.
  - eapply (ch_pop _ _ t j q q q' k); [done|by split|done|done].
  - constructor 1; [done|done|]. simpl. eapply Hup; [eassumption|]. destruct H1 as [[_ ->]|[_ ->]]; by split.
  - eapply (ch_pop _ _ t i q (set_waiting false q) q' k); [done|by split|done|done].
  - eapply (ch_pop _ _ t j q q q' k); [done|by split|done|done].
  - constructor 1; [done|done|]. simpl. intros j q' Hq. by rewrite lookup_nil in Hq.
Qed.

(** what a step does to the calls *)
Lemma step_calls s l s' e x t p : step s l = Some (s', e) -> x ∈ calls s' -> carries t p x ->
  (exists y, y ∈ calls s /\ carries t p y) \/ (t = next s /\ exists i, l = Execute p i).
Proof.
  intros H%step_t Hx Hc.
  assert (Hin : forall k y z, calls s !! k = Some y -> (carries t p z -> carries t p y) -> x ∈ <[k := z]> (calls s) -> exists y, y ∈ calls s /\ carries t p y).
  { intros k y z Hk Hz Hi. apply elem_of_list_lookup in Hi as [j Hj]. destruct (decide (k = j)) as [->|N].
    - rewrite list_lookup_insert in Hj by (by eapply lookup_lt_Some). simplify_eq. exists y. split; [by eapply elem_of_list_lookup_2|auto].
    - rewrite list_lookup_insert_ne in Hj by done. exists x. split; [by eapply elem_of_list_lookup_2|done]. }
  assert (Hdel : forall k, x ∈ del k (calls s) -> exists y, y ∈ calls s /\ carries t p y).
  { intros k Hd. exists x. split; [|done]. unfold del in Hd. apply elem_of_app in Hd as [Hd|Hd].
    - apply elem_of_list_lookup in Hd as [j Hj]. apply lookup_take_Some in Hj as [Hj _]. by eapply elem_of_list_lookup_2.
    - apply elem_of_list_lookup in Hd as [j Hj]. rewrite lookup_drop in Hj. by eapply elem_of_list_lookup_2. }
  destruct H; simpl in *;
    try (destruct (notify_w_shape i s) as (w' & E & _); rewrite E in Hx; simpl in * );
    try (destruct (notify_w_shape k s) as (w' & E & _); rewrite E in Hx; simpl in * );
    try (destruct (notify_e_shape i s) as (w' & E & _); rewrite E in Hx; simpl in * );
    try (destruct (notify_e_shape k s) as (w' & E & _); rewrite E in Hx; simpl in * );
    try (left; exists x; split; done);
    try (left; eapply Hin; [eassumption| |exact Hx]; simpl; tauto);
    try (left; eapply Hdel; exact Hx).
  - apply elem_of_app in Hx as [Hx|Hx]; [left; eauto|]. apply elem_of_list_singleton in Hx as ->. destruct Hc as [<- <-]. right. eauto.
  - apply elem_of_app in Hx as [Hx|Hx]; [left; eauto|]. apply elem_of_list_singleton in Hx as ->. done.
Qed.
Lemma step_next s l s' e : step s l = Some (s', e) -> next s' = match l with Execute _ _ => S (next s) | _ => next s end.
Proof.
  intros H%step_t. destruct H; try done; simpl;
    try (destruct (notify_w_shape i s) as (w' & -> & _)); try (destruct (notify_w_shape k s) as (w' & -> & _));
    try (destruct (notify_e_shape i s) as (w' & -> & _)); try (destruct (notify_e_shape k s) as (w' & -> & _));
    try (destruct (notify_e_shape n s) as (w' & -> & _)); done.
Qed.

Record pinv (c : nat) (pr home : nat -> nat) (dp : list nat) (tr : list event) (s : st) : Prop := {
  p_next : next s = length dp;
  p_calls : forall x t p, x ∈ calls s -> carries t p x -> dp !! t = Some p;
  p_serve : forall j, j < c -> exists l, serves [] (ops pr home j tr) (started home j tr) l /\
              forall q, qs s !! j = Some q -> rep (items q) l (count q) /\ (0 <= count q <= Z.of_nat (length (pushes tr)))%Z;
  p_home : forall j q x, qs s !! j = Some q -> x ∈ items q -> home x.2 = j;
  p_lt : forall t, home t < c
}.

Lemma ops_ext pr h h' j tr : (forall t, t ∈ pushes tr \/ t ∈ starts tr -> h t = h' t) -> ops pr h j tr = ops pr h' j tr.
Proof.
  induction tr as [|e tr IH]; intros H; simpl; [done|].
  assert (IH' : ops pr h j tr = ops pr h' j tr).
  { apply IH. intros t Ht. apply H. destruct e; simpl; auto; destruct Ht; rewrite ?elem_of_cons; auto. }
  destruct e; rewrite IH'; try done; f_equal; rewrite H; try done; simpl; rewrite elem_of_cons; auto.
Qed.
Lemma started_ext h h' j tr : (forall t, t ∈ starts tr -> h t = h' t) -> started h j tr = started h' j tr.
Proof.
  intros H. unfold started. induction (starts tr) as [|t l IH]; [done|].
  rewrite !filter_cons, IH by (intros; apply H; by right). rewrite H by (by left). done.
Qed.

Lemma step_pinv c m pr home dp tr s l s' e :
  inv c m tr s -> pinv c pr home dp tr s -> step s l = Some (s', e) ->
  (forall t p, (dp ++ prios [l]) !! t = Some p -> pr t = p /\ p < 4) ->
  (Z.of_nat (length (pushes (tr ++ e))) <= 2 ^ 62)%Z ->
  exists home', pinv c pr home' (dp ++ prios [l]) (tr ++ e) s'.
Proof.
  intros I [P1 P2 P3 P4 P5] H Hpr Hb. pose proof (step_inv _ _ _ _ _ _ _ I H) as I'.
  assert (Q1 : next s' = length (dp ++ prios [l])).
  { rewrite (step_next _ _ _ _ H), app_length, P1. destruct l; simpl; lia. }
  assert (Q2 : forall x t p, x ∈ calls s' -> carries t p x -> (dp ++ prios [l]) !! t = Some p).
  { intros x t p Hx Hc. destruct (step_calls _ _ _ _ _ _ _ H Hx Hc) as [(y & Hy & Hy')|(-> & i & ->)].
    - apply lookup_app_l_Some. by eapply P2.
    - rewrite lookup_app_r by lia. rewrite P1, Nat.sub_diag. done. }
  pose proof (step_change _ _ _ _ H) as C. inversion C as [e' E1 E2 HQ|x t p j q Hx Hc Hq HQ|t j q q0 q' k Hq Hs Hpop HQ]; subst; clear C.
  - exists home. split; try done.
    + intros j Hj. destruct (P3 j Hj) as (ll & Hs & Hr). exists ll.
      assert (ops pr home j e = [] /\ started home j e = []) as [O1 O2].
      { unfold started. rewrite E2. split; [|done]. clear -E1 E2. induction e as [|[] e IH]; simpl in *; auto; done. }
      rewrite ops_app, started_app, O1, O2, !app_nil_r. split; [done|]. intros q' Hq'.
      destruct (HQ _ _ Hq') as (q & Hq & Hi & Hcn). destruct (Hr q Hq) as [R1 R2].
      rewrite Hi, Hcn, pushes_app, E1, app_nil_r. done.
    + intros j q' x Hq' Hx. destruct (HQ _ _ Hq') as (q & Hq & Hi & Hcn). rewrite Hi in Hx. by eapply P4.
  - (* Pushed *)
    pose proof (pushes_nodup _ _ _ _ I') as N. rewrite pushes_app in N. simpl in N.
    assert (Hfresh : t ∉ pushes tr). { apply NoDup_app in N as (_ & N & _). intros F. apply (N t F). by left. }
    assert (Hfresh2 : t ∉ starts tr).
    { intros F. apply Hfresh. rewrite (f_push _ _ (i_flow _ _ _ _ I)). rewrite !elem_of_app. auto. }
    assert (Hqt : t ∉ qs s ≫= q_tasks).
    { intros F. apply Hfresh. rewrite (f_push _ _ (i_flow _ _ _ _ I)). rewrite !elem_of_app. auto. }
    set (home' := fun u => if u =? t then j else home u).
    assert (Hh : forall u, u <> t -> home u = home' u). { intros u Hu. unfold home'. by destruct (Nat.eqb_spec u t). }
    assert (Hht : home' t = j) by (unfold home'; by rewrite Nat.eqb_refl).
    assert (Hj : j < c).
    { apply lookup_lt_Some in Hq. pose proof (sh_qs _ _ _ (i_shape _ _ _ _ I)). destruct (jn s); lia. }
    assert (HO : forall i, ops pr home i tr = ops pr home' i tr).
    { intros i. apply ops_ext. intros u Hu. apply Hh. intros ->. destruct Hu; auto. }
    assert (HS : forall i, started home i tr = started home' i tr).
    { intros i. apply started_ext. intros u Hu. apply Hh. by intros ->. }
    pose proof (P2 _ _ _ Hx Hc) as Hdp.
    assert (Hp : pr t = p /\ p < 4) by (apply Hpr; by apply lookup_app_l_Some).
    exists home'. split; try done.
    + intros i Hi. destruct (P3 i Hi) as (ll & Hs & Hr).
      rewrite ops_app, started_app, <- HO, <- HS. simpl. rewrite app_nil_r. rewrite Hht.
      assert (started home' i [Pushed t] = []) as -> by done. rewrite app_nil_r.
      destruct (Nat.eqb_spec j i) as [->|Hji].
      * exists (ll ++ [(p, t)]). rewrite (proj1 Hp). split; [by apply serves_push_r|]. intros q' Hq'.
        rewrite HQ, list_lookup_insert in Hq' by (by eapply lookup_lt_Some). simplify_eq. simpl.
        destruct (Hr q Hq) as [R1 R2]. rewrite pushes_app, app_length in *. simpl in *.
        assert (Hm : ((count q + 1) mod 2 ^ 64 = count q + 1)%Z) by (apply Z.mod_small; lia). rewrite Hm.
        split; [|lia]. econstructor; [exact R1| | |]; [|lia|].
        2:{ split; [done|]. split; [simpl; lia|]. split; [|simpl; apply merge_spec; [lia|]]; lia. }
        lia.
      * exists ll. rewrite app_nil_r. split; [done|]. intros q' Hq'. rewrite HQ, list_lookup_insert_ne in Hq' by done.
        destruct (Hr q' Hq') as [R1 R2]. split; [done|]. rewrite pushes_app, app_length. simpl. lia.
    + intros i q' y Hq' Hy. rewrite HQ in Hq'. destruct (decide (j = i)) as [->|Hji].
      * rewrite list_lookup_insert in Hq' by (by eapply lookup_lt_Some). simplify_eq. simpl in Hy.
        apply elem_of_app in Hy as [Hy|Hy].
        -- rewrite <- Hh; [by eapply P4|]. intros Ht. apply Hqt. apply elem_of_list_bind. exists q.
           split; [|by eapply elem_of_list_lookup_2]. unfold q_tasks. apply elem_of_list_fmap. by exists y.
        -- apply elem_of_list_singleton in Hy as ->. done.
      * rewrite list_lookup_insert_ne in Hq' by done. rewrite <- Hh; [by eapply P4|]. intros Ht. apply Hqt.
        apply elem_of_list_bind. exists q'. split; [|by eapply elem_of_list_lookup_2]. unfold q_tasks. apply elem_of_list_fmap. by exists y.
    + intros u. unfold home'. by destruct (u =? t).
  - (* Started *)
    assert (Hj : j < c).
    { apply lookup_lt_Some in Hq. pose proof (sh_qs _ _ _ (i_shape _ _ _ _ I)). destruct (jn s); lia. }
    destruct Hs as [Hsi Hsc].
    assert (Hin : exists key, (key, t) ∈ items q).
    { unfold pop_at in Hpop. rewrite Hsi in Hpop. destruct (items q !! k) as [[key a]|] eqn:E; [|done].
      destruct (forallb _ _); [|done]. simplify_eq. exists key. by eapply elem_of_list_lookup_2. }
    assert (Hsub : forall y, y ∈ items q' -> y ∈ items q).
    { unfold pop_at in Hpop. rewrite Hsi in Hpop. destruct (items q !! k) as [[key a]|] eqn:E; [|done].
      destruct (forallb _ _); [|done]. simplify_eq. simpl. intros y Hy.
      apply elem_of_app in Hy as [Hy|Hy]; apply elem_of_list_lookup in Hy as [i Hy].
      - apply lookup_take_Some in Hy as [Hy _]. by eapply elem_of_list_lookup_2.
      - rewrite lookup_drop in Hy. by eapply elem_of_list_lookup_2. }
    destruct Hin as [key Hin]. pose proof (P4 _ _ _ Hq Hin) as Hht. simpl in Hht.
    exists home. split; try done.
    + intros i Hi. destruct (P3 i Hi) as (ll & Hs & Hr). rewrite ops_app, started_app. simpl. rewrite app_nil_r, Hht.
      assert (Hpu : pushes (tr ++ [Started t]) = pushes tr) by (rewrite pushes_app; simpl; apply app_nil_r). rewrite Hpu.
      destruct (Nat.eqb_spec j i) as [->|Hji].
      * destruct (Hr q Hq) as [R1 R2]. rewrite <- Hsi in R1.
        destruct (pop_takes _ _ _ _ _ _ R1 Hpop) as (l1 & T & R' & Hcn). exists l1. split.
        -- unfold started at 2. simpl. rewrite filter_cons, decide_True by done. simpl. by eapply serves_pop_r.
        -- intros q2 Hq2. rewrite HQ, list_lookup_insert in Hq2 by (by eapply lookup_lt_Some). simplify_eq.
           rewrite Hcn, Hsc. done.
      * exists ll. unfold started at 2. simpl. rewrite filter_cons, decide_False by congruence. rewrite filter_nil, !app_nil_r.
        split; [done|]. intros q2 Hq2. rewrite HQ, list_lookup_insert_ne in Hq2 by done. by apply Hr.
    + intros i q2 y Hq2 Hy. rewrite HQ in Hq2. destruct (decide (j = i)) as [->|Hji].
      * rewrite list_lookup_insert in Hq2 by (by eapply lookup_lt_Some). simplify_eq. eapply P4; eauto.
      * rewrite list_lookup_insert_ne in Hq2 by done. by eapply P4.
Qed.

Lemma pushes_mono a b : length (pushes a) <= length (pushes (a ++ b)).
Proof. rewrite pushes_app, app_length. lia. Qed.
Lemma prios_app a b : prios (a ++ b) = prios a ++ prios b.
Proof. apply omap_app. Qed.

Lemma run_pinv c m pr ls : forall home dp tr s s' e,
  inv c m tr s -> pinv c pr home dp tr s -> run s ls = Some (s', e) ->
  (forall t p, (dp ++ prios ls) !! t = Some p -> pr t = p /\ p < 4) ->
  (Z.of_nat (length (pushes (tr ++ e))) <= 2 ^ 62)%Z ->
  exists home', pinv c pr home' (dp ++ prios ls) (tr ++ e) s'.
Proof.
  induction ls as [|l ls IH]; intros home dp tr s s' e I P H Hpr Hb; simpl in H.
  - simplify_eq. exists home. by rewrite !app_nil_r.
  - destruct (step s l) as [[s1 e1]|] eqn:E; [|done]. destruct (run s1 ls) as [[s2 e2]|] eqn:E2; [|done]. simplify_eq.
    rewrite app_assoc in *. change (l :: ls) with ([l] ++ ls) in *. rewrite prios_app, app_assoc in *.
    destruct (step_pinv _ _ _ _ _ _ _ _ _ _ I P E) as [h1 P1].
    + intros t p Ht. apply Hpr. by apply lookup_app_l_Some.
    + pose proof (pushes_mono (tr ++ e1) e2). lia.
    + eapply IH; [by eapply step_inv|exact P1|exact E2|done|done].
Qed.

Lemma queues_in_order c m ls s tr : 0 < c -> priorities_ok ls -> run (init c m) ls = Some (s, tr) ->
  (Z.of_nat (length (pushes tr)) <= 2 ^ 62)%Z ->
  exists home, (forall t, home t < c) /\ forall j, j < c -> in_order (prio ls) home j tr.
Proof.
  intros Hc Hok H Hb.
  destruct (run_pinv c m (prio ls) ls (fun _ => 0) [] [] (init c m) s tr) as [home [_ _ P3 _ P5]]; try done.
  - by apply init_inv.
  - split; simpl; try done.
    + intros x t p Hx. by apply elem_of_nil in Hx.
    + intros j Hj. exists []. split; [constructor|]. intros q Hq. apply lookup_replicate in Hq as [-> _]. simpl.
      split; [constructor|lia].
    + intros j q x Hq Hx. apply lookup_replicate in Hq as [-> _]. by apply elem_of_nil in Hx.
  - intros t p Ht. simpl in Ht. split; [unfold prio; by rewrite Ht|]. unfold priorities_ok in Hok. rewrite Forall_lookup in Hok. eauto.
  - exists home. split; [done|]. intros j Hj. destruct (P3 j Hj) as (l & Hs & _). by exists l.
Qed.

Lemma one_in_order m ls s tr : priorities_ok ls -> run (init 1 m) ls = Some (s, tr) ->
  (Z.of_nat (length (pushes tr)) <= 2 ^ 62)%Z -> in_order (prio ls) (fun _ => 0) 0 tr /\ started (fun _ => 0) 0 tr = starts tr.
Proof.
  intros Hok H Hb. destruct (queues_in_order 1 m ls s tr) as (home & Hh & HO); auto.
  assert (Hz : forall t, home t = 0) by (intros t; specialize (Hh t); lia).
  destruct (HO 0) as [l Hl]; [lia|]. split.
  - exists l. rewrite <- (ops_ext _ home), <- (started_ext home); auto.
  - unfold started. induction (starts tr) as [|t u IH]; [done|]. rewrite filter_cons, decide_True by done. by rewrite IH.
Qed.

(** ** with two queues: a task of high priority waits while any number of tasks of low priority come and go *)
Definition busy (nx : nat) (cnt : Z) (er : list nat) : st :=
  St [NQ [(merge 0 1, 1)] 2 false false; NQ [] cnt false false] [Run 0; Loop 0] [] [] [] JIdle nx er [].
Definition low_task : list label := [Execute 2 1; Call 0 false; Call 0 false; Worker 1 false 0; Worker 1 false 0].
Fixpoint low_tasks (n : nat) : list label := match n with 0 => [] | S n => low_task ++ low_tasks n end.
Definition passes (t : nat) : list event := [Pushed t; Started t; Ended t].

Lemma low_one nx cnt er : run (busy nx cnt er) low_task = Some (busy (S nx) ((cnt + 1) mod 2 ^ 64) (er ++ [nx]), passes nx).
Proof.
  unfold low_task, busy. cbn -[merge Z.leb Z.modulo]. rewrite !Z.leb_refl. cbn -[merge Z.leb Z.modulo]. reflexivity.
Qed.
Lemma low_many n : forall nx cnt er, exists cnt' er', run (busy nx cnt er) (low_tasks n) = Some (busy (nx + n) cnt' er', seq nx n ≫= passes).
Proof.
  induction n as [|n IH]; intros nx cnt er; cbn [low_tasks].
  - exists cnt, er. by rewrite Nat.add_0_r.
  - destruct (IH (S nx) ((cnt + 1) mod 2 ^ 64)%Z (er ++ [nx])) as (cnt' & er' & E). exists cnt', er'.
    rewrite (run_app _ _ _ _ _ _ _ (low_one nx cnt er) E). by rewrite Nat.add_succ_r.
Qed.
Definition prelude : list label :=
  [Execute 1 0; Call 0 false; Call 0 false; Worker 0 false 0; Execute 0 0; Call 0 false; Call 0 false].
Lemma prelude_run : run (init 2 0) prelude = Some (busy 2 0 [0; 1], [Pushed 0; Started 0; Pushed 1]).
Proof. vm_compute. reflexivity. Qed.
Lemma prios_low n : prios (low_tasks n) = replicate n 2.
Proof. induction n as [|n IH]; [done|]. cbn [low_tasks]. rewrite prios_app, IH. done. Qed.

Lemma starved n : exists ls s tr, run (init 2 0) ls = Some (s, tr) /\
  tr = [Pushed 0; Started 0; Pushed 1] ++ (seq 2 n ≫= fun t => [Pushed t; Started t; Ended t]) /\
  prio ls 1 = 0 /\ (forall t, 2 <= t < 2 + n -> prio ls t = 2).
Proof.
  destruct (low_many n 2 0 [0; 1]) as (cnt & er & E). eexists (prelude ++ low_tasks n), _, _.
  split; [exact (run_app _ _ _ _ _ _ _ prelude_run E)|]. split; [done|]. unfold prio. rewrite prios_app, prios_low.
  split; [done|]. intros t Ht. rewrite lookup_app_r by (simpl; lia). simpl. rewrite lookup_replicate_2 by lia. done.
Qed.
