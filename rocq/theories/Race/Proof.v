From Coq Require Import List Bool Arith Lia.
From stdpp Require Import gmap relations.
From Verif.Race Require Import Model Spec.
Global Arguments Nat.eqb : simpl never.

Lemma hb1_mono tr e a b : hb1 tr a b -> hb1 (tr ++ e) a b.
Proof. intros (H & x & y & Hx & Hy & HH). split; [done|]. exists x, y. split_and!; try done; by apply lookup_app_l_Some. Qed.
Lemma hb_mono tr e a b : hb tr a b -> hb (tr ++ e) a b.
Proof. intros H. induction H; [by apply tc_once, hb1_mono|]. eapply tc_l; [by apply hb1_mono|done]. Qed.

(** a = b or a happens before b *)
Definition hbe (tr : list event) (a b : nat) : Prop := a = b \/ hb tr a b.
Lemma hbe_mono tr e a b : hbe tr a b -> hbe (tr ++ e) a b.
Proof. intros [->|H]; [by left|right; by apply hb_mono]. Qed.
Lemma hbe_hb1 tr a b c : hbe tr a b -> hb1 tr b c -> hb tr a c.
Proof. intros [->|H] H1; [by apply tc_once|]. eapply tc_r; [exact H|done]. Qed.
Lemma hbe_hb tr a b c : hbe tr a b -> hb tr b c -> hb tr a c.
Proof. intros [->|H] H1; [done|]. by eapply tc_transitive. Qed.

Definition in_thread (t : nat) (l : loc) : Prop := match l with At t' | Got t' _ => t' = t | Flight _ => False end.

(** event b is known to what has future l *)
Definition known (tr : list event) (b : nat) (l : loc) : Prop :=
  exists y, tr !! b = Some y /\
    match l with At t | Got t _ => thread y = t | Flight m => exists t, y = Sent t m end.
(** position a happens before whatever is done next with a future at l *)
Definition seen (tr : list event) (a : nat) (l : loc) : Prop := exists b, hbe tr a b /\ known tr b l.

Record good (tr : list event) (s : st) : Prop := {
  g_acc : forall a x, tr !! a = Some x -> access x ->
    (exists b t, hbe tr a b /\ tr !! b = Some (Destroyed t)) \/ (exists h l, futures s !! h = Some l /\ seen tr a l);
  g_mov : forall a x h l, tr !! a = Some x -> writes x -> futures s !! h = Some l -> seen tr a l;
  g_uni : forall h t, futures s !! h = Some (Got t true) -> forall h' l, futures s !! h' = Some l -> h' = h;
  g_rd : forall h m, futures s !! h = Some (Flight m) -> m < msgs s
}.

Lemma known_mono tr e b l : known tr b l -> known (tr ++ e) b l.
Proof. intros (y & Hy & H). exists y. split; [by apply lookup_app_l_Some|done]. Qed.
Lemma seen_mono tr e a l : seen tr a l -> seen (tr ++ e) a l.
Proof. intros (b & H & K). exists b. split; [by apply hbe_mono|by apply known_mono]. Qed.

(** a step by thread t, which has a future at l, gives an event known to l' *)
Lemma seen_step tr a l l' e t : seen tr a l -> in_thread t l -> thread e = t -> known (tr ++ [e]) (length tr) l' -> seen (tr ++ [e]) a l'.
Proof.
  intros (b & H & y & Hy & K) Ht He K'. exists (length tr). split; [|done]. right.
  eapply hbe_hb1; [by apply hbe_mono|]. split; [by eapply lookup_lt_Some|].
  exists y, e. split; [by apply lookup_app_l_Some|]. split; [by apply list_lookup_middle|]. left.
  destruct l; simpl in *; subst; congruence || done.
Qed.
Lemma seen_self tr e l : known (tr ++ [e]) (length tr) l -> seen (tr ++ [e]) (length tr) l.
Proof. intros K. exists (length tr). split; [by left|done]. Qed.
Lemma known_thread tr e l : in_thread (thread e) l -> known (tr ++ [e]) (length tr) l.
Proof. intros H. exists e. split; [by apply list_lookup_middle|]. destruct l; simpl in *; done. Qed.

Lemma good_init : good [] init.
Proof.
  split; try done.
  - intros h t H h' l H'. unfold init in *. simpl in *. apply lookup_singleton_Some in H as [<- ?]. done.
  - intros h m H. simpl in H. apply lookup_singleton_Some in H as [<- ?]. done.
Qed.

Lemma size_one (m : gmap nat loc) h l : m !! h = Some l -> size m = 1 -> forall h' l', m !! h' = Some l' -> h' = h.
Proof.
  intros H S h' l' H'. destruct (decide (h' = h)) as [|N]; [done|exfalso].
  assert (X : size (delete h m) = 0).
  { rewrite map_size_delete. rewrite H. lia. }
  apply map_size_empty_inv in X. assert (Y : delete h m !! h' = Some l') by (rewrite lookup_delete_ne; done).
  rewrite X in Y. done.
Qed.

(** the event of a step that changes future h, in thread t, from l to l' in the same thread (or leaves it there) *)
Lemma good_here tr s h l l' t e k :
  good tr s -> futures s !! h = Some l -> in_thread t l -> in_thread t l' -> thread e = t ->
  (l' = Got t true -> forall h' l2, futures s !! h' = Some l2 -> h' = h) ->
  (writes e -> forall h' l2, futures s !! h' = Some l2 -> h' = h) ->
  k = msgs s ->
  good (tr ++ [e]) (St (<[h := l']> (futures s)) k).
Proof.
  intros [G1 G2 G3 G4] Hh Ht Ht' He HU HW ->.
  assert (Kn : known (tr ++ [e]) (length tr) l') by (apply known_thread; by rewrite He).
  split; simpl.
  - intros a x Hx Ha. apply lookup_app_Some in Hx as [Hx|[Hl Hx]].
    + destruct (G1 a x Hx Ha) as [(b & t' & Hb & Hd)|(h1 & l1 & H1 & S1)].
      * left. exists b, t'. split; [by apply hbe_mono|by apply lookup_app_l_Some].
      * right. destruct (decide (h1 = h)) as [->|N].
        -- exists h, l'. rewrite lookup_insert. split; [done|]. simplify_eq. by eapply seen_step.
        -- exists h1, l1. rewrite lookup_insert_ne by done. split; [done|by apply seen_mono].
    + apply list_lookup_singleton_Some in Hx as [Hz <-]. assert (a = length tr) as -> by lia. right.
      exists h, l'. rewrite lookup_insert. split; [done|by apply seen_self].
  - intros a x h1 l1 Hx Hw H1. apply lookup_app_Some in Hx as [Hx|[Hl Hx]].
    + destruct (decide (h1 = h)) as [->|N].
      * rewrite lookup_insert in H1. simplify_eq. eapply seen_step; [by eapply G2|done..].
      * rewrite lookup_insert_ne in H1 by done. apply seen_mono. by eapply G2.
    + apply list_lookup_singleton_Some in Hx as [Hz <-]. assert (a = length tr) as -> by lia.
      destruct (decide (h1 = h)) as [->|N].
      * rewrite lookup_insert in H1. simplify_eq. by apply seen_self.
      * rewrite lookup_insert_ne in H1 by done. by destruct N, (HW Hw _ _ H1).
  - intros h1 t1 H1 h2 l2 H2. destruct (decide (h1 = h)) as [->|N].
    + rewrite lookup_insert in H1. simplify_eq. simpl in Ht'. subst t1.
      destruct (decide (h2 = h)) as [|N2]; [done|]. rewrite lookup_insert_ne in H2 by done. by eapply HU.
    + rewrite lookup_insert_ne in H1 by done. exfalso. apply N. symmetry. by eapply G3.
  - intros h1 m H1. destruct (decide (h1 = h)) as [->|N].
    + rewrite lookup_insert in H1. simplify_eq. done.
    + rewrite lookup_insert_ne in H1 by done. by eapply G4.
Qed.

Lemma good_step acq tr s l s' e : good tr s -> step acq s l = Some (s', e) -> good (tr ++ e) s'.
Proof.
  intros G H. pose proof G as [G1 G2 G3 G4]. destruct l as [h h'|h|h t|h|h|h|h]; simpl in H.
  - (* Copy *)
    destruct (futures s !! h) as [[t|t u|m]|] eqn:Hh; try done. destruct (futures s !! h') eqn:Hh'; [done|]. simplify_eq.
    assert (N : h <> h') by congruence.
    assert (G0 : good (tr ++ [Copied t]) (St (<[h := At t]> (futures s)) (msgs s))) by (eapply good_here; try done; exact G).
    rewrite insert_id in G0 by done. destruct G0 as [K1 K2 K3 K4]. simpl in *. split; simpl.
    + intros a x Hx Ha. destruct (K1 a x Hx Ha) as [?|(h1 & l1 & H1 & S1)]; [by left|right].
      exists h1, l1. rewrite lookup_insert_ne; [done|]. intros ->. congruence.
    + intros a x h1 l1 Hx Hw H1. destruct (decide (h1 = h')) as [->|N1].
      * rewrite lookup_insert in H1. simplify_eq. by eapply (K2 a x h).
      * rewrite lookup_insert_ne in H1 by done. by eapply K2.
    + intros h1 t1 H1 h2 l2 H2. destruct (decide (h1 = h')) as [->|N1]; [rewrite lookup_insert in H1; done|].
      rewrite lookup_insert_ne in H1 by done. assert (h = h1) by (by eapply K3). congruence.
    + intros h1 m H1. destruct (decide (h1 = h')) as [->|N1]; [rewrite lookup_insert in H1; done|].
      rewrite lookup_insert_ne in H1 by done. by eapply K4.
  - (* Send *)
    destruct (futures s !! h) as [[t|t u|m]|] eqn:Hh; try done. simplify_eq.
    assert (Kn : known (tr ++ [Sent t (msgs s)]) (length tr) (Flight (msgs s))).
    { exists (Sent t (msgs s)). split; [by apply list_lookup_middle|eauto]. }
    split; simpl.
    + intros a x Hx Ha. apply lookup_app_Some in Hx as [Hx|[Hl Hx]]; [|apply list_lookup_singleton_Some in Hx as [_ <-]; done].
      destruct (G1 a x Hx Ha) as [(b & t' & Hb & Hd)|(h1 & l1 & H1 & S1)].
      * left. exists b, t'. split; [by apply hbe_mono|by apply lookup_app_l_Some].
      * right. destruct (decide (h1 = h)) as [->|N].
        -- exists h, (Flight (msgs s)). rewrite lookup_insert. split; [done|]. simplify_eq. by eapply seen_step.
        -- exists h1, l1. rewrite lookup_insert_ne by done. split; [done|by apply seen_mono].
    + intros a x h1 l1 Hx Hw H1. apply lookup_app_Some in Hx as [Hx|[Hl Hx]]; [|apply list_lookup_singleton_Some in Hx as [_ <-]; done].
      destruct (decide (h1 = h)) as [->|N].
      * rewrite lookup_insert in H1. simplify_eq. eapply seen_step; [by eapply G2|done..].
      * rewrite lookup_insert_ne in H1 by done. apply seen_mono. by eapply G2.
    + intros h1 t1 H1 h2 l2 H2. destruct (decide (h1 = h)) as [->|N]; [rewrite lookup_insert in H1; done|].
      rewrite lookup_insert_ne in H1 by done. assert (h = h1) by (by eapply G3). congruence.
    + intros h1 m H1. destruct (decide (h1 = h)) as [->|N]; [rewrite lookup_insert in H1; simplify_eq; lia|].
      rewrite lookup_insert_ne in H1 by done. apply G4 in H1. lia.
  - (* Recv *)
    destruct (futures s !! h) as [[t'|t' u|m]|] eqn:Hh; try done. simplify_eq.
    assert (Kn : known (tr ++ [Received t m]) (length tr) (At t)) by (by apply known_thread).
    assert (Sn : forall a, seen tr a (Flight m) -> seen (tr ++ [Received t m]) a (At t)).
    { intros a (b & Hb & y & Hy & t1 & ->). exists (length tr). split; [|done]. right.
      eapply hbe_hb1; [by apply hbe_mono|]. split; [by eapply lookup_lt_Some|].
      exists (Sent t1 m), (Received t m). split; [by apply lookup_app_l_Some|]. split; [by apply list_lookup_middle|]. by right. }
    split; simpl.
    + intros a x Hx Ha. apply lookup_app_Some in Hx as [Hx|[Hl Hx]]; [|apply list_lookup_singleton_Some in Hx as [_ <-]; done].
      destruct (G1 a x Hx Ha) as [(b & t1 & Hb & Hd)|(h1 & l1 & H1 & S1)].
      * left. exists b, t1. split; [by apply hbe_mono|by apply lookup_app_l_Some].
      * right. destruct (decide (h1 = h)) as [->|N].
        -- exists h, (At t). rewrite lookup_insert. split; [done|]. simplify_eq. auto.
        -- exists h1, l1. rewrite lookup_insert_ne by done. split; [done|by apply seen_mono].
    + intros a x h1 l1 Hx Hw H1. apply lookup_app_Some in Hx as [Hx|[Hl Hx]]; [|apply list_lookup_singleton_Some in Hx as [_ <-]; done].
      destruct (decide (h1 = h)) as [->|N].
      * rewrite lookup_insert in H1. simplify_eq. apply Sn. by eapply G2.
      * rewrite lookup_insert_ne in H1 by done. apply seen_mono. by eapply G2.
    + intros h1 t1 H1 h2 l2 H2. destruct (decide (h1 = h)) as [->|N]; [rewrite lookup_insert in H1; done|].
      rewrite lookup_insert_ne in H1 by done. assert (h = h1) by (by eapply G3). congruence.
    + intros h1 m1 H1. destruct (decide (h1 = h)) as [->|N]; [rewrite lookup_insert in H1; done|].
      rewrite lookup_insert_ne in H1 by done. by eapply G4.
  - (* Get *)
    destruct (futures s !! h) as [[t|t u|m]|] eqn:Hh; try done. simplify_eq.
    assert (G0 : good (tr ++ [Read t]) (St (<[h := At t]> (futures s')) (msgs s'))) by (eapply good_here; try done; exact G).
    rewrite insert_id in G0 by done. by destruct s'.
  - (* Load *)
    destruct (futures s !! h) as [[t|t u|m]|] eqn:Hh; try done. simplify_eq.
    eapply good_here; try done; try exact G.
    intros [= HU]. apply Nat.eqb_eq in HU. by eapply size_one.
  - (* Take *)
    destruct (futures s !! h) as [[t|t u|m]|] eqn:Hh; try done. simplify_eq.
    eapply good_here; try done; try exact G.
    + by destruct u.
    + destruct u; [|done]. intros _ h' l2 H2. by eapply G3.
  - (* Destroy *)
    destruct (futures s !! h) as [[t|t u|m]|] eqn:Hh; try done. simplify_eq. split; simpl.
    + intros a x Hx Ha. apply lookup_app_Some in Hx as [Hx|[Hl Hx]]; [|apply list_lookup_singleton_Some in Hx as [_ <-]; done].
      destruct (G1 a x Hx Ha) as [(b & t' & Hb & Hd)|(h1 & l1 & H1 & S1)].
      * left. exists b, t'. split; [by apply hbe_mono|by apply lookup_app_l_Some].
      * destruct (decide (h1 = h)) as [->|N].
        -- simplify_eq. left. destruct (seen_step _ _ _ (At t) (Destroyed t) t S1) as (b & Hb & _); try done; [by apply known_thread|].
           exists (length tr), t. split; [|by apply list_lookup_middle].
           destruct S1 as (b1 & Hb1 & y & Hy & Ky). right. eapply hbe_hb1; [by apply hbe_mono|].
           split; [by eapply lookup_lt_Some|]. exists y, (Destroyed t). split; [by apply lookup_app_l_Some|].
           split; [by apply list_lookup_middle|]. left. done.
        -- right. exists h1, l1. rewrite lookup_delete_ne by done. split; [done|by apply seen_mono].
    + intros a x h1 l1 Hx Hw H1. apply lookup_app_Some in Hx as [Hx|[Hl Hx]]; [|apply list_lookup_singleton_Some in Hx as [_ <-]; done].
      apply lookup_delete_Some in H1 as [N H1]. apply seen_mono. by eapply G2.
    + intros h1 t1 H1 h2 l2 H2. apply lookup_delete_Some in H1 as [_ H1]. apply lookup_delete_Some in H2 as [_ H2]. by eapply G3.
    + intros h1 m H1. apply lookup_delete_Some in H1 as [_ H1]. by eapply G4.
Qed.

(** what has been recorded so far is free of races, as far as the destructions have been seen *)
Definition ordered (tr : list event) : Prop :=
  forall a b x y, a < b -> tr !! a = Some x -> tr !! b = Some y -> access x -> access y -> writes x \/ writes y -> hb tr a b.

Lemma hb_to_last tr e a b y t : hbe tr a b -> tr !! b = Some y -> thread y = t -> thread e = t -> hb (tr ++ [e]) a (length tr).
Proof.
  intros H Hy Ht He. eapply hbe_hb1; [by apply hbe_mono|]. split; [by eapply lookup_lt_Some|].
  exists y, e. split; [by apply lookup_app_l_Some|]. split; [by apply list_lookup_middle|]. left. congruence.
Qed.

(** the drops seen so far *)
Lemma step_ordered acq tr s l s' e :
  good tr s -> ordered tr -> step acq s l = Some (s', e) ->
  (forall a t t', tr !! a = Some (Destroyed t) -> e = [Moved t'] -> hb (tr ++ e) a (length tr)) -> ordered (tr ++ e).
Proof.
  intros [G1 G2 G3 G4] O H D.
  assert (exists ev, e = [ev] /\ (access ev -> exists h l0, futures s !! h = Some l0 /\ in_thread (thread ev) l0 /\
            (writes ev -> l0 = Got (thread ev) true))) as (ev & -> & HA).
  { destruct l; simpl in H; repeat case_match; simplify_eq; eexists; (split; [done|]); try done; intros _;
      do 2 eexists; (split; [eassumption|]); done. }
  intros a b x y Hab Hx Hy Ax Ay Hw. apply lookup_app_Some in Hy as [Hy|[Hl Hy]].
  - assert (a < length tr) by (apply lookup_lt_Some in Hy; lia). rewrite lookup_app_l in Hx by done. apply hb_mono. by eapply O.
  - apply list_lookup_singleton_Some in Hy as [Hz ->]. assert (b = length tr) as -> by lia. rewrite lookup_app_l in Hx by lia.
    destruct (HA Ay) as (h & l0 & Hh & Ht & Hu).
    assert (Hsn : seen tr a l0 -> hb (tr ++ [y]) a (length tr)).
    { intros (b & Hb & z & Hz' & K). eapply hb_to_last; [exact Hb|exact Hz'| |done]. destruct l0; simpl in *; congruence || done. }
    destruct Hw as [Hw|Hw].
    + apply Hsn. by eapply G2.
    + specialize (Hu Hw). subst l0. destruct (G1 a x Hx Ax) as [(d & t & Hd & Hdd)|(h1 & l1 & H1 & S1)].
      * destruct y; try done. eapply hbe_hb; [by apply hbe_mono|]. by eapply D.
      * assert (h1 = h) as -> by (by eapply G3). simplify_eq. by apply Hsn.
Qed.

Lemma good_run acq ls tr s s' e : good tr s -> run acq s ls = Some (s', e) -> good (tr ++ e) s'.
Proof.
  revert tr s s' e. induction ls as [|l ls IH]; intros tr s s' e G H; simpl in H.
  - simplify_eq. by rewrite app_nil_r.
  - destruct (step acq s l) as [[s1 e1]|] eqn:E; [|done]. destruct (run acq s1 ls) as [[s2 e2]|] eqn:E2; [|done]. simplify_eq.
    rewrite app_assoc. eapply IH; [by eapply good_step|done].
Qed.

Lemma hb_prefix tr e a b : hb (tr ++ e) a b -> b < length tr -> hb tr a b.
Proof.
  intros H Hb. unfold hb in *. induction H as [a b (L & x & y & Hx & Hy & R)|a c b (L & x & y & Hx & Hy & R) H IH].
  - apply tc_once. split; [done|]. exists x, y. rewrite !lookup_app_l in * by lia. done.
  - eapply tc_l; [|by apply IH]. assert (c < b). { clear -H. induction H as [? ? (?&_)|? ? ? (?&_)]; lia. }
    split; [done|]. exists x, y. rewrite !lookup_app_l in * by lia. done.
Qed.

Lemma ordered_run acq ls tr s s' e : good tr s -> ordered tr -> run acq s ls = Some (s', e) -> drops_seen (tr ++ e) -> ordered (tr ++ e).
Proof.
  revert tr s s' e. induction ls as [|l ls IH]; intros tr s s' e G O H D; simpl in H.
  - simplify_eq. by rewrite app_nil_r.
  - destruct (step acq s l) as [[s1 e1]|] eqn:E; [|done]. destruct (run acq s1 ls) as [[s2 e2]|] eqn:E2; [|done]. simplify_eq.
    rewrite app_assoc in *. eapply IH; [by eapply good_step| |done|done].
    eapply step_ordered; [done|done|done|]. intros a t t' Ha ->. apply (hb_prefix _ e2); [|rewrite app_length; simpl; lia].
    eapply (D a (length tr) t t'); [by eapply lookup_lt_Some| |].
    + by apply lookup_app_l_Some, lookup_app_l_Some.
    + apply lookup_app_l_Some. by apply list_lookup_middle.
Qed.

Lemma ordered_race tr : ordered tr -> ~ race tr.
Proof. intros O (a & b & x & y & Hab & Hx & Hy & Ax & Ay & W & N). apply N. by eapply O. Qed.

Lemma no_race acq ls s tr : run acq init ls = Some (s, tr) -> drops_seen tr -> ~ race tr.
Proof.
  intros H D. apply ordered_race. apply (ordered_run acq ls [] init s tr good_init); try done.
Qed.

(** ** with an acquiring load the destructions are always seen *)
(** a future that was found to be the only one: the load has been, after all destructions *)
Definition fresh_load (tr : list event) (s : st) : Prop := forall h t, futures s !! h = Some (Got t true) ->
  exists b, tr !! b = Some (Loaded t true) /\ forall a t', tr !! a = Some (Destroyed t') -> a < b.

Lemma fresh_step tr s l s' e : good tr s -> fresh_load tr s -> step true s l = Some (s', e) -> fresh_load (tr ++ e) s'.
Proof.
  intros [_ _ G3 _] F H.
  assert (Keep : forall ev h t, (forall t', ev <> Destroyed t') -> futures s !! h = Some (Got t true) ->
    exists b, (tr ++ [ev]) !! b = Some (Loaded t true) /\ forall a t', (tr ++ [ev]) !! a = Some (Destroyed t') -> a < b).
  { intros ev h t N Hh. destruct (F h t Hh) as (b & Hb & Hd). exists b. split; [by apply lookup_app_l_Some|].
    intros a t' Ha. apply lookup_app_Some in Ha as [Ha|[_ Ha]]; [by eapply Hd|].
    apply list_lookup_singleton_Some in Ha as [_ Ha]. by destruct (N t'). }
  destruct l as [h h'|h|h t|h|h|h|h]; simpl in H.
  - destruct (futures s !! h) as [[t|t u|m]|] eqn:Hh; try done. destruct (futures s !! h') eqn:Hh'; [done|]. simplify_eq.
    intros h1 t1 H1. simpl in H1. destruct (decide (h1 = h')) as [->|N]; [rewrite lookup_insert in H1; done|].
    rewrite lookup_insert_ne in H1 by done. by eapply Keep.
  - destruct (futures s !! h) as [[t|t u|m]|] eqn:Hh; try done. simplify_eq.
    intros h1 t1 H1. simpl in H1. destruct (decide (h1 = h)) as [->|N]; [rewrite lookup_insert in H1; done|].
    rewrite lookup_insert_ne in H1 by done. by eapply Keep.
  - destruct (futures s !! h) as [[t'|t' u|m]|] eqn:Hh; try done. simplify_eq.
    intros h1 t1 H1. simpl in H1. destruct (decide (h1 = h)) as [->|N]; [rewrite lookup_insert in H1; done|].
    rewrite lookup_insert_ne in H1 by done. by eapply Keep.
  - destruct (futures s !! h) as [[t|t u|m]|] eqn:Hh; try done. simplify_eq. intros h1 t1 H1. by eapply Keep.
  - destruct (futures s !! h) as [[t|t u|m]|] eqn:Hh; try done. simplify_eq.
    intros h1 t1 H1. simpl in H1. destruct (decide (h1 = h)) as [->|N].
    + rewrite lookup_insert in H1. injection H1 as -> HU. rewrite HU. exists (length tr). split; [by apply list_lookup_middle|].
      intros a t' Ha. apply lookup_app_Some in Ha as [Ha|[_ Ha]]; [by eapply lookup_lt_Some|].
      apply list_lookup_singleton_Some in Ha as [_ Ha]. done.
    + rewrite lookup_insert_ne in H1 by done. by eapply Keep.
  - destruct (futures s !! h) as [[t|t u|m]|] eqn:Hh; try done. simplify_eq.
    intros h1 t1 H1. simpl in H1. destruct (decide (h1 = h)) as [->|N]; [rewrite lookup_insert in H1; done|].
    rewrite lookup_insert_ne in H1 by done. eapply Keep; [|done]. by destruct u.
  - destruct (futures s !! h) as [[t|t u|m]|] eqn:Hh; try done. simplify_eq.
    intros h1 t1 H1. simpl in H1. apply lookup_delete_Some in H1 as [N H1]. exfalso. apply N. by eapply G3.
Qed.

Lemma acq_run ls tr s s' e : good tr s -> fresh_load tr s -> drops_seen tr -> run true s ls = Some (s', e) -> drops_seen (tr ++ e).
Proof.
  revert tr s s' e. induction ls as [|l ls IH]; intros tr s s' e G F D H; simpl in H.
  - simplify_eq. by rewrite app_nil_r.
  - destruct (step true s l) as [[s1 e1]|] eqn:E; [|done]. destruct (run true s1 ls) as [[s2 e2]|] eqn:E2; [|done]. simplify_eq.
    rewrite app_assoc. eapply IH; [by eapply good_step|by eapply fresh_step| |done].
    assert (exists ev, e1 = [ev]) as [ev ->] by (destruct l; simpl in E; repeat case_match; simplify_eq; by eexists).
    intros a b t t' Hab Ha Hb. apply lookup_app_Some in Hb as [Hb|[Hl Hb]].
    + assert (a < length tr) by (apply lookup_lt_Some in Hb; lia). rewrite lookup_app_l in Ha by done. apply hb_mono. by eapply D.
    + apply list_lookup_singleton_Some in Hb as [Hz ->]. assert (b = length tr) as -> by lia. rewrite lookup_app_l in Ha by lia.
      destruct l as [h h'|h|h t0|h|h|h|h]; simpl in E; repeat case_match; simplify_eq.
      destruct (F _ _ H) as (b & Hb & Hd). specialize (Hd a t Ha).
      eapply hb_to_last; [right; apply tc_once|exact Hb|done|done]. split; [done|]. exists (Destroyed t), (Loaded t' true). split_and!; try done. by right.
Qed.
Lemma no_race_acq ls s tr : run true init ls = Some (s, tr) -> ~ race tr.
Proof.
  intros H. eapply no_race; [exact H|]. apply (acq_run ls [] init s tr good_init); try done.
  intros h t Hh. simpl in Hh. apply lookup_singleton_Some in Hh as [_ Hh]. done.
Qed.

(** a set of positions that leads to no others: what is in it does not happen before what is not *)
Lemma closed_hb tr (P : nat -> Prop) a b : (forall i j, hb1 tr i j -> P i -> P j) -> hb tr a b -> P a -> P b.
Proof. intros C H. induction H; eauto. Qed.
