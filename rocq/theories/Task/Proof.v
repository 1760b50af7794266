From Coq Require Import Lia.
From stdpp Require Import gmap.
From Verif.Task Require Import Model Spec.

Section proof.
Context {V : Type}.
Implicit Types (s : st V) (w : world V) (m : gmap nat (option V)).

Definition own (x : vt * buf) : option nat :=
  match x with (VSmall, BSmall o) => Some o | (VLarge, BLarge p) => p | _ => None end.
Definition rel m (x : vt * buf) (c : content V) : Prop :=
  match x with
  | (VEmpty, _) => c = Empty
  | (VSmall, BSmall o) => exists v, m !! o = Some v /\ c = match v with Some v => Holds true v | None => Moved true end
  | (VLarge, BLarge None) => c = Moved false
  | (VLarge, BLarge (Some o)) => exists v, m !! o = Some (Some v) /\ c = Holds false v
  | _ => False
  end.

Record rep w s : Prop := {
  r_rel t : option_Forall2 (rel (objs s)) (tasks s !! t) (w !! t);
  r_inj t u x y o : tasks s !! t = Some x -> tasks s !! u = Some y -> own x = Some o -> own y = Some o -> t = u;
  r_owned o : is_Some (objs s !! o) -> exists t x, tasks s !! t = Some x /\ own x = Some o;
  r_lt o : is_Some (objs s !! o) -> o < nobj s;
  r_nodup : NoDup (dead s);
  r_dead o : o ∈ dead s <-> o < nobj s /\ objs s !! o = None
}.

Lemma rel_ext m m' x c : rel m x c -> (forall o, own x = Some o -> m' !! o = m !! o) -> rel m' x c.
Proof.
  intros H E. destruct x as [[] [|o|[o|]]]; simpl in *; auto; rewrite (E o eq_refl); auto.
Qed.

Lemma set_set t x y s : set_task t x (set_task t y s) = set_task t x s.
Proof. unfold set_task. simpl. rewrite insert_insert. auto. Qed.

(** a new empty task, or an existing one seen as empty *)
Lemma rep_lookup w s t c : rep w s -> w !! t = Some c -> exists x, tasks s !! t = Some x /\ rel (objs s) x c.
Proof. intros R E. pose proof (r_rel _ _ R t) as H. rewrite E in H. inversion H; subst. eauto. Qed.
Lemma rep_lookup' w s t x : rep w s -> tasks s !! t = Some x -> exists c, w !! t = Some c /\ rel (objs s) x c.
Proof. intros R E. pose proof (r_rel _ _ R t) as H. rewrite E in H. inversion H; subst. eauto. Qed.
Lemma rep_none w s t : rep w s -> w !! t = None -> tasks s !! t = None.
Proof. intros R E. pose proof (r_rel _ _ R t) as H. rewrite E in H. inversion H; subst. auto. Qed.
Lemma rep_dom w s t : rep w s -> tasks s !! t = None -> w !! t = None.
Proof. intros R E. pose proof (r_rel _ _ R t) as H. rewrite E in H. inversion H; subst. auto. Qed.

Lemma rep_empty w s t b : rep w s -> (forall x, tasks s !! t = Some x -> own x = None) ->
  rep (<[t := Empty]> w) (set_task t (VEmpty, b) s).
Proof.
  intros [] H. constructor; simpl; auto.
  - intros u. destruct (decide (u = t)) as [->|]; [rewrite !lookup_insert; constructor; simpl; auto|rewrite !lookup_insert_ne by auto; auto].
  - intros u1 u2 x y o H1 H2 O1 O2.
    destruct (decide (u1 = t)) as [->|N1]; [rewrite lookup_insert in H1; injection H1 as <-; discriminate|].
    destruct (decide (u2 = t)) as [->|N2]; [rewrite lookup_insert in H2; injection H2 as <-; discriminate|].
    rewrite lookup_insert_ne in H1, H2 by auto. eauto.
  - intros o Ho. destruct (r_owned0 o Ho) as (u&x&E&O). exists u, x. split; [|auto].
    rewrite lookup_insert_ne; [auto|]. intros <-. rewrite (H x E) in O. discriminate.
Qed.

(** destroying the callable of t *)
Lemma rep_kill w s t x o b : rep w s -> tasks s !! t = Some x -> own x = Some o -> exists s', kill o s = Ok s' /\
  tasks s' = tasks s /\ rep (<[t := Empty]> w) (set_task t (VEmpty, b) s').
Proof.
  intros R Ht Ho. assert (is_Some (objs s !! o)) as [v Hv].
  { destruct (rep_lookup' _ _ _ _ R Ht) as (c&_&Hc). destruct x as [[] [|?|[?|]]]; simpl in *; try discriminate; try tauto;
      injection Ho as ->; destruct Hc as (?&->&_); eauto. }
  unfold kill. rewrite Hv. eexists. split; [reflexivity|]. simpl. split; [auto|]. destruct R. constructor; simpl; auto.
  - intros u. destruct (decide (u = t)) as [->|]; [rewrite !lookup_insert; constructor; simpl; auto|rewrite !lookup_insert_ne by auto].
    specialize (r_rel0 u). inversion r_rel0 as [y c Hr E1 E2|]; constructor. apply (rel_ext _ _ _ _ Hr).
    intros o' O. rewrite lookup_delete_ne; auto. intros <-. apply n. eapply r_inj0; eauto.
  - intros u1 u2 y z o' H1 H2 O1 O2.
    destruct (decide (u1 = t)) as [->|N1]; [rewrite lookup_insert in H1; injection H1 as <-; discriminate|].
    destruct (decide (u2 = t)) as [->|N2]; [rewrite lookup_insert in H2; injection H2 as <-; discriminate|].
    rewrite lookup_insert_ne in H1, H2 by auto. eauto.
  - intros o' Ho'. destruct (decide (o' = o)) as [->|N]; [rewrite lookup_delete in Ho'; destruct Ho'; discriminate|].
    rewrite lookup_delete_ne in Ho' by auto. destruct (r_owned0 o' Ho') as (u&y&E&O). exists u, y. split; [|auto].
    rewrite lookup_insert_ne; auto. intros <-. congruence.
  - intros o' [v' Hv']. apply lookup_delete_Some in Hv' as [_ Hv']. eauto.
  - apply NoDup_app. split; [auto|]. split; [|apply NoDup_singleton]. intros o' H1 ->%elem_of_list_singleton.
    apply r_dead0 in H1 as [_ H1]. congruence.
  - intros o'. rewrite elem_of_app, elem_of_list_singleton, r_dead0, lookup_delete_None.
    split; [intros [[]| ->]; eauto|]. intros [H1 [->|H2]]; auto.
Qed.

Lemma rep_dtor w s t c b : rep w s -> w !! t = Some c -> exists s', dtor t s = Ok s' /\
  (forall u, u <> t -> tasks s' !! u = tasks s !! u) /\ is_Some (tasks s' !! t) /\
  rep (<[t := Empty]> w) (set_task t (VEmpty, b) s').
Proof.
  intros R Hw. destruct (rep_lookup _ _ _ _ R Hw) as (x&Ht&Hr). unfold dtor. rewrite Ht.
  destruct x as [[] bx]; simpl in Hr.
  - exists s. split; [auto|]. split; [auto|]. split; [eauto|]. apply rep_empty; auto. intros x E. rewrite E in Ht. injection Ht as ->. auto.
  - destruct bx as [|o|]; try tauto. destruct (rep_kill w s t _ o b R Ht eq_refl) as (s'&->&E&R'). simpl.
    eexists. split; [reflexivity|]. split; [|split; [|rewrite set_set; auto]]; simpl.
    + intros u Hu. rewrite lookup_insert_ne by auto. rewrite E. auto.
    + rewrite lookup_insert. eauto.
  - destruct bx as [| |[o|]]; try tauto.
    + destruct (rep_kill w s t _ o b R Ht eq_refl) as (s'&->&E&R'). simpl.
      eexists. split; [reflexivity|]. split; [|split; [|rewrite set_set; auto]]; simpl.
      * intros u Hu. rewrite lookup_insert_ne by auto. rewrite E. auto.
      * rewrite lookup_insert. eauto.
    + eexists. split; [reflexivity|]. split; [|split; [|rewrite set_set]]; simpl.
      * intros u Hu. rewrite lookup_insert_ne by auto. auto.
      * rewrite lookup_insert. eauto.
      * apply rep_empty; auto. intros y E. rewrite E in Ht. injection Ht as ->. auto.
Qed.

(** moving u's callable into the empty task t *)
Lemma rep_move w s t u c v b b' : rep w (set_task t (VEmpty, b') s) -> w !! t = Some Empty -> w !! u = Some c -> t <> u ->
  (exists bu, tasks s !! u = Some (v, bu)) ->
  exists s', move_ctor u t (set_task t (v, b) s) = Ok s' /\ rep (<[t := c]> (<[u := taken c]> w)) s'.
Proof.
  intros R Ht Hu Htu [bu Eu].
  assert (Eu' : forall x, tasks (set_task t x s) !! u = Some (v, bu)) by (intros; simpl; rewrite lookup_insert_ne; auto).
  destruct (rep_lookup _ _ _ _ R Hu) as (x&Ex&Hr). rewrite Eu' in Ex. injection Ex as <-. cbn [objs set_task] in Hr.
  assert (Hf : forall x, tasks (set_task t x s) !! t = Some x) by (intros; simpl; apply lookup_insert).
  unfold move_ctor. rewrite Hf, Eu'. destruct v; simpl in Hr.
  - subst c. eexists. split; [reflexivity|]. simpl. rewrite (insert_id w u Empty), (insert_id w t Empty) by auto.
    replace w with (<[t := Empty]> w) by (apply insert_id; auto). rewrite <- (set_set t (VEmpty, b) (VEmpty, b')). apply rep_empty; auto.
    intros x Hx. rewrite Hf in Hx. injection Hx as <-. auto.
  - destruct bu as [|o|]; try tauto. destruct Hr as (val&Ho&->). cbn [objs set_task]. rewrite Ho. simpl.
    eexists. split; [reflexivity|]. unfold set_task. simpl. rewrite insert_insert.
    assert (Hlt : o < nobj s) by (apply (r_lt _ _ R o); simpl; eauto).
    assert (Hnew : objs s !! nobj s = None).
    { destruct (objs s !! nobj s) eqn:E; auto. exfalso. assert (nobj s < nobj s); [|lia]. apply (r_lt _ _ R (nobj s)). simpl. eauto. }
    assert (Hown : forall t1 x1 o1, t1 <> t -> tasks s !! t1 = Some x1 -> own x1 = Some o1 -> o1 < nobj s /\ (o1 = o -> t1 = u)).
    { intros t1 x1 o1 N E O. assert (E' : tasks (set_task t (VEmpty, b') s) !! t1 = Some x1) by (simpl; rewrite lookup_insert_ne; auto).
      split.
      - apply (r_lt _ _ R o1). destruct (rep_lookup' _ _ _ _ R E') as (c1&_&H1). simpl in H1.
        destruct x1 as [[] [|?|[?|]]]; simpl in *; try discriminate; try tauto; injection O as ->; destruct H1 as (?&->&_); eauto.
      - intros ->. eapply (r_inj _ _ R t1 u); eauto. }
    constructor; simpl.
    + intros t1. destruct (decide (t1 = t)) as [->|N1].
      { rewrite !lookup_insert. constructor. simpl. exists val. rewrite lookup_insert. auto. }
      rewrite !(lookup_insert_ne _ t) by auto. destruct (decide (t1 = u)) as [->|N2].
      { rewrite lookup_insert, Eu. constructor. simpl. exists None. rewrite lookup_insert_ne by lia. rewrite lookup_insert.
        split; [auto|]. destruct val; auto. }
      rewrite lookup_insert_ne by auto. pose proof (r_rel _ _ R t1) as H1. simpl in H1. rewrite lookup_insert_ne in H1 by auto.
      inversion H1 as [x1 c1 Hr1 E1 E2|E1 E2]; constructor. apply (rel_ext _ _ _ _ Hr1).
      intros o1 O1. symmetry in E1. destruct (Hown _ _ _ N1 E1 O1) as [L U].
      rewrite lookup_insert_ne by lia. rewrite lookup_insert_ne; auto.
    + intros t1 t2 x y o1 H1 H2 O1 O2.
      destruct (decide (t1 = t)) as [->|N1]; [rewrite lookup_insert in H1; injection H1 as <-; simpl in O1; injection O1 as <-|rewrite lookup_insert_ne in H1 by auto];
      (destruct (decide (t2 = t)) as [->|N2]; [rewrite lookup_insert in H2; injection H2 as <-; simpl in O2|rewrite lookup_insert_ne in H2 by auto]); auto.
      * destruct (Hown _ _ _ N2 H2 O2). lia.
      * injection O2 as <-. destruct (Hown _ _ _ N1 H1 O1). lia.
      * eapply (r_inj _ _ R t1 t2); simpl; rewrite ?lookup_insert_ne by auto; eauto.
    + intros o1 Ho1. destruct (decide (o1 = nobj s)) as [->|No].
      { exists t, (VSmall, BSmall (nobj s)). rewrite lookup_insert. auto. }
      rewrite lookup_insert_ne in Ho1 by auto. assert (Ho1' : is_Some (objs s !! o1)).
      { destruct (decide (o1 = o)) as [->|]; [eauto|]. rewrite lookup_insert_ne in Ho1 by auto. auto. }
      destruct (r_owned _ _ R o1 Ho1') as (t1&x1&E1&O1). simpl in E1. exists t1, x1. split; [|auto].
      destruct (decide (t1 = t)) as [->|]; [rewrite lookup_insert in E1; injection E1 as <-; discriminate|].
      rewrite lookup_insert_ne in * by auto. auto.
    + intros o1 Ho1. destruct (decide (o1 = nobj s)) as [->|No]; [lia|].
      rewrite lookup_insert_ne in Ho1 by auto. destruct (decide (o1 = o)) as [->|]; [lia|]. rewrite lookup_insert_ne in Ho1 by auto.
      pose proof (r_lt _ _ R o1 Ho1). simpl in *. lia.
    + apply (r_nodup _ _ R).
    + intros o1. rewrite (r_dead _ _ R o1). simpl. destruct (decide (o1 = nobj s)) as [->|No].
      { rewrite lookup_insert. split; [lia|]. intros [_ ?]. discriminate. }
      rewrite lookup_insert_ne by auto. destruct (decide (o1 = o)) as [->|].
      { rewrite lookup_insert, Ho. split; intros [_ ?]; discriminate. }
      rewrite lookup_insert_ne by auto. split; intros [? ?]; split; auto; lia.
  - destruct bu as [| |p]; try tauto.
    eexists. split; [reflexivity|].
    assert (Hc : taken c = Moved false /\ (p = None -> c = Moved false)).
    { destruct p; [destruct Hr as (?&?&->)|subst c]; split; simpl; congruence || auto. }
    unfold set_task. simpl. rewrite (insert_commute _ u t), insert_insert by auto.
    rewrite (proj1 Hc).
    assert (Hown : forall t1 x1 o1, t1 <> t -> tasks s !! t1 = Some x1 -> own x1 = Some o1 -> p = Some o1 -> t1 = u).
    { intros t1 x1 o1 N E O ->. eapply (r_inj _ _ R t1 u); simpl; rewrite ?lookup_insert_ne by auto; eauto. }
    constructor; simpl.
    + intros t1. destruct (decide (t1 = t)) as [->|N1].
      { rewrite !lookup_insert. constructor. simpl. destruct p as [o|]; auto. }
      rewrite !(lookup_insert_ne _ t) by auto. destruct (decide (t1 = u)) as [->|N2].
      { rewrite !lookup_insert. constructor. simpl. auto. }
      rewrite !lookup_insert_ne by auto. pose proof (r_rel _ _ R t1) as H1. simpl in H1. rewrite lookup_insert_ne in H1 by auto. auto.
    + intros t1 t2 x y o1 H1 H2 O1 O2.
      assert (G : forall t1 x, <[t:=(VLarge, BLarge p)]> (<[u:=(VLarge, BLarge None)]> (tasks s)) !! t1 = Some x -> own x = Some o1 ->
         (t1 = t /\ p = Some o1) \/ (t1 <> t /\ t1 <> u /\ tasks s !! t1 = Some x /\ p <> Some o1)).
      { intros t3 x3 H O. destruct (decide (t3 = t)) as [->|N1].
        - rewrite lookup_insert in H. injection H as <-. simpl in O. auto.
        - rewrite lookup_insert_ne in H by auto. destruct (decide (t3 = u)) as [->|N2].
          + rewrite lookup_insert in H. injection H as <-. discriminate.
          + rewrite lookup_insert_ne in H by auto. right. repeat split; auto. intros ->. apply N2. eapply Hown; eauto. }
      destruct (G _ _ H1 O1) as [[-> P1]|(N1&N1'&E1&P1)]; destruct (G _ _ H2 O2) as [[-> P2]|(N2&N2'&E2&P2)]; auto; try congruence.
      eapply (r_inj _ _ R t1 t2); simpl; rewrite ?lookup_insert_ne by auto; eauto.
    + intros o1 Ho1. destruct (r_owned _ _ R o1 Ho1) as (t1&x1&E1&O1). simpl in E1.
      destruct (decide (t1 = t)) as [->|N1]; [rewrite lookup_insert in E1; injection E1 as <-; discriminate|].
      rewrite lookup_insert_ne in E1 by auto. destruct (decide (t1 = u)) as [->|N2].
      * rewrite Eu in E1. injection E1 as <-. simpl in O1. exists t, (VLarge, BLarge p). rewrite lookup_insert. auto.
      * exists t1, x1. rewrite !lookup_insert_ne by auto. auto.
    + apply (r_lt _ _ R).
    + apply (r_nodup _ _ R).
    + apply (r_dead _ _ R).
Qed.

Lemma rep_get_vt w s t c : rep w s -> w !! t = Some c -> exists v b, tasks s !! t = Some (v, b) /\ get_vt t s = Ok v.
Proof. intros R E. destruct (rep_lookup _ _ _ _ R E) as ([v b]&H&_). exists v, b. unfold get_vt. rewrite H. auto. Qed.

Lemma ctor_move_ok w s t u : rep w s -> w !! t = None -> is_Some (w !! u) ->
  exists s', ctor_move t u s = Ok s' /\ rep (<[t := get w u]> (<[u := taken (get w u)]> w)) s'.
Proof.
  intros R Ht [c Hu]. destruct (rep_get_vt _ _ _ _ R Hu) as (v&b&E&G). unfold ctor_move. rewrite G. simpl.
  assert (t <> u) by congruence. unfold get. rewrite Hu. simpl.
  assert (R1 : rep (<[t := Empty]> w) (set_task t (VEmpty, Raw) s)).
  { apply rep_empty; auto. intros x Hx. rewrite (rep_none _ _ _ R Ht) in Hx. discriminate. }
  destruct (rep_move _ s t u c v Raw Raw R1) as (s'&->&R'); eauto.
  - apply lookup_insert.
  - rewrite lookup_insert_ne; auto.
  - exists s'. split; [auto|]. rewrite (insert_commute _ u t), insert_insert in R' by auto. auto.
Qed.

Lemma assign_ok w s t u : rep w s -> is_Some (w !! t) -> is_Some (w !! u) -> t <> u ->
  exists s', assign t u s = Ok s' /\ rep (<[t := get w u]> (<[u := taken (get w u)]> w)) s'.
Proof.
  intros R [ct Ht] [c Hu] N. unfold assign. destruct (rep_dtor _ _ _ _ Raw R Ht) as (s1&->&H1&[[vt1 b1] H2]&R1). simpl.
  destruct (rep_get_vt _ _ _ _ R Hu) as (v&b&E&G). unfold get_vt. rewrite H1 by auto. rewrite E. simpl.
  unfold set_vt. rewrite H2. simpl. unfold get. rewrite Hu. simpl.
  destruct (rep_move _ s1 t u c v b1 Raw R1) as (s'&->&R'); eauto.
  - apply lookup_insert.
  - rewrite lookup_insert_ne; auto.
  - rewrite H1 by auto. eauto.
  - exists s'. split; [auto|]. rewrite (insert_commute _ u t), insert_insert in R' by auto. auto.
Qed.

Lemma destroy_ok w s t : rep w s -> is_Some (w !! t) -> exists s', destroy t s = Ok s' /\ rep (delete t w) s'.
Proof.
  intros R [c Ht]. unfold destroy. destruct (rep_dtor _ _ _ _ Raw R Ht) as (s1&->&H1&H2&R1). simpl. eexists. split; [reflexivity|].
  destruct R1 as [A1 A2 A3 A4 A5 A6]. simpl in *. constructor; simpl; auto.
  - intros u. specialize (A1 u). destruct (decide (u = t)) as [->|]; [rewrite !lookup_delete; constructor|].
    rewrite !lookup_delete_ne by auto. rewrite !lookup_insert_ne in A1 by auto. auto.
  - intros u1 u2 x y o E1 E2 O1 O2. apply lookup_delete_Some in E1 as [N1 E1]. apply lookup_delete_Some in E2 as [N2 E2].
    eapply (A2 u1 u2); rewrite ?lookup_insert_ne by auto; eauto.
  - intros o Ho. destruct (A3 o Ho) as (u&x&E&O). exists u, x. split; [|auto].
    destruct (decide (u = t)) as [->|]; [rewrite lookup_insert in E; injection E as <-; discriminate|].
    rewrite lookup_insert_ne in E by auto. rewrite lookup_delete_ne; auto.
Qed.

Lemma ctor_ok w s t b v : rep w s -> w !! t = None -> exists s', ctor t b v s = Ok s' /\ rep (<[t := Holds b v]> w) s'.
Proof.
  intros R Ht. unfold ctor. simpl. eexists. split; [reflexivity|]. unfold set_task. simpl. rewrite insert_insert.
  pose proof (rep_none _ _ _ R Ht) as Ht'.
  assert (Hnew : objs s !! nobj s = None).
  { destruct (objs s !! nobj s) eqn:E; auto. exfalso. assert (nobj s < nobj s); [|lia]. apply (r_lt _ _ R (nobj s)). eauto. }
  assert (Hown : forall t1 x1 o1, tasks s !! t1 = Some x1 -> own x1 = Some o1 -> o1 < nobj s).
  { intros t1 x1 o1 E O. apply (r_lt _ _ R o1). destruct (rep_lookup' _ _ _ _ R E) as (c1&_&H1).
    destruct x1 as [[] [|?|[?|]]]; simpl in *; try discriminate; try tauto; injection O as ->; destruct H1 as (?&->&_); eauto. }
  set (x0 := if b then (VSmall, BSmall (nobj s)) else (VLarge, BLarge (Some (nobj s)))).
  assert (Ox : own x0 = Some (nobj s)) by (destruct b; auto).
  constructor; simpl.
  - intros u. destruct (decide (u = t)) as [->|N].
    + rewrite !lookup_insert. constructor. destruct b; simpl; [exists (Some v)|exists v]; rewrite lookup_insert; auto.
    + rewrite !lookup_insert_ne by auto. pose proof (r_rel _ _ R u) as H. inversion H as [x c Hr E1 E2|]; constructor.
      apply (rel_ext _ _ _ _ Hr). intros o O. symmetry in E1. pose proof (Hown _ _ _ E1 O). rewrite lookup_insert_ne by lia. auto.
  - intros t1 t2 x y o H1 H2 O1 O2.
    destruct (decide (t1 = t)) as [->|N1]; [rewrite lookup_insert in H1; injection H1 as <-|rewrite lookup_insert_ne in H1 by auto];
    (destruct (decide (t2 = t)) as [->|N2]; [rewrite lookup_insert in H2; injection H2 as <-|rewrite lookup_insert_ne in H2 by auto]); auto.
    + rewrite Ox in O1. injection O1 as <-. pose proof (Hown _ _ _ H2 O2). lia.
    + rewrite Ox in O2. injection O2 as <-. pose proof (Hown _ _ _ H1 O1). lia.
    + eapply (r_inj _ _ R); eauto.
  - intros o Ho. destruct (decide (o = nobj s)) as [->|N]; [exists t, x0; rewrite lookup_insert; auto|].
    rewrite lookup_insert_ne in Ho by auto. destruct (r_owned _ _ R o Ho) as (u&x&E&O). exists u, x.
    rewrite lookup_insert_ne; auto. congruence.
  - intros o Ho. destruct (decide (o = nobj s)) as [->|N]; [lia|]. rewrite lookup_insert_ne in Ho by auto. pose proof (r_lt _ _ R o Ho). lia.
  - apply (r_nodup _ _ R).
  - intros o. rewrite (r_dead _ _ R o). destruct (decide (o = nobj s)) as [->|No].
    { rewrite lookup_insert. split; [lia|]. intros [_ ?]. discriminate. }
    rewrite lookup_insert_ne by auto. split; intros [? ?]; split; auto; lia.
Qed.

Lemma tmp_fresh w s : rep w s -> w !! tmp s = None.
Proof. intros R. apply (rep_dom _ _ _ R). apply not_elem_of_dom, is_fresh. Qed.

Lemma step_ok w s o : rep w s -> legal w o -> exists s', step s o = Ok s' /\ rep (astep w o) s'.
Proof.
  intros R L. destruct o as [t|t b v|t u|t u|t|t b v|t u|t]; simpl in *.
  - eexists. split; [reflexivity|]. apply rep_empty; auto. intros x Hx. rewrite (rep_none _ _ _ R L) in Hx. discriminate.
  - apply ctor_ok; auto.
  - destruct L. apply ctor_move_ok; auto.
  - destruct L as (?&?&?). apply assign_ok; auto.
  - unfold assign_null. pose proof (tmp_fresh _ _ R) as Hx. set (x := tmp s) in *. simpl.
    assert (t <> x) by (intros ->; rewrite Hx in L; destruct L; discriminate).
    assert (R1 : rep (<[x := Empty]> w) (set_task x (VEmpty, Raw) s)).
    { apply rep_empty; auto. intros y Hy. rewrite (rep_none _ _ _ R Hx) in Hy. discriminate. }
    destruct (assign_ok _ _ t x R1) as (s2&->&R2); auto; [rewrite lookup_insert_ne; auto|rewrite lookup_insert; eauto|].
    simpl. destruct (destroy_ok _ _ x R2) as (s3&->&R3); [rewrite lookup_insert_ne, lookup_insert by auto; eauto|].
    exists s3. split; [auto|]. unfold get in R3. rewrite lookup_insert in R3. simpl in R3. rewrite insert_insert in R3.
    rewrite delete_insert_ne, delete_insert in R3 by auto. auto.
  - unfold assign_fn. pose proof (tmp_fresh _ _ R) as Hx. set (x := tmp s) in *.
    assert (t <> x) by (intros ->; rewrite Hx in L; destruct L; discriminate).
    destruct (ctor_ok _ _ x b v R Hx) as (s1&->&R1). cbn [bind].
    destruct (assign_ok _ _ t x R1) as (s2&->&R2); auto; [rewrite lookup_insert_ne; auto|rewrite lookup_insert; eauto|].
    simpl. destruct (destroy_ok _ _ x R2) as (s3&->&R3); [rewrite lookup_insert_ne, lookup_insert by auto; eauto|].
    exists s3. split; [auto|]. unfold get in R3. rewrite lookup_insert in R3. simpl in R3. rewrite insert_insert in R3.
    rewrite delete_insert_ne, delete_insert in R3 by auto. auto.
  - destruct L as ([ct Ht]&[cu Hu]&N). unfold swap. pose proof (tmp_fresh _ _ R) as Hx. set (x := tmp s) in *.
    assert (t <> x) by congruence. assert (u <> x) by congruence.
    destruct (ctor_move_ok _ _ x t R Hx) as (s1&->&R1); [eauto|]. cbn [bind].
    unfold get in R1. rewrite Ht in R1. simpl in R1.
    destruct (assign_ok _ _ t u R1) as (s2&->&R2); auto; rewrite ?lookup_insert_ne by auto; rewrite ?lookup_insert, ?Hu; eauto. cbn [bind].
    unfold get in R2. rewrite !(lookup_insert_ne _ _ u) in R2 by auto. rewrite Hu in R2. simpl in R2.
    destruct (assign_ok _ _ u x R2) as (s3&->&R3); auto.
    { rewrite lookup_insert_ne, lookup_insert by auto. eauto. }
    { rewrite !lookup_insert_ne by auto. rewrite lookup_insert. eauto. }
    cbn [bind]. unfold get in R3. rewrite !(lookup_insert_ne _ _ x) in R3 by auto. rewrite lookup_insert in R3. simpl in R3.
    destruct (destroy_ok _ _ x R3) as (s4&->&R4).
    { rewrite lookup_insert_ne, lookup_insert by auto. eauto. }
    exists s4. split; [auto|]. unfold get. rewrite Ht, Hu. simpl.
    replace (<[t:=cu]> (<[u:=ct]> w)) with (delete x (<[u:=ct]> (<[x:=taken ct]> (<[t:=cu]> (<[u:=taken cu]> (<[x:=ct]> (<[t:=taken ct]> w))))))); [auto|].
    apply map_eq. intros i. destruct (decide (i = x)) as [->|]; [rewrite lookup_delete, !lookup_insert_ne; auto|].
    rewrite lookup_delete_ne by auto. destruct (decide (i = u)) as [->|]; [rewrite lookup_insert, lookup_insert_ne, lookup_insert; auto|].
    rewrite !(lookup_insert_ne _ u), !(lookup_insert_ne _ x) by auto.
    destruct (decide (i = t)) as [->|]; [rewrite !lookup_insert; auto|]. rewrite !(lookup_insert_ne _ t), !(lookup_insert_ne _ u), !(lookup_insert_ne _ x), ?(lookup_insert_ne _ t) by auto. auto.
  - apply destroy_ok; auto.
Qed.

Lemma init_rep : rep ∅ (@init V).
Proof.
  constructor; simpl; intros *; rewrite ?lookup_empty; try (constructor; fail); try discriminate.
  - intros [? ?]; discriminate.
  - intros [? ?]; discriminate.
  - split; [intros H; inversion H|lia].
Qed.

Lemma run_ok os : forall w s, rep w s -> history w os -> exists s', run s os = Ok s' /\ rep (arun w os) s'.
Proof.
  induction os as [|o os IH]; intros w s R H; simpl in *; [eauto|]. destruct H as [L H].
  destruct (step_ok _ _ _ R L) as (s1&->&R1). simpl. apply IH; auto.
Qed.

Lemma invoke_ok w s t c : rep w s -> w !! t = Some c -> match c with
  | Empty => invoke t s = Ok Threw /\ to_bool t s = Ok false
  | Holds _ v => invoke t s = Ok (Called v) /\ to_bool t s = Ok true
  | Moved true => invoke t s = Ok CalledMoved /\ to_bool t s = Ok true
  | Moved false => invoke t s = UB /\ to_bool t s = Ok false end.
Proof.
  intros R E. destruct (rep_lookup _ _ _ _ R E) as (x&H&Hr). unfold invoke, to_bool. rewrite H.
  destruct x as [[] [|o|[o|]]]; simpl in Hr; try tauto; try (subst c; auto; fail).
  - destruct Hr as ([v|]&Ho&->); rewrite Ho; auto.
  - destruct Hr as (v&Ho&->). rewrite Ho. auto.
Qed.

(** ** final statements *)
Lemma history_ok os : history ∅ os -> exists s, run init os = Ok s /\
  (forall t, arun ∅ os !! t = None <-> tasks s !! t = None) /\
  (forall t c, arun ∅ os !! t = Some c -> match c with
    | Empty => invoke t s = Ok Threw /\ to_bool t s = Ok false
    | Holds _ v => invoke t s = Ok (Called v) /\ to_bool t s = Ok true
    | Moved true => invoke t s = Ok CalledMoved /\ to_bool t s = Ok true
    | Moved false => invoke t s = UB /\ to_bool t s = Ok false end).
Proof.
  intros H. destruct (run_ok os ∅ init init_rep H) as (s&E&R). exists s. split; [auto|]. split.
  - intros t. split; intros; [eapply rep_none|eapply rep_dom]; eauto.
  - intros t c. apply invoke_ok, R.
Qed.
Lemma lifetime os s : history ∅ os -> run init os = Ok s -> NoDup (dead s) /\
  (forall o, o ∈ dead s -> objs s !! o = None /\ o < nobj s) /\
  (forall o, o < nobj s -> o ∉ dead s -> exists t x, tasks s !! t = Some x /\ own x = Some o) /\
  (arun ∅ os = ∅ -> dead s ≡ₚ seq 0 (nobj s)).
Proof.
  intros H E. destruct (run_ok os ∅ init init_rep H) as (s'&E'&R). assert (s' = s) as -> by congruence.
  split; [apply (r_nodup _ _ R)|]. split; [intros o Ho; apply (r_dead _ _ R) in Ho; tauto|]. split.
  - intros o L N. apply (r_owned _ _ R). destruct (objs s !! o) eqn:Eo; [eauto|]. exfalso. apply N, (r_dead _ _ R). auto.
  - intros Hw. apply NoDup_Permutation; [apply (r_nodup _ _ R)|apply NoDup_seq|]. intros o. rewrite (r_dead _ _ R), elem_of_seq.
    split; [lia|]. intros Ho. split; [lia|]. destruct (objs s !! o) eqn:Eo; auto. exfalso.
    destruct (r_owned _ _ R o) as (t&x&Et&_); [eauto|]. assert (tasks s !! t = None); [|congruence].
    eapply rep_none; [exact R|]. rewrite Hw. apply lookup_empty.
Qed.
End proof.

Section self.
Context {V : Type}.
Implicit Types (s : st V).
Lemma self_assign_ub os s t b v : history ∅ os -> run init os = Ok s -> arun ∅ os !! t = Some (Holds b v) -> assign t t s = UB.
Proof.
  intros H E Ht. destruct (run_ok os ∅ init init_rep H) as (s'&E'&R). assert (s' = s) as -> by congruence.
  destruct (rep_lookup _ _ _ _ R Ht) as (x&Ex&Hr). unfold assign, dtor, kill, get_vt, set_vt, move_ctor. rewrite Ex.
  destruct x as [[] [|o|[o|]]]; simpl in Hr; try tauto; try discriminate.
  - destruct Hr as (val&Ho&_). rewrite Ho. simpl. repeat (rewrite lookup_insert; simpl). auto.
  - destruct Hr as (val&Ho&_). rewrite Ho. simpl. repeat (rewrite lookup_insert; simpl). auto.
Qed.
Lemma self_swap_ub os s t b v : history ∅ os -> run init os = Ok s -> arun ∅ os !! t = Some (Holds b v) -> swap t t s = UB.
Proof.
  intros H E Ht. destruct (run_ok os ∅ init init_rep H) as (s'&E'&R). assert (s' = s) as -> by congruence.
  unfold swap. pose proof (tmp_fresh _ _ R) as Hx. assert (Hx' := Hx). apply (rep_none _ _ _ R) in Hx'. set (x := tmp s) in *.
  assert (N : x <> t) by congruence.
  destruct (rep_lookup _ _ _ _ R Ht) as (y&Ex&Hr).
  destruct (ctor_move_ok _ _ x t R Hx) as (s1&->&R1); [eauto|]. cbn [bind].
  assert (E1 : arun ∅ os !! t = Some (Holds b v)) by auto.
  destruct (rep_lookup _ _ t (Moved b) R1) as (z&Ez&Hz).
  { rewrite lookup_insert_ne, lookup_insert by auto. unfold get. rewrite Ht. auto. }
  unfold assign, dtor, kill, get_vt, set_vt, move_ctor. rewrite Ez.
  destruct z as [[] [|o|[o|]]]; simpl in Hz; try tauto; try discriminate.
  - destruct Hz as (val&Ho&_). rewrite Ho. simpl. repeat (rewrite lookup_insert; simpl). auto.
  - destruct Hz as (?&?&?). discriminate.
  - simpl. repeat (rewrite lookup_insert; simpl). auto.
Qed.
End self.
