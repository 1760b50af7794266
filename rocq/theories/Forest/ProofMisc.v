(** Determinacy of the representation, reachable worlds, the ends of a forest and child adaptors. *)
From stdpp Require Import gmap list.
From Coq Require Import ZArith Lia.
From Verif.Forest Require Import Model Spec Rep ProofWord ProofHeap ProofOps ProofOps2 ProofTree ProofEdge ProofCopy ProofCopy2 ProofIter ProofIter2 World WorldSpec ProofWorld.

Section misc.
Context {V : Type}.
Implicit Types (h : heap V) (f g : fobj) (l r k : list (tree V)) (C D : list (@frame V)).
Implicit Types (M : aworld V) (w : world V).

(** ** the trees of an object are determined *)
Lemma NoDup_split_eq {A} (x : A) (a b a' b' : list A) : NoDup (a ++ x :: b) ->
  a ++ x :: b = a' ++ x :: b' -> a = a' /\ b = b'.
Proof.
  revert a'. induction a as [|y a IH]; intros [|y' a'] Hd E; simpl in *.
  - injection E as ->. auto.
  - injection E as <- E. subst b. apply NoDup_cons in Hd as [Hd _]. destruct Hd.
    apply elem_of_app. right. apply elem_of_list_here.
  - injection E as -> E. apply NoDup_cons in Hd as [Hd _]. destruct Hd.
    apply elem_of_app. right. apply elem_of_list_here.
  - injection E as <- E. apply NoDup_cons in Hd as [_ Hd]. destruct (IH a' Hd E) as [-> ->]. auto.
Qed.

Lemma word_vals_inj h l : forall k, fword l = fword k -> NoDup (fword l) ->
  (forall n v, (n, v) ∈ fpre l -> dt h n = Some (Some v)) ->
  (forall n v, (n, v) ∈ fpre k -> dt h n = Some (Some v)) -> l = k.
Proof.
  induction l as [|n v cs l IHc IHl] using forest_ind'; intros k E Hd Hl Hk.
  - destruct k as [|[m u ds] k]; auto. rewrite fword_cons, fword_nil in E. discriminate.
  - destruct k as [|[m u ds] k]; [rewrite fword_cons, fword_nil in E; discriminate|].
    rewrite fword_cons in Hd. rewrite fword_cons in E. rewrite fword_cons in E. injection E as <- E. apply NoDup_cons in Hd as [_ Hd].
    destruct (NoDup_split_eq _ _ _ _ _ Hd E) as [E1 E2].
    apply NoDup_app in Hd as (Hd1 & _ & Hd2). apply NoDup_cons in Hd2 as [_ Hd2].
    rewrite fpre_cons in Hl, Hk.
    assert (Ev : v = u).
    { assert (H1 : dt h n = Some (Some v)) by (apply Hl, elem_of_list_here).
      assert (H2 : dt h n = Some (Some u)) by (apply Hk, elem_of_list_here). congruence. }
    subst u. f_equal; [f_equal|].
    + apply IHc; auto; intros ? ? Hx; [apply Hl|apply Hk]; apply elem_of_cons; right; apply elem_of_app; auto.
    + apply IHl; auto; intros ? ? Hx; [apply Hl|apply Hk]; apply elem_of_cons; right; apply elem_of_app; auto.
Qed.

Lemma Rep_det h f g l k : Rep h f l -> Rep h g k -> f_tail f = f_tail g -> l = k.
Proof.
  intros [W Vl S] [W' Vk S'] Et. rewrite <- Et in W'.
  assert (E : fword l = fword k).
  { set (N := length (fword l) + length (fword k)).
    pose proof (walk_increment h (f_tail f) [] (fword l) [] N) as H1.
    pose proof (walk_increment h (f_tail f) [] (fword k) [] N) as H2.
    simpl in H1, H2. rewrite !app_nil_r in H1, H2.
    specialize (H1 W ltac:(unfold N; lia)). specialize (H2 W' ltac:(unfold N; lia)).
    pose proof (f_begin_spec h f _ W) as B1. pose proof (f_begin_spec h f _ W') as B2.
    rewrite B1 in B2. injection B2 as B2. rewrite <- B2, H1 in H2. injection H2 as H2. auto. }
  apply (word_vals_inj h); auto.
  pose proof (wr_nodup _ _ _ W) as Hd. unfold ring in Hd. apply NoDup_cons in Hd as [_ Hd].
  apply NoDup_app in Hd. tauto.
Qed.

Lemma view_det w M M' : view w M -> view w M' -> M = M'.
Proof.
  intros [O _ _] [O' _ _]. apply map_eq. intros x. specialize (O x). specialize (O' x).
  destruct (M !! x) as [[t l]|], (M' !! x) as [[t' l']|], (w_objs w !! x) as [f|]; try tauto.
  destruct O as [<- R], O' as [<- R']. rewrite (Rep_det _ _ _ _ _ R R'); auto.
Qed.

(** ** reachable worlds *)
Lemma view_0 : view (V:=V) world0 ∅.
Proof.
  constructor; simpl.
  - intros x. rewrite !lookup_empty. auto.
  - intros x y t l s k _ Hx. rewrite lookup_empty in Hx. discriminate.
  - intros n Hn. rewrite lookup_empty in Hn. destruct Hn. discriminate.
Qed.

Lemma reach_view al w : good_alloc al -> reach al w -> exists M, view w M.
Proof.
  intros Hal H. induction H as [|w M o w' Hr IH Hv Ho E].
  - exists ∅. apply view_0.
  - destruct (exec_step al w M o Hal Hv Ho) as (w1 & M' & E1 & _ & Hv1).
    rewrite E in E1. injection E1 as ->. eauto.
Qed.

Lemma view_empty w : view w ∅ -> w_heap w = ∅.
Proof.
  intros [_ _ Ow]. apply map_empty. intros n. destruct (w_heap w !! n) eqn:E; auto.
  destruct (Ow n) as (x & t & l & Hx & _); [eauto|]. rewrite lookup_empty in Hx. discriminate.
Qed.

Lemma view_no_objs w M : view w M -> w_objs w = ∅ -> w_heap w = ∅.
Proof.
  intros Hv E. apply view_empty. replace ∅ with M; auto. apply map_eq. intros x.
  pose proof (view_objs _ _ Hv x) as H. rewrite E, lookup_empty in H. rewrite lookup_empty.
  destruct (M !! x) as [[t l]|]; tauto.
Qed.

(** Live cells are exactly the owned ones. *)
Lemma view_live w M n : view w M ->
  is_Some (w_heap w !! n) <-> exists x t l, M !! x = Some (t, l) /\ (n = t \/ n ∈ fnodes l).
Proof.
  intros Hv. split.
  - intros Hn. destruct (view_owned _ _ Hv n Hn) as (x & t & l & E & Hl). apply elem_of_cons in Hl. eauto.
  - intros (x & t & l & E & Hl). pose proof (view_objs _ _ Hv x) as H. rewrite E in H.
    destruct (w_objs w !! x) as [f|]; [|tauto]. destruct H as [<- R]. apply (rep_alive _ _ _ _ R), elem_fp. auto.
Qed.

(** ** front, back, push and pop *)
Lemma f_empty_rep h f l : Rep h f l -> f_empty h f = Ok (bool_decide (l = [])).
Proof.
  intros [W _ _]. rewrite (f_empty_spec _ _ _ W). f_equal. apply bool_decide_ext. split.
  - destruct l as [|[n v cs] l]; auto. rewrite fword_cons. discriminate.
  - intros ->. apply fword_nil.
Qed.

Lemma begin_rep h f l : Rep h f l -> f_begin h f = Ok (gap (f_tail f) [] l).
Proof. intros [W _ _]. rewrite (f_begin_spec _ _ _ W), gap_firstp. simpl. rewrite app_nil_r. auto. Qed.

Lemma dec_gap_last h f C a n v cs b : Rep h f (plug C (a ++ Node n v cs :: b)) ->
  decrement h (gap (f_tail f) C b) = Ok (T n).
Proof.
  intros [W _ _]. assert (E : a ++ Node n v cs :: b = (a ++ [Node n v cs]) ++ b) by (rewrite <- app_assoc; auto).
  rewrite E, fword_gap in W. rewrite gap_firstp, (decrement_gap _ _ _ _ W). f_equal.
  rewrite fword_app, fword_cons, fword_nil. rewrite app_assoc.
  replace (L n :: fword cs ++ [T n]) with ((L n :: fword cs) ++ [T n]) by auto.
  rewrite app_assoc, lastp_snoc. auto.
Qed.

Lemma rep_deref h f l n v e : Rep h f l -> (n, v) ∈ fpre l -> deref h (Iter n e) = Ok v.
Proof. intros R Hn. apply deref_of. apply (rep_vals _ _ _ R). auto. Qed.

Lemma front_spec h f n v cs l : Rep h f (Node n v cs :: l) -> front h f = Ok v.
Proof.
  intros R. unfold front. rewrite (f_empty_rep _ _ _ R). simpl. rewrite (begin_rep _ _ _ R). simpl.
  apply (rep_deref _ _ _ _ _ _ R). rewrite fpre_cons. apply elem_of_list_here.
Qed.

Lemma back_spec h f n v cs l : Rep h f (l ++ [Node n v cs]) -> back h f = Ok v.
Proof.
  intros R. unfold back. rewrite (f_empty_rep _ _ _ R). rewrite bool_decide_false by (destruct l; discriminate).
  simpl. pose proof (dec_gap_last h f [] l n v cs [] R) as E. simpl in E. unfold f_end. rewrite E. simpl.
  apply (rep_deref _ _ _ _ _ _ R). rewrite fpre_app, fpre_cons. apply elem_of_app. right. apply elem_of_list_here.
Qed.

Lemma push_front_spec al h f l x : Rep h f l -> h !! al h = None ->
  exists h' f', push_front al h f x = Ok (h', f') /\ f_tail f' = f_tail f /\
    Rep h' f' (Node (al h) x [] :: l) /\ eff h h' (fp f l) (fp f' (Node (al h) x [] :: l)).
Proof.
  intros R Hf. unfold push_front. rewrite (begin_rep _ _ _ R). simpl.
  destruct (insert_eff al h f [] [] l x R Hf) as (h' & f' & E & H). simpl in *. rewrite E. simpl. eauto.
Qed.

Lemma push_back_spec al h f l x : Rep h f l -> h !! al h = None ->
  exists h' f', push_back al h f x = Ok (h', f') /\ f_tail f' = f_tail f /\
    Rep h' f' (l ++ [Node (al h) x []]) /\ eff h h' (fp f l) (fp f' (l ++ [Node (al h) x []])).
Proof.
  intros R Hf. unfold push_back.
  destruct (insert_eff al h f [] l [] x) as (h' & f' & E & H); auto.
  { simpl. rewrite app_nil_r. auto. }
  simpl in *. rewrite app_nil_r in H. unfold f_end. rewrite E. simpl. eauto.
Qed.

Lemma pop_front_spec h f n v cs l : Rep h f (Node n v cs :: l) ->
  exists h' f', pop_front h f = Ok (h', f') /\ f_tail f' = f_tail f /\ Rep h' f' (cs ++ l) /\ h' !! n = None /\
    eff h h' (fp f (Node n v cs :: l)) (fp f' (cs ++ l)).
Proof.
  intros R. unfold pop_front. rewrite (f_empty_rep _ _ _ R). simpl. rewrite (begin_rep _ _ _ R). simpl.
  destruct (erase_eff h f [] [] n v cs l leading R) as (h' & f' & E & H). simpl in *. rewrite E. simpl. eauto.
Qed.

Lemma pop_back_spec h f n v cs l : Rep h f (l ++ [Node n v cs]) ->
  exists h' f', pop_back h f = Ok (h', f') /\ f_tail f' = f_tail f /\ Rep h' f' (l ++ cs) /\ h' !! n = None /\
    eff h h' (fp f (l ++ [Node n v cs])) (fp f' (l ++ cs)).
Proof.
  intros R. unfold pop_back. rewrite (f_empty_rep _ _ _ R). rewrite bool_decide_false by (destruct l; discriminate).
  simpl. pose proof (dec_gap_last h f [] l n v cs [] R) as E1. simpl in E1. unfold f_end. rewrite E1. simpl.
  destruct (erase_eff h f [] l n v cs [] trailing R) as (h' & f' & E & H). simpl in *. rewrite app_nil_r in H.
  rewrite E. simpl. eauto.
Qed.

(** ** child ranges and child_adaptor: the node [n] anywhere, or the root position *)
Lemma child_begin_spec h f C a n v cs b e : Rep h f (plug C (a ++ Node n v cs :: b)) ->
  child_begin h (Iter n e) = Ok (gap (f_tail f) ((a, n, v, b) :: C) cs).
Proof. intros R. apply (inc_leading _ _ _ _ _ _ _ _ R). Qed.

Lemma ca_front_spec h f C a n v m u ds cs b e : Rep h f (plug C (a ++ Node n v (Node m u ds :: cs) :: b)) ->
  ca_front h (Iter n e) = Ok u.
Proof.
  intros R. unfold ca_front. rewrite (child_begin_spec _ _ _ _ _ _ _ _ _ R). simpl.
  apply (rep_deref _ _ _ _ _ _ R). apply fpre_plug. rewrite fpre_app, !fpre_cons, !elem_of_app, !elem_of_cons, !elem_of_app, elem_of_cons. tauto.
Qed.

Lemma ca_back_spec h f C a n v m u ds cs b e : Rep h f (plug C (a ++ Node n v (cs ++ [Node m u ds]) :: b)) ->
  ca_back h (Iter n e) = Ok u.
Proof.
  intros R. unfold ca_back, child_end, trailing_of. simpl.
  pose proof (child_dec h f ((a, n, v, b) :: C) cs (Node m u ds) [] R) as E. simpl in E. rewrite E. simpl.
  apply (rep_deref _ _ _ _ _ _ R). apply fpre_plug.
  rewrite fpre_app, !fpre_cons, fpre_app, fpre_cons, !elem_of_app, !elem_of_cons, !elem_of_app, elem_of_cons. tauto.
Qed.

Lemma ca_push_back_spec al h f C a n v cs b e x : Rep h f (plug C (a ++ Node n v cs :: b)) -> h !! al h = None ->
  exists h' f', ca_push_back al h f (Iter n e) x = Ok (h', f', L (al h)) /\ f_tail f' = f_tail f /\
    Rep h' f' (plug C (a ++ Node n v (cs ++ [Node (al h) x []]) :: b)).
Proof.
  intros R Hf. unfold ca_push_back, child_end, trailing_of. simpl.
  destruct (insert_eff al h f ((a, n, v, b) :: C) cs [] x) as (h' & f' & E & H); auto.
  { simpl. rewrite app_nil_r. auto. }
  simpl in *. rewrite E. exists h', f'. tauto.
Qed.

Lemma ca_push_front_spec al h f C a n v cs b e x : Rep h f (plug C (a ++ Node n v cs :: b)) -> h !! al h = None ->
  exists h' f', ca_push_front al h f (Iter n e) x = Ok (h', f', L (al h)) /\ f_tail f' = f_tail f /\
    Rep h' f' (plug C (a ++ Node n v (Node (al h) x [] :: cs) :: b)).
Proof.
  intros R Hf. unfold ca_push_front. rewrite (child_begin_spec _ _ _ _ _ _ _ _ _ R). simpl.
  destruct (insert_eff al h f ((a, n, v, b) :: C) [] cs x) as (h' & f' & E & H); auto.
  simpl in *. rewrite E. exists h', f'. tauto.
Qed.

Lemma ca_pop_back_spec h f C a n v m u ds cs b e : Rep h f (plug C (a ++ Node n v (cs ++ [Node m u ds]) :: b)) ->
  exists h' f' i, ca_pop_back h f (Iter n e) = Ok (h', f', i) /\ f_tail f' = f_tail f /\
    Rep h' f' (plug C (a ++ Node n v (cs ++ ds) :: b)).
Proof.
  intros R. unfold ca_pop_back, child_end, trailing_of. simpl.
  pose proof (dec_gap_last h f ((a, n, v, b) :: C) cs m u ds [] R) as E1. simpl in E1. rewrite E1. simpl.
  destruct (erase_eff h f ((a, n, v, b) :: C) cs m u ds [] trailing R) as (h' & f' & E & H). simpl in *.
  rewrite app_nil_r in H. rewrite E. exists h', f'. eexists. split; [reflexivity|]. tauto.
Qed.

Lemma ca_pop_front_spec h f C a n v m u ds cs b e : Rep h f (plug C (a ++ Node n v (Node m u ds :: cs) :: b)) ->
  exists h' f' i, ca_pop_front h f (Iter n e) = Ok (h', f', i) /\ f_tail f' = f_tail f /\
    Rep h' f' (plug C (a ++ Node n v (ds ++ cs) :: b)).
Proof.
  intros R. unfold ca_pop_front. rewrite (child_begin_spec _ _ _ _ _ _ _ _ _ R). simpl.
  destruct (erase_eff h f ((a, n, v, b) :: C) [] m u ds cs leading R) as (h' & f' & E & H). simpl in *.
  rewrite E. exists h', f'. eexists. split; [reflexivity|]. tauto.
Qed.

(** On a childless node pop_back and pop_front have undefined meaning in the API; the code removes the
    node itself. *)
Lemma ca_pop_back_childless h f C a n v b e : Rep h f (plug C (a ++ Node n v [] :: b)) ->
  exists h' f' i, ca_pop_back h f (Iter n e) = Ok (h', f', i) /\ Rep h' f' (plug C (a ++ b)).
Proof.
  intros R. unfold ca_pop_back, child_end, trailing_of. simpl.
  assert (E1 : decrement h (T n) = Ok (L n)).
  { destruct R as [W _ _].
    replace (plug C (a ++ Node n v [] :: b)) with (plug ((a, n, v, b) :: C) ([] ++ [])) in W by auto.
    rewrite fword_gap in W. rewrite !fword_nil in W.
    pose proof (decrement_gap _ _ _ _ W) as E. simpl in E. rewrite E. rewrite app_nil_r, app_assoc, lastp_snoc. auto. }
  rewrite E1. simpl.
  destruct (erase_eff h f C a n v [] b leading R) as (h' & f' & E & H). simpl in *.
  rewrite E. exists h', f'. eexists. split; [reflexivity|]. tauto.
Qed.

End misc.
