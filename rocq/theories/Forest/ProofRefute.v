(** Where the code does not do what the property says: concrete witnesses. *)
From stdpp Require Import gmap list.
From Coq Require Import ZArith Lia.
From Verif.Forest Require Import Model Spec Rep ProofWord ProofHeap ProofOps ProofOps2 ProofTree ProofEdge ProofCopy ProofCopy2 ProofIter ProofIter2 ProofAlg World WorldSpec ProofWorld ProofMisc ProofFinal ProofFinal2 Example.

(** ** reverse *)
Lemma reverse_empty {V} (h : heap V) f C (a b : list (tree V)) fuel : Rep h f (plug C (a ++ b)) ->
  exists h', f_reverse fuel h (gap (f_tail f) C b) (gap (f_tail f) C b) = Ok h' /\ Rep h' f (plug C (a ++ b)).
Proof.
  intros R. pose proof (rep_word _ _ _ R) as W. rewrite fword_gap in W. unfold f_reverse. rewrite gap_firstp.
  rewrite (decrement_gap _ _ _ _ W). simpl.
  assert (E : forall x, reverse_nodes fuel h x x = Ok (h, x)).
  { intros x. unfold reverse_nodes. destruct fuel; simpl; rewrite decide_True; auto. }
  rewrite E. simpl.
  destruct (ring_split (f_tail f) (pre C ++ fword a) (fword b ++ post C)) as (a' & b' & _ & _ & Er).
  pose proof (wr_adj _ _ _ _ _ _ _ W Er) as [N1 N2].
  set (x := lastp (f_tail f) (pre C ++ fword a)) in *. set (y := firstp (f_tail f) (fword b ++ post C)) in *.
  exists h. split; auto. unfold set_next, put_link, load. unfold lk in N1, N2.
  destruct (h !! it_node x) as [c|] eqn:Ex; [|discriminate]. simpl. simpl in N1. injection N1 as N1.
  assert (Hc : forall (c : cell V) e d n, link c e d = n -> upd_link c e d n = c).
  { intros [? ? ? ? ?] [] [] n <-; auto. }
  rewrite (Hc c) by auto. rewrite insert_id by auto.
  destruct (h !! it_node y) as [c'|] eqn:Ey; [|discriminate]. simpl. simpl in N2. injection N2 as N2.
  rewrite (Hc c') by auto. rewrite insert_id by auto. auto.
Qed.

(** The loop returns the end it is given. *)
Lemma reverse_append_end {V} fuel : forall (h h' : heap V) x y e r, reverse_append fuel h x y e = Ok (h', r) -> r = e.
Proof.
  induction fuel as [|n IH]; intros h h' x y e r H; simpl in H; case_decide; try discriminate.
  - injection H as _ H. auto.
  - injection H as _ H. auto.
  - destruct (child_increment h x); try discriminate. simpl in H.
    destruct (child_set_next h e e); try discriminate. simpl in H. eauto.
Qed.

(** No range but the empty one is reversed. *)
Lemma reverse_never {V} (h h' : heap V) f C (a s b : list (tree V)) fuel :
  Rep h f (plug C (a ++ s ++ b)) -> s <> [] ->
  f_reverse fuel h (gap (f_tail f) C (s ++ b)) (gap (f_tail f) C b) = Ok h' ->
  ~ Rep h' f (plug C (a ++ rev s ++ b)).
Proof.
  intros R Hs E R'. pose proof (rep_word _ _ _ R) as W. pose proof (rep_word _ _ _ R') as W'.
  rewrite fword_gap in W. rewrite fword_gap in W'. unfold f_reverse in E. rewrite !gap_firstp in E.
  rewrite (decrement_gap _ _ _ _ W) in E. cbn [rbind] in E.
  destruct (reverse_nodes fuel h _ _) as [[h1 r]| |] eqn:Er; try discriminate. simpl in E.
  apply reverse_append_end in Er. subst r.
  destruct (ring_split (f_tail f) (pre C ++ fword a) (fword (rev s ++ b) ++ post C)) as (a' & b' & _ & _ & Eq).
  pose proof (wr_adj _ _ _ _ _ _ _ W' Eq) as [N1 _].
  set (p := lastp (f_tail f) (pre C ++ fword a)) in *. set (y := firstp (f_tail f) (fword b ++ post C)) in *.
  assert (N2 : lk h' (it_node p) (it_edge p) next_s = Some (it_node y)).
  { unfold set_next, put_link, load in E. destruct (h1 !! it_node p) as [c|] eqn:Ep; [|discriminate]. simpl in E.
    destruct (_ !! it_node y) as [c'|] eqn:Ey; [|discriminate]. simpl in E. injection E as <-. unfold lk.
    destruct (decide (it_node y = it_node p)) as [Eyp|Eyp].
    - rewrite Eyp, lookup_insert in *. injection Ey as <-. simpl. f_equal.
      destruct c as [? ? ? ? ?], (it_edge p), (it_edge y); reflexivity.
    - rewrite lookup_insert_ne, lookup_insert by auto. simpl. f_equal.
      destruct c as [? ? ? ? ?], (it_edge p); reflexivity. }
  rewrite N2 in N1. injection N1 as N1.
  destruct (rev s) as [|[m v cs] r] eqn:Es.
  { apply Hs. rewrite <- (rev_involutive s), Es. auto. }
  change ((Node m v cs :: r) ++ b) with (Node m v cs :: (r ++ b)) in N1. rewrite fword_cons in N1. cbn in N1.
  pose proof (wr_nodup _ _ _ W') as ND.
  assert (Hy : y ∈ fword b ++ post C ++ [T (f_tail f)]).
  { unfold y. rewrite app_assoc. destruct (fword b ++ post C); simpl; left. }
  assert (Hm : y ∈ fword (Node m v cs :: r)).
  { destruct y as [n e]. cbn in N1. subst n. rewrite fword_cons. destruct e; [|left]. right. apply elem_of_app. right. left. }
  unfold ring in ND. rewrite fword_app in ND. rewrite <- !app_assoc in ND.
  apply NoDup_cons in ND as [_ ND]. apply NoDup_app in ND as (_ & _ & ND). apply NoDup_app in ND as (_ & _ & ND).
  apply NoDup_app in ND as (_ & ND & _). exact (ND y Hm Hy).
Qed.

Definition rev_h : heap nat := match f_reverse 10 ex_h (L 2) (T 1) with Ok h => h | _ => ∅ end.
Lemma reverse_witness : exists (h h' : heap nat) f C a s b fuel,
  Rep h f (plug C (a ++ s ++ b)) /\
  f_reverse fuel h (gap (f_tail f) C (s ++ b)) (gap (f_tail f) C b) = Ok h' /\
  ~ Rep h' f (plug C (a ++ rev s ++ b)).
Proof.
  exists ex_h, rev_h, ex_f, [([], 1, 10, [Node 4 13 []])], [], [Node 2 11 []; Node 3 12 [Node 5 14 []]], [], 10.
  split; [apply ex_rep|]. split; [vm_compute; reflexivity|].
  intros R. destruct (traversal rev_h ex_f _ 10 R) as (b & Eb & Ew & _); [vm_compute; lia|].
  assert (Eb' : f_begin rev_h ex_f = Ok (L 1)) by (vm_compute; reflexivity). rewrite Eb' in Eb. injection Eb as <-.
  revert Ew. vm_compute. discriminate.
Qed.

(** A one-element range ought to be left alone; the code removes it from the forest. *)
Lemma reverse_one_witness : exists (h h' : heap nat) f n v fuel, Rep h f [Node n v []] /\
    f_reverse fuel h (L n) (f_end f) = Ok h' /\ f_empty h' f = Ok true.
Proof.
  set (w := okw (exec_all bump world0 [ONew 0; OInsert 0 (T 0) 10])).
  exists (w_heap w), (match f_reverse 10 (w_heap w) (L 1) (T 0) with Ok h => h | _ => ∅ end), (FObj 0 1), 1, 10, 10.
  split; [apply rep_check_ok; vm_compute; reflexivity|]. split; vm_compute; reflexivity.
Qed.

(** ** depth_range from its end *)
Lemma depth_end_witness : exists (h : heap nat) f l x n,
  Rep h f l /\ d_decrement h (d_make (f_end f)) = Ok x /\ d_x x = T n /\
  (d_x x, 0%Z) ∈ fdepths 0 l /\ d_depth x = 1%Z.
Proof.
  exists ex_h, ex_f, ex_l, (DIter (T 4) 1), 4. split; [apply ex_rep|].
  split; [vm_compute; reflexivity|]. split; auto. split; auto.
  apply elem_of_list_In. vm_compute. tauto.
Qed.

(** ** the end of filter_fullorder_range *)
Lemma filter_end_witness : exists (h : heap nat) f l (p : nat -> bool) e x,
  Rep h f l /\ fl_make 10 h p (f_end f) (f_end f) = Ok e /\
  fl_decrement 10 h p (f_end f) (f_end f) e = Ok x /\ fl_x x ∉ fword (fkeep p l).
Proof.
  exists ex_h, ex_f, ex_l, (fun v => bool_decide (v <> 13)), (Flt (T 0) true), (Flt (T 4) false).
  split; [apply ex_rep|]. split; [vm_compute; reflexivity|]. split; [vm_compute; reflexivity|].
  rewrite elem_of_list_In. vm_compute. intuition discriminate.
Qed.

(** ** equal_shape on forests made by ordinary operations *)
Definition es_prog : list (op nat) :=
  [ONew 0; OInsert 0 (T 0) 7; ONew 1; OInsert 1 (T 2) 8; OInsert 1 (T 2) 9; ONew 2;
   OSplice 2 1 (T 5) (L 3) (T 2) 0].
Definition es_w (n : nat) : world nat := okw (exec_all bump world0 (take n es_prog)).

Ltac rstep n M := apply (reach_next bump (es_w n) M (nth n es_prog (ONew 0)) (es_w (S n)));
  [|vm_compute; reflexivity| |vm_compute; reflexivity].
Ltac fresh_tac := let x := fresh in let E := fresh in intros x ? ? E;
  repeat (rewrite lookup_insert_Some in E || rewrite lookup_singleton_Some in E || rewrite lookup_empty in E);
  repeat match goal with H : _ \/ _ |- _ => destruct H | H : _ /\ _ |- _ => destruct H end;
  try discriminate; simplify_eq; (split; [lia|]); rewrite elem_of_list_In; vm_compute; intuition lia.

Lemma es_reach : reach bump (es_w 7).
Proof.
  assert (R1 : reach bump (es_w 1)).
  { rstep 0 (∅ : aworld nat).
    - apply (reach_0 (V:=nat) bump).
    - eexists. apply (s_new ∅ 0 0); [apply lookup_empty|fresh_tac]. }
  assert (R2 : reach bump (es_w 2)).
  { rstep 1 ({[0 := (0, [])]} : aworld nat); auto.
    eexists. apply (s_insert _ 0 0 [] [] [] 1 7); [apply lookup_insert|fresh_tac]. }
  assert (R3 : reach bump (es_w 3)).
  { rstep 2 ({[0 := (0, [Node 1 7 []])]} : aworld nat); auto.
    eexists. apply (s_new _ 1 2); [vm_compute; reflexivity|fresh_tac]. }
  assert (R4 : reach bump (es_w 4)).
  { rstep 3 ({[0 := (0, [Node 1 7 []]); 1 := (2, [])]} : aworld nat); auto.
    eexists. apply (s_insert _ 1 2 [] [] [] 3 8); [vm_compute; reflexivity|fresh_tac]. }
  assert (R5 : reach bump (es_w 5)).
  { rstep 4 ({[0 := (0, [Node 1 7 []]); 1 := (2, [Node 3 8 []])]} : aworld nat); auto.
    eexists. apply (s_insert _ 1 2 [] [Node 3 8 []] [] 4 9); [vm_compute; reflexivity|fresh_tac]. }
  assert (R6 : reach bump (es_w 6)).
  { rstep 5 ({[0 := (0, [Node 1 7 []]); 1 := (2, [Node 3 8 []; Node 4 9 []])]} : aworld nat); auto.
    eexists. apply (s_new _ 2 5); [vm_compute; reflexivity|fresh_tac]. }
  rstep 6 ({[0 := (0, [Node 1 7 []]); 1 := (2, [Node 3 8 []; Node 4 9 []]); 2 := (5, [])]} : aworld nat); auto.
  eexists. apply (s_splice _ 2 1 5 2 [] [] [Node 3 8 []; Node 4 9 []] [] [] [] [] 0);
    [lia|vm_compute; reflexivity|vm_compute; reflexivity|discriminate|auto].
Qed.

Lemma es_view : view (es_w 7)
  {[0 := (0, [Node 1 7 []]); 1 := (2, []); 2 := (5, [Node 3 8 []; Node 4 9 []])]}.
Proof. apply view_check_ok. vm_compute. reflexivity. Qed.

Lemma equal_shape_witness : exists al (w : world nat) M x y f g t l u k, good_alloc al /\ reach al w /\ view w M /\
  M !! x = Some (t, l) /\ M !! y = Some (u, k) /\ w_objs w !! x = Some f /\ w_objs w !! y = Some g /\
  equal_shape (wfuel w) (w_heap w) (w_heap w) f g = Ok true /\ fshape l <> fshape k.
Proof.
  exists bump, (es_w 7), {[0 := (0, [Node 1 7 []]); 1 := (2, []); 2 := (5, [Node 3 8 []; Node 4 9 []])]}, 0, 2,
    (FObj 0 1), (FObj 5 0), 0, [Node 1 7 []], 5, [Node 3 8 []; Node 4 9 []].
  split; [apply bump_good|]. split; [apply es_reach|]. split; [apply es_view|].
  repeat (split; [vm_compute; reflexivity|]). discriminate.
Qed.
