(** Concrete forests: a checker for the representation, and a sample program with its states. *)
From stdpp Require Import gmap list.
From Coq Require Import ZArith Lia.
From Verif.Forest Require Import Model Spec Rep ProofWord ProofHeap ProofTree ProofCopy World WorldSpec ProofWorld.

Section check.
Context {V : Type} `{EqDecision V}.
Implicit Types (h : heap V) (f g : fobj) (l k : list (tree V)) (M : aworld V) (w : world V).

Fixpoint chainb h (l : list iter) : bool :=
  match l with
  | [] => true
  | x :: l' => (match l' with [] => true | y :: _ =>
       bool_decide (lk h (it_node x) (it_edge x) next_s = Some (it_node y)) &&
       bool_decide (lk h (it_node y) (it_edge y) prior_s = Some (it_node x)) end) && chainb h l'
  end.
Lemma chainb_ok h (l : list iter) : chainb h l = true -> chain h l.
Proof.
  induction l as [|x l IH]; simpl; auto. intros [H1 H2]%andb_true_iff. split; auto.
  destruct l; auto. apply andb_true_iff in H1 as [H1 H3]. apply bool_decide_eq_true in H1, H3. split; auto.
Qed.

Definition rep_check h f l : bool :=
  let t := f_tail f in
  chainb h (ring t (fword l) ++ [L t]) &&
  (bool_decide (NoDup (ring t (fword l))) &&
  (forallb (fun p => bool_decide (dt h p.1 = Some (Some p.2))) (fpre l) &&
  (bool_decide (dt h t = Some None) &&
   bool_decide (f_size f = 0%Z \/ (2 * f_size f = Z.of_nat (length (fword l)))%Z)))).


Lemma rep_check_ok h f l : rep_check h f l = true -> Rep h f l.
Proof.
  unfold rep_check. intros H. apply andb_true_iff in H as [H1 H]. apply andb_true_iff in H as [H2 H].
  apply andb_true_iff in H as [H3 H]. apply andb_true_iff in H as [H4 H5].
  apply chainb_ok in H1. apply bool_decide_eq_true in H2, H4, H5.
  assert (Hv : forall n v, (n, v) ∈ fpre l -> dt h n = Some (Some v)).
  { intros n v Hn. rewrite forallb_forall in H3. specialize (H3 (n, v)).
    apply (bool_decide_eq_true (dt h n = Some (Some v))), H3, elem_of_list_In. auto. }
  constructor; auto. constructor; auto.
  - unfold ring in *. rewrite app_comm_cons, <- app_assoc in H1. simpl in H1.
    apply (chain_app h (L (f_tail f) :: fword l) (T (f_tail f)) [L (f_tail f)]) in H1 as [H1 _]. auto.
  - unfold ring in H1. rewrite app_comm_cons, <- app_assoc in H1. simpl in H1.
    apply (chain_adj h (L (f_tail f) :: fword l) _ _ []) in H1. auto.
  - apply fword_bal.
  - intros n Hn. apply elem_wnodes_fword, fnodes_fpre in Hn as [v Hn]. eauto.
Qed.

Definition cells M : list nat := concat (map (fun p : nat * (nat * list (tree V)) => p.2.1 :: fnodes p.2.2) (map_to_list M)).
Definition view_check w M : bool :=
  bool_decide (dom M = dom (w_objs w)) &&
  (forallb (fun p => match w_objs w !! p.1 with
     | Some f => bool_decide (f_tail f = p.2.1) && rep_check (w_heap w) f p.2.2 | None => false end) (map_to_list M) &&
  (bool_decide (NoDup (cells M)) &&
   forallb (fun n => bool_decide (n ∈ cells M)) (map fst (map_to_list (w_heap w))))).

Lemma view_check_ok w M : view_check w M = true -> view w M.
Proof.
  unfold view_check. intros H. apply andb_true_iff in H as [H1 H]. apply andb_true_iff in H as [H2 H].
  apply andb_true_iff in H as [H3 H4]. apply bool_decide_eq_true in H1, H3.
  rewrite forallb_forall in H2, H4. constructor.
  - intros x. destruct (M !! x) as [[t l]|] eqn:E.
    + apply elem_of_map_to_list in E. specialize (H2 (x, (t, l))). simpl in H2.
      rewrite elem_of_list_In in E. apply H2 in E. destruct (w_objs w !! x) as [f|]; [|discriminate].
      apply andb_true_iff in E as [E1 E2]. apply bool_decide_eq_true in E1. split; auto. apply rep_check_ok. auto.
    + apply not_elem_of_dom in E. rewrite H1 in E. apply not_elem_of_dom in E. rewrite E. auto.
  - intros x y t l s k Hxy E E' n Hn Hn'. apply elem_of_map_to_list in E, E'. unfold cells in H3.
    revert E E' H3. generalize (map_to_list M). clear - Hxy Hn Hn'.
    assert (Hin : forall x t l n (L : list (nat * (nat * list (tree V)))), (x, (t, l)) ∈ L -> n ∈ t :: fnodes l ->
       n ∈ concat (map (fun p : nat * (nat * list (tree V)) => p.2.1 :: fnodes p.2.2) L)).
    { clear. intros x t l n L HL Hn. apply elem_of_list_In, in_concat. exists (t :: fnodes l). split.
      - apply in_map_iff. exists (x, (t, l)). split; auto. apply elem_of_list_In. auto.
      - apply elem_of_list_In. auto. }
    intros L E E'. induction L as [|p L IH]; simpl; [inversion E|]. rewrite app_comm_cons.
    intros (_ & Hd & Hd')%NoDup_app. apply elem_of_cons in E, E'. destruct E as [E|E], E' as [E'|E'].
    + congruence.
    + subst p. apply (Hd n); eauto.
    + subst p. apply (Hd n); eauto.
    + auto.
  - intros n [c Hn]. specialize (H4 n).
    assert (Hi : n ∈ cells M).
    { apply (bool_decide_eq_true (n ∈ cells M)), H4, in_map_iff. exists (n, c). split; auto.
      apply elem_of_list_In, elem_of_map_to_list. auto. }
    unfold cells in Hi. apply elem_of_list_In, in_concat in Hi as (c' & Hc & Hi).
    apply in_map_iff in Hc as ([x [t l]] & <- & Hc). exists x, t, l. split.
    + apply elem_of_map_to_list, elem_of_list_In. auto.
    + apply elem_of_list_In. auto.
Qed.
End check.

(** An allocator that returns the address above all live ones. *)
Definition bump {V} : allocator V := fun h => foldr max 0 (map (fun p => S p.1) (map_to_list h)).
Lemma bump_good {V} : good_alloc (V:=V) bump.
Proof.
  intros h. destruct (h !! bump h) as [c|] eqn:E; auto. exfalso.
  apply elem_of_map_to_list in E. unfold bump in E at 1.
  assert (H : forall (L : list (nat * cell V)) n c, (n, c) ∈ L -> n < foldr max 0 (map (fun p => S p.1) L)).
  { induction L as [|p L IH]; intros n c' Hn; [inversion Hn|]. simpl.
    apply elem_of_cons in Hn as [<-|Hn]; simpl; [lia|]. specialize (IH n c' Hn). lia. }
  apply H in E. lia.
Qed.

Definition okw {V} (r : res (world V)) : world V := match r with Ok w => w | _ => world0 end.

(** A forest with two roots, the first with two children and a grandchild, built by inserts. *)
Definition ex_prog : list (op nat) :=
  [ONew 0; OInsert 0 (T 0) 10; OInsert 0 (T 1) 11; OInsert 0 (T 1) 12; OInsert 0 (T 0) 13;
   OInsert 0 (T 3) 14].
Definition ex_w : world nat := okw (exec_all bump world0 ex_prog).
Definition ex_h : heap nat := w_heap ex_w.
Definition ex_f : fobj := FObj 0 5.
Definition ex_l : list (tree nat) :=
  [Node 1 10 [Node 2 11 []; Node 3 12 [Node 5 14 []]]; Node 4 13 []].

Lemma ex_rep : Rep ex_h ex_f ex_l.
Proof. apply rep_check_ok. vm_compute. reflexivity. Qed.
Lemma ex_view : view ex_w {[0 := (0, ex_l)]}.
Proof. apply view_check_ok. vm_compute. reflexivity. Qed.

(** A program run, step by step, from one checked state to the next. *)
Lemma reach_next {V} `{EqDecision V} al (w : world V) M o w' : reach al w -> view_check w M = true -> allowed M o ->
  exec al w o = Ok w' -> reach al w'.
Proof. intros. eapply reach_S; eauto. apply view_check_ok. auto. Qed.
