(** Balanced bracket words over iterators, and their correspondence with trees. *)
From stdpp Require Import gmap list.
From Verif.Forest Require Import Model Spec Rep.


Lemma app_eq_cases {A} (l1 l2 k1 k2 : list A) : l1 ++ l2 = k1 ++ k2 ->
  (exists k, k1 = l1 ++ k /\ l2 = k ++ k2) \/ (exists k, l1 = k1 ++ k /\ k2 = k ++ l2).
Proof. intros [H|H]%app_eq_inv; auto. Qed.


(** Stack machine characterisation. *)
Fixpoint brun (st : list nat) (w : list iter) : option (list nat) :=
  match w with
  | [] => Some st
  | Iter n leading :: w => brun (n :: st) w
  | Iter n trailing :: w =>
      match st with
      | m :: st => if decide (m = n) then brun st w else None
      | [] => None
      end
  end.

Lemma brun_app st a b : brun st (a ++ b) = match brun st a with Some st' => brun st' b | None => None end.
Proof.
  revert st; induction a as [|[n []] a IH]; intros st; simpl; auto.
  destruct st as [|m st]; auto. destruct (decide (m = n)); auto.
Qed.

Lemma bal_brun_st w st : bal w -> brun st w = Some st.
Proof.
  intros H; revert st; induction H as [|n s w Hs IHs Hw IHw]; intros st; simpl; auto.
  rewrite brun_app, IHs. simpl. rewrite decide_True by auto. auto.
Qed.

Fixpoint bdec (st : list nat) (w : list iter) : Prop :=
  match st with
  | [] => bal w
  | a :: st => exists s w', bal s /\ w = s ++ T a :: w' /\ bdec st w'
  end.

Lemma bal_app a b : bal a -> bal b -> bal (a ++ b).
Proof.
  induction 1 as [|n s w Hs IHs Hw IHw]; intros Hb; simpl; auto.
  rewrite <- app_assoc. simpl. constructor; auto.
Qed.

Lemma brun_bdec st w : brun st w = Some [] -> bdec st w.
Proof.
  revert st; induction w as [|[n []] w IH]; intros st; simpl.
  - intros [= ->]. constructor.
  - destruct st as [|m st]; [discriminate|]. destruct (decide (m = n)) as [->|]; [|discriminate].
    intros H. exists [], w. split; [constructor|]. split; auto.
  - intros H. apply IH in H. destruct H as (s & w' & Hs & -> & H).
    destruct st as [|a st]; simpl in *.
    + constructor; auto.
    + destruct H as (s2 & w2 & Hs2 & -> & H). exists (L n :: s ++ T n :: s2), w2.
      split; [constructor; auto|]. split; auto. simpl. rewrite <- app_assoc. auto.
Qed.

Lemma bal_brun w : bal w <-> brun [] w = Some [].
Proof.
  split.
  - apply bal_brun_st.
  - intros H. apply brun_bdec in H. exact H.
Qed.

(** Insertion and removal of balanced segments. *)
Lemma bal_insert a s b : bal (a ++ b) -> bal s -> bal (a ++ s ++ b).
Proof.
  rewrite !(bal_brun (_ ++ _)). intros H Hs. rewrite brun_app in *.
  destruct (brun [] a) as [st|]; [|discriminate].
  rewrite brun_app, (bal_brun_st _ _ Hs). auto.
Qed.

Lemma bal_remove a s b : bal (a ++ s ++ b) -> bal s -> bal (a ++ b).
Proof.
  rewrite !(bal_brun (_ ++ _)). intros H Hs. rewrite brun_app in *.
  destruct (brun [] a) as [st|]; [|discriminate].
  rewrite brun_app, (bal_brun_st _ _ Hs) in H. auto.
Qed.

Lemma bal_wrap n s : bal s -> bal (L n :: s ++ [T n]).
Proof. intros H. apply bal_node; auto. constructor. Qed.

Lemma bal_unwrap_in a n s b : bal (a ++ L n :: s ++ T n :: b) -> bal s -> bal (a ++ s ++ b).
Proof.
  intros H Hs. apply bal_insert; auto.
  eapply (bal_remove a (L n :: s ++ [T n]) b); [|apply bal_wrap; auto].
  simpl. rewrite <- app_assoc. auto.
Qed.

(** Matching brackets. *)
Lemma bal_match_T w a m b : bal w -> w = a ++ T m :: b ->
  exists a1 s, a = a1 ++ L m :: s /\ bal s.
Proof.
  intros H; revert a b; induction H as [|n s w Hs IHs Hw IHw]; intros a b E.
  - destruct a; discriminate.
  - destruct a as [|x a]; simpl in E; [discriminate|]. injection E as <- E.
    apply app_eq_cases in E as [(k & Ea & E)|(k & Es & E)].
    + (* a = s ++ k *)
      destruct k as [|y k]; simpl in E.
      * injection E as <- E. exists [], s. rewrite app_nil_r in Ea. subst. auto.
      * injection E as <- E. destruct (IHw _ _ E) as (a1 & s1 & -> & ?).
        exists (L n :: s ++ T n :: a1), s1. split; auto. subst a. simpl. rewrite <- app_assoc. auto.
    + (* s = a ++ k *)
      destruct k as [|y k]; simpl in E.
      * injection E as -> E. exists [], s. rewrite app_nil_r in Es. subst. auto.
      * injection E as <- E. destruct (IHs _ _ Es) as (a1 & s1 & -> & ?).
        exists (L n :: a1), s1. auto.
Qed.

Lemma bal_match_L w a m b : bal w -> w = a ++ L m :: b ->
  exists s b1, b = s ++ T m :: b1 /\ bal s.
Proof.
  intros H; revert a b; induction H as [|n s w Hs IHs Hw IHw]; intros a b E.
  - destruct a; discriminate.
  - destruct a as [|x a]; simpl in E.
    + injection E as <- <-. eauto.
    + injection E as <- E.
      apply app_eq_cases in E as [(k & Ea & E)|(k & Es & E)].
      * destruct k as [|y k]; simpl in E; [discriminate|]. injection E as <- E.
        destruct (IHw _ _ E) as (s1 & b1 & -> & ?). eauto.
      * destruct k as [|y k]; simpl in E; [discriminate|]. injection E as <- E.
        destruct (IHs _ _ Es) as (s1 & b1 & -> & ?).
        exists s1, (b1 ++ T n :: w). rewrite E. rewrite <- app_assoc. auto.
Qed.

Lemma bal_T_L w m : bal w -> T m ∈ w -> L m ∈ w.
Proof.
  intros H (a & b & E)%elem_of_list_split. destruct (bal_match_T _ _ _ _ H E) as (a1 & s & -> & _).
  subst w. rewrite <- app_assoc. set_solver.
Qed.
Lemma bal_L_T w m : bal w -> L m ∈ w -> T m ∈ w.
Proof.
  intros H (a & b & E)%elem_of_list_split. destruct (bal_match_L _ _ _ _ H E) as (s & b1 & -> & _).
  subst w. set_solver.
Qed.
Lemma bal_both w m e : bal w -> Iter m e ∈ w -> L m ∈ w /\ T m ∈ w.
Proof. destruct e; intros; split; auto using bal_T_L, bal_L_T. Qed.

(** Nodes of a word. *)

Lemma bal_node_in w m : bal w -> m ∈ wnodes w -> L m ∈ w /\ T m ∈ w.
Proof.
  intros H (x & -> & Hx)%elem_of_list_fmap. destruct x as [m e]. eapply bal_both; eauto.
Qed.

Lemma elem_wnodes x w : x ∈ w -> it_node x ∈ wnodes w.
Proof. intros. apply elem_of_list_fmap. eauto. Qed.

(** Adjacent positions of a balanced word without duplicates. *)
Lemma adj_leading a n y b : bal (a ++ L n :: y :: b) -> NoDup (a ++ L n :: y :: b) ->
  y = T n \/ exists m, y = L m /\ m <> n.
Proof.
  intros Hb Hd. destruct y as [m []].
  - left. apply bal_brun in Hb. rewrite brun_app in Hb. destruct (brun [] a); [|discriminate].
    simpl in Hb. destruct (decide (n = m)); [congruence|discriminate].
  - right. exists m. split; auto. intros ->.
    apply NoDup_app in Hd as (_ & _ & Hd). apply NoDup_cons in Hd as [Hd _]. set_solver.
Qed.

Lemma adj_trailing a n y b : bal (a ++ T n :: y :: b) -> NoDup (a ++ T n :: y :: b) ->
  it_node y <> n.
Proof.
  intros Hb Hd E. destruct y as [m e]; simpl in E; subst m. destruct e.
  - apply NoDup_app in Hd as (_ & _ & Hd). apply NoDup_cons in Hd as [Hd _]. set_solver.
  - destruct (bal_match_T _ _ _ _ Hb eq_refl) as (a1 & s & -> & _).
    apply NoDup_app in Hd as (_ & Hd & _). apply (Hd (L n)); set_solver.
Qed.

(** The enclosing bracket of two adjacent trailing edges. *)
Lemma adj_TT a n m b : bal (a ++ T n :: T m :: b) -> NoDup (a ++ T n :: T m :: b) ->
  exists a1 s, a = a1 ++ L m :: s /\ bal (s ++ [T n]).
Proof.
  intros Hb Hd.
  destruct (bal_match_T _ (a ++ [T n]) m b Hb) as (a1 & s & E & Hs).
  { rewrite <- app_assoc. auto. }
  destruct s as [|z s _] using rev_ind.
  - apply app_inj_tail in E as [_ E]. discriminate.
  - rewrite app_comm_cons, app_assoc in E. apply app_inj_tail in E as [-> <-].
    eauto.
Qed.

Lemma adj_LL a n m b : bal (a ++ L n :: L m :: b) -> NoDup (a ++ L n :: L m :: b) ->
  exists s b1, b = s ++ T n :: b1 /\ bal (L m :: s).
Proof.
  intros Hb Hd.
  destruct (bal_match_L _ a n (L m :: b) Hb eq_refl) as (s & b1 & E & Hs).
  destruct s as [|z s]; simpl in E; [discriminate|]. injection E as <- ->. eauto.
Qed.

(** Trees and words. *)
Section trees.
Context {V : Type}.
Implicit Types (f l : list (tree V)).

Lemma tree_ind' (P : tree V -> Prop)
  (H : forall n v cs, Forall P cs -> P (Node n v cs)) : forall t, P t.
Proof.
  fix IH 1. intros [n v cs]. apply H. induction cs as [|c cs IHcs]; constructor; auto.
Qed.

Lemma forest_ind' (P : list (tree V) -> Prop)
  (H0 : P []) (H1 : forall n v cs f, P cs -> P f -> P (Node n v cs :: f)) : forall f, P f.
Proof.
  intros f. induction f as [|t f IH]; auto.
  revert f IH. induction t as [n v cs IHcs] using tree_ind'. intros f IH.
  apply H1; auto. clear f IH. induction IHcs as [|c cs Hc Hcs IH]; auto.
Qed.

Lemma fword_nil : fword (V:=V) [] = [].
Proof. reflexivity. Qed.
Lemma fword_cons n v cs f :
  fword (Node n v cs :: f) = L n :: fword (V:=V) cs ++ T n :: fword f.
Proof. unfold fword. simpl. f_equal. rewrite <- app_assoc. reflexivity. Qed.
Lemma fword_app f l : fword (f ++ l) = fword (V:=V) f ++ fword l.
Proof. unfold fword. rewrite map_app, concat_app. auto. Qed.

Lemma fpre_cons n v cs f : fpre (Node n v cs :: f) = (n, v) :: fpre (V:=V) cs ++ fpre f.
Proof. unfold fpre. simpl. auto. Qed.
Lemma fpre_app f l : fpre (f ++ l) = fpre (V:=V) f ++ fpre l.
Proof. unfold fpre. rewrite map_app, concat_app. auto. Qed.
Lemma fpost_cons n v cs f : fpost (Node n v cs :: f) = fpost (V:=V) cs ++ (n, v) :: fpost f.
Proof. unfold fpost. simpl. rewrite <- app_assoc. auto. Qed.
Lemma fnodes_map f : fnodes (V:=V) f = map fst (fpre f).
Proof. reflexivity. Qed.
Lemma fnodes_cons n v cs f : fnodes (Node n v cs :: f) = n :: fnodes (V:=V) cs ++ fnodes f.
Proof. unfold fnodes. rewrite fpre_cons. simpl. rewrite map_app. auto. Qed.
Lemma fnodes_app f l : fnodes (f ++ l) = fnodes (V:=V) f ++ fnodes l.
Proof. unfold fnodes. rewrite fpre_app, map_app. auto. Qed.
Lemma fcount_cons n v cs f : fcount (Node n v cs :: f) = S (fcount (V:=V) cs + fcount f).
Proof. reflexivity. Qed.
Lemma fcount_nil : fcount (V:=V) [] = 0.
Proof. reflexivity. Qed.
Lemma fpre_nil : fpre (V:=V) [] = [].
Proof. reflexivity. Qed.
Lemma fpost_nil : fpost (V:=V) [] = [].
Proof. reflexivity. Qed.
Lemma fnodes_nil : fnodes (V:=V) [] = [].
Proof. reflexivity. Qed.
Lemma fcount_app f l : fcount (f ++ l) = fcount (V:=V) f + fcount l.
Proof.
  induction f as [|[n v cs] f IH]; auto.
  change ((Node n v cs :: f) ++ l) with (Node n v cs :: (f ++ l)). rewrite !fcount_cons, IH. lia.
Qed.

Global Opaque fword fpre fpost fnodes fcount.

Lemma fword_bal f : bal (fword f).
Proof.
  induction f as [|n v cs f IHc IHf] using forest_ind'; [rewrite fword_nil; constructor|].
  rewrite fword_cons. constructor; auto.
Qed.

Lemma fword_length f : length (fword f) = 2 * fcount f.
Proof.
  induction f as [|n v cs f IHc IHf] using forest_ind'; [rewrite fword_nil, fcount_nil; auto|].
  rewrite fword_cons, fcount_cons. simpl. rewrite app_length. simpl. lia.
Qed.

Lemma fpre_length f : length (fpre f) = fcount f.
Proof.
  induction f as [|n v cs f IHc IHf] using forest_ind'; [rewrite fpre_nil, fcount_nil; auto|].
  rewrite fpre_cons, fcount_cons. simpl. rewrite app_length. lia.
Qed.

Lemma elem_fword f n e : Iter n e ∈ fword f <-> n ∈ fnodes f.
Proof.
  induction f as [|m v cs f IHc IHf] using forest_ind'.
  - rewrite fword_nil, fnodes_nil. split; intros H; inversion H.
  - rewrite fword_cons, fnodes_cons. rewrite !elem_of_cons, !elem_of_app, elem_of_cons, IHc, IHf.
    destruct e; split; intros H.
    + destruct H as [H|[H|[H|H]]]; try discriminate; auto. injection H as ->. auto.
    + destruct H as [->|[H|H]]; auto.
    + destruct H as [H|[H|[H|H]]]; try discriminate; auto. injection H as ->. auto.
    + destruct H as [->|[H|H]]; auto.
Qed.

Lemma elem_wnodes_fword f n : n ∈ wnodes (fword f) <-> n ∈ fnodes f.
Proof.
  unfold wnodes. rewrite elem_of_list_fmap. split.
  - intros ([m e] & -> & H). eapply elem_fword; eauto.
  - intros H. exists (L n). split; auto. apply elem_fword; auto.
Qed.

Lemma fword_NoDup f : NoDup (fnodes f) <-> NoDup (fword f).
Proof.
  induction f as [|m v cs f IHc IHf] using forest_ind'.
  - rewrite fword_nil, fnodes_nil. split; constructor.
  - rewrite fword_cons, fnodes_cons. rewrite !NoDup_cons, !NoDup_app, NoDup_cons, IHc, IHf.
    rewrite !elem_of_app, !elem_of_cons, !elem_fword. split.
    + intros (Hn & Hc & Hcf & Hf). repeat split; auto.
      * intros [?|[?|?]]; [tauto|discriminate|tauto].
      * intros [x e]. rewrite elem_of_cons, !elem_fword. intros Hx [E|?].
        -- injection E as -> ->. tauto.
        -- eapply Hcf; eauto.
    + intros (Hn & Hc & Hcf & Hf' & Hf). repeat split; auto.
      * tauto.
      * intros x Hx Hx'. apply (Hcf (L x)); [apply elem_fword; auto|].
        rewrite elem_of_cons, elem_fword. auto.
Qed.

(** Contexts. *)
Fixpoint pre (C : list frame) : list iter :=
  match C with
  | [] => []
  | (a, n, v, b) :: C => pre C ++ fword (V:=V) a ++ [L n]
  end.
Fixpoint post (C : list frame) : list iter :=
  match C with
  | [] => []
  | (a, n, v, b) :: C => T n :: fword (V:=V) b ++ post C
  end.

Lemma fword_plug C l : fword (plug C l) = pre C ++ fword l ++ post C.
Proof.
  revert l; induction C as [|[[[a n] v] b] C IH]; intros l; simpl.
  - rewrite app_nil_r. auto.
  - rewrite IH, fword_app, fword_cons. rewrite <- !app_assoc. simpl. rewrite <- ?app_assoc. auto.
Qed.

Lemma gap_hd t C r : exists k, fword r ++ post C ++ [T t] = gap t C r :: k.
Proof.
  destruct r as [|[n v cs] r]; simpl.
  - destruct C as [|[[[a n] v] b] C]; simpl; eauto.
  - rewrite fword_cons. eauto.
Qed.

(** Parsing: every balanced word with values is the word of a forest. *)
Lemma bal_parse (vals : nat -> V) w : bal w ->
  exists f, fword f = w /\ Forall (fun nv => vals nv.1 = nv.2) (fpre f).
Proof.
  induction 1 as [|n s w Hs (f1 & E1 & F1) Hw (f2 & E2 & F2)].
  - exists []. split; [apply fword_nil|rewrite fpre_nil; constructor].
  - exists (Node n (vals n) f1 :: f2). rewrite fword_cons, E1, E2. split; auto.
    rewrite fpre_cons. constructor; auto. apply Forall_app; auto.
Qed.

(** Extending a context by a top-level tree on the left, or by an enclosing node. *)
Fixpoint ctx_cons (tr : tree V) (C : list frame) : list frame :=
  match C with
  | [] => []
  | [(a, n, v, b)] => [(tr :: a, n, v, b)]
  | fr :: C => fr :: ctx_cons tr C
  end.

Lemma ctx_cons_spec n v cs C t : C <> [] ->
  (forall l, plug (ctx_cons (Node n v cs) C) l = Node n v cs :: plug C l) /\
  pre (ctx_cons (Node n v cs) C) = L n :: fword cs ++ T n :: pre C /\
  post (ctx_cons (Node n v cs) C) = post C /\
  hole_owner t (ctx_cons (Node n v cs) C) = hole_owner t C.
Proof.
  induction C as [|[[[a1 n1] v1] b1] C IH]; [congruence|]. intros _.
  destruct C as [|fr C].
  - simpl. rewrite fword_cons. repeat split; auto. simpl. rewrite <- app_assoc. auto.
  - destruct IH as (E1 & E2 & E3 & E4); [congruence|].
    change (ctx_cons (Node n v cs) ((a1, n1, v1, b1) :: fr :: C))
      with ((a1, n1, v1, b1) :: ctx_cons (Node n v cs) (fr :: C)).
    cbn [plug pre post hole_owner].
    change (match fr with (a, n2, _, _) => pre C ++ fword a ++ [L n2] end) with (pre (fr :: C)).
    split; [|split; [|split]].
    + intros l. rewrite E1. auto.
    + rewrite E2. simpl. rewrite <- app_assoc. auto.
    + rewrite E3. auto.
    + auto.
Qed.

Definition ctx_snoc n v f (C : list frame) : list frame := C ++ [([], n, v, f)].

Lemma ctx_snoc_spec n v f C t :
  (forall l, plug (ctx_snoc n v f C) l = Node n v (plug C l) :: f) /\
  pre (ctx_snoc n v f C) = L n :: pre C /\
  post (ctx_snoc n v f C) = post C ++ T n :: fword f /\
  hole_owner t (ctx_snoc n v f C) = hole_owner n C.
Proof.
  unfold ctx_snoc. induction C as [|[[[a1 n1] v1] b1] C IH].
  - simpl. rewrite app_nil_r, fword_nil. auto.
  - simpl. destruct IH as (E1 & E2 & E3 & E4). split; [|split; [|split]]; auto.
    + rewrite E2. auto.
    + rewrite E3. rewrite <- app_assoc. auto.
Qed.

(** A position in the word of a forest is a gap. *)
Lemma gap_exists f t a x b : fword f ++ [T t] = a ++ x :: b ->
  exists C l r, f = plug C (l ++ r) /\ a = pre C ++ fword l /\
                x :: b = fword r ++ post C ++ [T t] /\ x = gap t C r.
Proof.
  revert t a x b; induction f as [|n v cs f IHc IHf] using forest_ind'; intros t a x b E.
  - rewrite fword_nil in E. simpl in E. destruct a as [|y a]; simpl in E.
    + injection E as <- <-. exists [], [], []. rewrite fword_nil. auto.
    + injection E as _ E. destruct a; discriminate.
  - rewrite fword_cons in E. destruct a as [|y a]; simpl in E.
    + injection E as <- <-. exists [], [], (Node n v cs :: f). simpl.
      rewrite fword_nil, fword_cons. auto.
    + injection E as <- E.
      assert (E' : (fword cs ++ [T n]) ++ (fword f ++ [T t]) = a ++ x :: b).
      { rewrite <- E. rewrite <- !app_assoc. auto. }
      apply app_eq_cases in E' as [(k & Ea & E')|(k & Ec & E')].
      * destruct (IHf _ _ _ _ E') as (C & l & r & -> & -> & Ex & Hg).
        destruct (decide (C = [])) as [->|HC].
        { exists [], (Node n v cs :: l), r. simpl in *. rewrite fword_cons.
          repeat split; auto. rewrite Ea. rewrite <- !app_assoc. auto. }
        { destruct (ctx_cons_spec n v cs C t HC) as (E1 & E2 & E3 & E4).
          exists (ctx_cons (Node n v cs) C), l, r. rewrite E1, E2, E3.
          repeat split; auto.
          - rewrite Ea. simpl. rewrite <- !app_assoc. simpl. auto.
          - rewrite Hg. unfold gap. rewrite E4. auto. }
      * destruct k as [|z k]; simpl in E'.
        { rewrite app_nil_r in Ec.
          exists [], [Node n v cs], f. simpl. rewrite fword_cons, fword_nil. repeat split; auto.
          - rewrite <- Ec. auto.
          - destruct (gap_hd t [] f) as (k' & Ek). simpl in Ek. rewrite Ek in E'. congruence. }
        injection E' as <- E'.
        destruct (IHc n _ _ _ Ec) as (C & l & r & -> & -> & Ex & Hg).
        destruct (ctx_snoc_spec n v f C t) as (E1 & E2 & E3 & E4).
        exists (ctx_snoc n v f C), l, r.
rewrite E1, E2, E3. repeat split; auto.
        -- rewrite E'. change (x :: k ++ fword f ++ [T t]) with ((x :: k) ++ fword f ++ [T t]).
           rewrite Ex. rewrite <- !app_assoc. simpl. auto.
        -- rewrite Hg. unfold gap. rewrite E4. auto.
Qed.

End trees.
