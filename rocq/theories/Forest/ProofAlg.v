(** operator==, equal_shape, flatten, transcribe, unflatten. *)
From stdpp Require Import gmap list.
From Coq Require Import ZArith.
From Verif.Forest Require Import Model Spec Rep ProofWord ProofHeap ProofOps ProofOps2 ProofTree ProofEdge ProofCopy ProofCopy2 ProofIter ProofIter2.

(** ** tokens *)
Lemma ftok_nil {V} : ftok (V:=V) [] = [].
Proof. auto. Qed.
Lemma ftok_cons {V} n v cs l : ftok (V:=V) (Node n v cs :: l) = Some v :: ftok cs ++ None :: ftok l.
Proof. unfold ftok. simpl. rewrite <- app_assoc. auto. Qed.
Lemma ftok_app {V} l k : ftok (V:=V) (l ++ k) = ftok l ++ ftok k.
Proof. unfold ftok. rewrite map_app, concat_app. auto. Qed.
Global Opaque ftok.

Lemma ftok_length {V} (l : list (tree V)) : length (ftok l) = 2 * fcount l.
Proof.
  induction l as [|n v cs l IHc IHl] using forest_ind'; [rewrite (fcount_nil (V:=V)); auto|].
  rewrite ftok_cons, fcount_cons. simpl. rewrite app_length. simpl. lia.
Qed.

Definition orel {V W} (R : V -> W -> Prop) (a : option V) (b : option W) : Prop :=
  match a, b with Some v, Some w => R v w | None, None => True | _, _ => False end.

Lemma orel_flip {V W} (R : V -> W -> Prop) xs ys :
  Forall2 (orel R) xs ys -> Forall2 (orel (fun b a => R a b)) ys xs.
Proof. induction 1 as [|[] [] ? ? H]; constructor; auto. Qed.

Definition noneok {W} (rest : list (option W)) : Prop :=
  match rest with Some _ :: _ => False | _ => True end.

Lemma tok_parse {V W} (R : V -> W -> Prop) l : forall (k : list (tree W)) rest xs2 tail,
  Forall2 (orel R) (ftok l) xs2 -> ftok k ++ rest = xs2 ++ tail -> noneok rest ->
  exists k1 k2, k = k1 ++ k2 /\ sim R l k1 /\ xs2 = ftok k1 /\ tail = ftok k2 ++ rest.
Proof.
  induction l as [|n v cs l IHc IHl] using forest_ind'; intros k rest xs2 tail HF E Hr.
  - rewrite ftok_nil in HF. inversion HF; subst. exists [], k. simpl in E. split; auto. split; [constructor|]. auto.
  - rewrite ftok_cons in HF. apply Forall2_cons_inv_l in HF as (y & ys & Hy & HF & ->).
    apply Forall2_app_inv_l in HF as (xa & xb' & HFa & HFb & ->).
    apply Forall2_cons_inv_l in HFb as (y2 & xb & Hy2 & HFb & ->).
    destruct y as [w|]; [|destruct Hy]. destruct y2 as [|]; [destruct Hy2|]. simpl in Hy.
    destruct k as [|[m w' ds] k].
    + rewrite ftok_nil in E. simpl in E. destruct rest as [|[|] rest]; try discriminate. destruct Hr.
    + rewrite ftok_cons in E. simpl in E. injection E as -> E.
      rewrite <- !app_assoc in E. simpl in E.
      destruct (IHc ds (None :: ftok k ++ rest) xa (None :: xb ++ tail) HFa) as (d1 & d2 & -> & S1 & -> & E2); simpl; auto.
      destruct d2 as [|[m2 w2 ds2] d2].
      * rewrite ftok_nil in E2. simpl in E2. injection E2 as E2.
        destruct (IHl k rest xb tail HFb) as (k1 & k2 & -> & S2 & -> & ->); auto.
        exists (Node m w d1 :: k1), k2. rewrite app_nil_r. split; auto. split; [constructor; auto|].
        rewrite ftok_cons. auto.
      * rewrite ftok_cons in E2. discriminate.
Qed.

Lemma sim_tok {V W} (R : V -> W -> Prop) l k : sim R l k -> Forall2 (orel R) (ftok l) (ftok k).
Proof.
  induction 1; [rewrite !ftok_nil; constructor|]. rewrite !ftok_cons. constructor; auto.
  apply Forall2_app; auto. constructor; auto. simpl. auto.
Qed.

Lemma sim_count {V W} (R : V -> W -> Prop) l k : sim R l k -> fcount l = fcount k.
Proof. intros H. apply sim_tok, Forall2_length in H. rewrite !ftok_length in H. lia. Qed.

(** sim over equality is equality of the structures. *)
Lemma sim_strip {V} (l k : list (tree V)) : sim eq l k <-> map strip l = map strip k.
Proof.
  split.
  - induction 1; simpl; congruence.
  - revert k. induction l as [|n v cs l IHc IHl] using forest_ind'; intros [|[m w ds] k]; simpl; try discriminate.
    + constructor.
    + intros [= -> E1 E2]. constructor; auto.
Qed.

Lemma sim_shape {V W} (l : list (tree V)) (k : list (tree W)) : sim (fun _ _ => True) l k <-> fshape l = fshape k.
Proof.
  unfold fshape. split.
  - induction 1; simpl; congruence.
  - revert k. induction l as [|n v cs l IHc IHl] using forest_ind'; intros [|[m w ds] k]; simpl; try discriminate.
    + constructor.
    + intros [= E1 E2]. constructor; auto.
Qed.

(** A forest's tokens never match those of another followed by a closing bracket. *)
Lemma tok_noclose {V W} (R : V -> W -> Prop) (l : list (tree V)) (k : list (tree W)) x1 x2 :
  ftok l = x1 ++ x2 -> Forall2 (orel R) x1 (ftok k ++ [None]) -> False.
Proof.
  intros E HF. apply Forall2_app_inv_r in HF as (xa & xb & HFa & HFb & ->).
  apply Forall2_cons_inv_r in HFb as (y & l0 & Hy & _ & ->). destruct y; [destruct Hy|].
  apply orel_flip in HFa. rewrite <- app_assoc in E. simpl in E.
  assert (E' : ftok l ++ [] = xa ++ (None :: l0 ++ x2)) by (rewrite app_nil_r; auto).
  destruct (tok_parse _ k l [] _ _ HFa E' I) as (l1 & l2 & _ & _ & _ & E2).
  destruct l2 as [|[n v cs] l2]; [rewrite ftok_nil in E2|rewrite ftok_cons in E2]; discriminate.
Qed.

Section tok.
Context {V : Type}.
Implicit Types (h : heap V).

Definition tokat h (x : iter) (o : option V) : Prop :=
  match o with
  | Some v => it_edge x = leading /\ dt h (it_node x) = Some (Some v)
  | None => it_edge x = trailing
  end.

Lemma tokat_word h l : (forall n v, (n, v) ∈ fpre l -> dt h n = Some (Some v)) ->
  Forall2 (tokat h) (fword l) (ftok l).
Proof.
  induction l as [|n v cs l IHc IHl] using forest_ind'; intros Hv.
  - rewrite (fword_nil (V:=V)), ftok_nil. constructor.
  - rewrite fword_cons, ftok_cons. constructor.
    + split; auto. apply Hv. rewrite fpre_cons. apply elem_of_list_here.
    + apply Forall2_app; [apply IHc|constructor; [reflexivity|apply IHl]];
        intros m x Hm; apply Hv; rewrite fpre_cons, elem_of_cons, elem_of_app; auto.
Qed.

Lemma tokat_deref h x v : tokat h x (Some v) -> deref h x = Ok v.
Proof. intros [_ H]. destruct x. simpl in H. apply deref_of; auto. Qed.
End tok.

(** ** operator== *)
Section eq.
Context {V : Type} (eqb : V -> V -> bool).
Implicit Types (h : heap V).
Let R (a b : V) := eqb a b = true.

Lemma eq_loop_spec h t1 t2 a1 w1 a2 w2 xs ys fuel :
  WRep h t1 (a1 ++ w1) -> WRep h t2 (a2 ++ w2) ->
  Forall2 (tokat h) w1 xs -> Forall2 (tokat h) (w2 ++ [T t2]) ys -> length w1 <= fuel ->
  (forall x1 x2, xs = x1 ++ x2 -> Forall2 (orel R) x1 ys -> False) ->
  exists b, eq_loop fuel eqb h (firstp t1 w1) (T t1) (firstp t2 w2) = Ok b /\
    (b = true <-> exists zs tail, ys = zs ++ tail /\ Forall2 (orel R) xs zs).
Proof.
  intros W1 W2 F1. revert a1 a2 w2 ys fuel W1 W2.
  induction F1 as [|x o w1 xs Hx F1 IH]; intros a1 a2 w2 ys fuel W1 W2 F2 Hf Hno.
  - exists true. split.
    + destruct fuel; simpl; rewrite decide_True; auto.
    + split; auto. intros _. exists [], ys. split; auto.
  - destruct fuel as [|fuel]; [simpl in Hf; lia|]. simpl.
    rewrite (decide_False (P := x = T t1)).
    2:{ intros ->. apply (wr_notin_tail _ _ _ trailing W1). rewrite elem_of_app, elem_of_cons. auto. }
    destruct (firstp_split t2 w2) as (b' & Eb). rewrite Eb in F2.
    apply Forall2_cons_inv_l in F2 as (o2 & ys' & Hy & F2 & ->).
    set (y := firstp t2 w2) in *.
    destruct o as [v|], o2 as [v2|].
    + destruct Hx as [Ex Dx], Hy as [Ey Dy]. rewrite decide_False by congruence.
      unfold is_leading. rewrite Ex. simpl.
      rewrite (tokat_deref h x v) by (split; auto). rewrite (tokat_deref h y v2) by (split; auto). simpl.
      destruct (eqb v v2) eqn:Ev.
      * rewrite (increment_cons _ _ _ _ _ W1). simpl.
        destruct w2 as [|y' w2]; [unfold y in Ey; simpl in Ey; discriminate|].
        assert (Eb' : b' = w2 ++ [T t2]) by (simpl in Eb; congruence). subst b'. unfold y in *. simpl.
        rewrite (increment_cons _ _ _ _ _ W2). simpl.
        destruct (IH (a1 ++ [x]) (a2 ++ [y']) w2 ys' fuel) as (b & E & Hb).
        -- rewrite <- app_assoc. auto.
        -- rewrite <- app_assoc. auto.
        -- auto.
        -- simpl in Hf. lia.
        -- intros x1 x2 -> HF. apply (Hno (Some v :: x1) x2); auto.
        -- exists b. split; auto. rewrite Hb. split.
           ++ intros (zs & tail & -> & HF). exists (Some v2 :: zs), tail. split; auto.
           ++ intros (zs & tail & E' & HF). apply Forall2_cons_inv_l in HF as (z & zs' & Hz & HF & ->).
              simpl in E'. injection E' as <- ->. eauto.
      * exists false. split; auto. split; [discriminate|].
        intros (zs & tail & E' & HF). apply Forall2_cons_inv_l in HF as (z & zs' & Hz & HF & ->).
        simpl in E'. injection E' as <- ->. simpl in Hz. unfold R in Hz. congruence.
    + destruct Hx as [Ex Dx]. simpl in Hy. rewrite decide_True by congruence.
      exists false. split; auto. split; [discriminate|].
      intros (zs & tail & E' & HF). apply Forall2_cons_inv_l in HF as (z & zs' & Hz & HF & ->).
      simpl in E'. injection E' as <- ->. destruct Hz.
    + destruct Hy as [Ey Dy]. simpl in Hx. rewrite decide_True by congruence.
      exists false. split; auto. split; [discriminate|].
      intros (zs & tail & E' & HF). apply Forall2_cons_inv_l in HF as (z & zs' & Hz & HF & ->).
      simpl in E'. injection E' as <- ->. destruct Hz.
    + simpl in Hx, Hy. rewrite decide_False by congruence.
      unfold is_leading. rewrite Hx. simpl.
      rewrite (increment_cons _ _ _ _ _ W1). simpl.
      destruct w2 as [|y' w2].
      { exfalso. assert (b' = []) by (simpl in Eb; congruence). subst b'. inversion F2; subst.
        apply (Hno [None] xs eq_refl). constructor; [exact I|constructor]. }
      assert (Eb' : b' = w2 ++ [T t2]) by (simpl in Eb; congruence). subst b'. unfold y in *. simpl.
      rewrite (increment_cons _ _ _ _ _ W2). simpl.
      destruct (IH (a1 ++ [x]) (a2 ++ [y']) w2 ys' fuel) as (b & E & Hb).
      * rewrite <- app_assoc. auto.
      * rewrite <- app_assoc. auto.
      * auto.
      * simpl in Hf. lia.
      * intros x1 x2 -> HF. apply (Hno (None :: x1) x2); auto. constructor; auto. exact I.
      * exists b. split; auto. rewrite Hb. split.
        -- intros (zs & tail & -> & HF). exists (None :: zs), tail. split; auto. constructor; auto. exact I.
        -- intros (zs & tail & E' & HF). apply Forall2_cons_inv_l in HF as (z & zs' & Hz & HF & ->).
           simpl in E'. injection E' as <- ->. eauto.
Qed.

Lemma f_eq_spec h x l y k fuel : Rep h x l -> Rep h y k ->
  2 * fcount l + 1 <= fuel -> 2 * fcount k + 1 <= fuel ->
  exists x' y' b, f_eq fuel eqb h x y = Ok (x', y', b) /\ Rep h x' l /\ Rep h y' k /\
    (b = true <-> sim R l k).
Proof.
  intros Rx Ry Hl Hk. unfold f_eq.
  destruct (size_spec h x l fuel Rx Hl) as (x' & Ex & Tx & Rx' & _). rewrite Ex. simpl.
  destruct (size_spec h y k fuel Ry Hk) as (y' & Ey & Ty & Ry' & _). rewrite Ey. simpl.
  destruct (decide (Z.of_nat (fcount l) ≠ Z.of_nat (fcount k))) as [Hne|Heq].
  - exists x', y', false. split; auto. split; auto. split; auto. split; [discriminate|].
    intros HS. apply sim_count in HS. lia.
  - pose proof (rep_word _ _ _ Rx') as Wx. pose proof (rep_word _ _ _ Ry') as Wy.
    rewrite (f_begin_spec h x' _ Wx). simpl. rewrite (f_begin_spec h y' _ Wy). simpl.
    destruct (eq_loop_spec h (f_tail x') (f_tail y') [] (fword l) [] (fword k) (ftok l) (ftok k ++ [None]) fuel Wx Wy)
      as (b & E & Hb).
    + apply tokat_word, Rx'.
    + apply Forall2_app; [apply tokat_word, Ry'|]. constructor; [reflexivity|constructor].
    + rewrite fword_length. lia.
    + intros x1 x2 E HF. eapply tok_noclose; eauto.
    + unfold f_end. rewrite E. simpl. exists x', y', b. split; auto. split; auto. split; auto.
      rewrite Hb. split.
      * intros (zs & tail & E' & HF). destruct (tok_parse _ l k [None] zs tail HF E' I) as (k1 & k2 & -> & HS & _).
        assert (Ek : fcount k2 = 0). { apply sim_count in HS. rewrite fcount_app in *. lia. }
        destruct k2 as [|[n v cs] k2]; [rewrite app_nil_r; auto|rewrite fcount_cons in Ek; lia].
      * intros HS. exists (ftok k), [None]. split; auto. apply sim_tok; auto.
Qed.
End eq.

(** ** equal_shape *)
Section shape.
Context {V W : Type}.
Let R (a : V) (b : W) := True.

Lemma shape_loop_spec (hx : heap V) (hy : heap W) t1 t2 a1 w1 a2 w2 xs ys fuel :
  WRep hx t1 (a1 ++ w1) -> WRep hy t2 (a2 ++ w2) ->
  Forall2 (tokat hx) w1 xs -> Forall2 (fun x o => it_edge x = match o with Some _ => leading | None => trailing end) (w2 ++ [T t2]) ys ->
  length w1 <= fuel ->
  (forall x1 x2, xs = x1 ++ x2 -> Forall2 (orel R) x1 ys -> False) ->
  exists b, shape_loop fuel hx hy (firstp t1 w1) (T t1) (firstp t2 w2) = Ok b /\
    (b = true <-> exists zs tail, ys = zs ++ tail /\ Forall2 (orel R) xs zs).
Proof.
  intros W1 W2 F1. revert a1 a2 w2 ys fuel W1 W2.
  induction F1 as [|x o w1 xs Hx F1 IH]; intros a1 a2 w2 ys fuel W1 W2 F2 Hf Hno.
  - exists true. split.
    + destruct fuel; simpl; rewrite decide_True; auto.
    + split; auto. intros _. exists [], ys. split; auto.
  - destruct fuel as [|fuel]; [simpl in Hf; lia|]. simpl.
    rewrite (decide_False (P := x = T t1)).
    2:{ intros ->. apply (wr_notin_tail _ _ _ trailing W1). rewrite elem_of_app, elem_of_cons. auto. }
    destruct (firstp_split t2 w2) as (b' & Eb). rewrite Eb in F2.
    apply Forall2_cons_inv_l in F2 as (o2 & ys' & Hy & F2 & ->).
    assert (Ex : it_edge x = match o with Some _ => leading | None => trailing end).
    { destruct o; [apply Hx|exact Hx]. }
    destruct (decide (it_edge x <> it_edge (firstp t2 w2))) as [Hne|Heq].
    + exists false. split; auto. split; [discriminate|].
      intros (zs & tail & E' & HF). apply Forall2_cons_inv_l in HF as (z & zs' & Hz & HF & ->).
      simpl in E'. injection E' as <- ->. destruct o, o2; simpl in Hz; try tauto; congruence.
    + assert (Hor : orel R o o2).
      { destruct o, o2; simpl; auto; try exact I; rewrite Ex, Hy in Heq; apply Heq; discriminate. }
      rewrite (increment_cons _ _ _ _ _ W1). simpl.
      destruct w2 as [|y' w2].
      { exfalso. assert (b' = []) by (simpl in Eb; congruence). subst b'. inversion F2; subst.
        apply (Hno [o] xs eq_refl). constructor; auto. }
      assert (Eb' : b' = w2 ++ [T t2]) by (simpl in Eb; congruence). subst b'. simpl.
      rewrite (increment_cons _ _ _ _ _ W2). simpl.
      destruct (IH (a1 ++ [x]) (a2 ++ [y']) w2 ys' fuel) as (b & E & Hb).
      * rewrite <- app_assoc. auto.
      * rewrite <- app_assoc. auto.
      * auto.
      * simpl in Hf. lia.
      * intros x1 x2 -> HF. apply (Hno (o :: x1) x2); auto.
      * exists b. split; auto. rewrite Hb. split.
        -- intros (zs & tail & -> & HF). exists (o2 :: zs), tail. split; auto.
        -- intros (zs & tail & E' & HF). apply Forall2_cons_inv_l in HF as (z & zs' & Hz & HF & ->).
           simpl in E'. injection E' as <- ->. eauto.
Qed.

(** What equal_shape computes: with both sizes known, equality of shape; otherwise whether the
    shape of [x] is a prefix of that of [y]. *)
Lemma equal_shape_spec (hx : heap V) (hy : heap W) x l y k fuel : Rep hx x l -> Rep hy y k ->
  2 * fcount l + 1 <= fuel -> 2 * fcount k + 1 <= fuel ->
  exists b, equal_shape fuel hx hy x y = Ok b /\
    (b = true <-> if sv x (fword l) && sv y (fword k) then fshape l = fshape k
                  else exists k2, fshape k = fshape l ++ k2).
Proof.
  intros Rx Ry Hl Hk. unfold equal_shape.
  pose proof (rep_word _ _ _ Rx) as Wx. pose proof (rep_word _ _ _ Ry) as Wy.
  rewrite (size_valid_spec hx x _ Wx). simpl.
  assert (Hloop : exists b, shape_loop fuel hx hy (firstp (f_tail x) (fword l)) (f_end x) (firstp (f_tail y) (fword k)) = Ok b /\
     (b = true <-> exists k2, fshape k = fshape l ++ k2)).
  { destruct (shape_loop_spec hx hy (f_tail x) (f_tail y) [] (fword l) [] (fword k) (ftok l) (ftok k ++ [None]) fuel Wx Wy)
      as (b & E & Hb).
    - apply tokat_word, Rx.
    - apply Forall2_app; [|constructor; [reflexivity|constructor]].
      eapply Forall2_impl; [apply (tokat_word hy), Ry|]. intros z [] Hz; [apply Hz|exact Hz].
    - rewrite fword_length. lia.
    - intros x1 x2 E HF. eapply tok_noclose; eauto.
    - exists b. split; auto. rewrite Hb. split.
      + intros (zs & tail & E' & HF). destruct (tok_parse _ l k [None] zs tail HF E' I) as (k1 & k2 & -> & HS & _).
        apply sim_shape in HS. exists (fshape k2). unfold fshape in *. rewrite map_app, HS. auto.
      + intros (s2 & Es). unfold fshape in Es. apply fmap_app_inv in Es as (k1 & k2 & E1 & E2 & ->).
        exists (ftok k1), (ftok k2 ++ [None]). rewrite ftok_app, <- app_assoc. split; auto.
        apply sim_tok, sim_shape. exact E1. }
  destruct Hloop as (b & El & Hb).
  destruct (sv x (fword l)) eqn:Sx; simpl.
  - rewrite (size_valid_spec hy y _ Wy). simpl. destruct (sv y (fword k)) eqn:Sy; simpl.
    + destruct (size_spec hx x l fuel Rx Hl) as (x' & Ex & _). rewrite Ex. simpl.
      destruct (size_spec hy y k fuel Ry Hk) as (y' & Ey & _). rewrite Ey. simpl.
      case_bool_decide as Hne.
      * exists false. split; auto. split; [discriminate|]. intros E. apply sim_shape, sim_count in E. lia.
      * rewrite (f_begin_spec hy y _ Wy). simpl. rewrite (f_begin_spec hx x _ Wx). simpl.
        exists b. split; auto. rewrite Hb. split.
        -- intros (s2 & Es). unfold fshape in Es. apply fmap_app_inv in Es as (k1 & k2 & E1 & E2 & ->).
           assert (Ek : fcount k2 = 0).
           { apply sim_shape, sim_count in E1. rewrite fcount_app in Hne. lia. }
           destruct k2 as [|[n v cs] k2]; [rewrite app_nil_r; auto|rewrite fcount_cons in Ek; lia].
        -- intros E. exists []. rewrite app_nil_r. auto.
    + rewrite (f_begin_spec hy y _ Wy). simpl. rewrite (f_begin_spec hx x _ Wx). simpl. eauto.
  - rewrite (f_begin_spec hy y _ Wy). simpl. rewrite (f_begin_spec hx x _ Wx). simpl. eauto.
Qed.
End shape.

(** ** flatten and transcribe over any iterator type *)
Section gen.
Context {V A : Type} (O : iterops V A).

Definition tokpos (x : A) (o : option V) : Prop :=
  io_done O x = false /\
  match o with
  | Some v => io_lead O x = true /\ io_get O x = Ok v
  | None => io_lead O x = false
  end.

Lemma flatten_spec ps e toks fuel : next_ok (io_next O) (ps ++ [e]) -> io_done O e = true ->
  Forall2 tokpos ps toks -> length ps <= fuel -> flatten fuel O (hd e ps) = Ok toks.
Proof.
  intros Hn He HF. revert fuel Hn. induction HF as [|x o ps toks [Hd Hx] HF IH]; intros fuel Hn Hf; simpl.
  - destruct fuel; simpl; rewrite He; auto.
  - destruct fuel as [|fuel]; [simpl in Hf; lia|]. simpl. rewrite Hd.
    assert (Ho : (if io_lead O x then let! v := io_get O x in Ok (Some v) else Ok None) = Ok o).
    { destruct o as [v|]; [destruct Hx as [-> ->]; auto|rewrite Hx; auto]. }
    rewrite Ho. simpl.
    assert (Hnx : io_next O x = Ok (hd e ps)).
    { destruct ps as [|y ps]; simpl in *; [apply (Hn [] x e []); auto|apply (Hn [] x y (ps ++ [e])); auto]. }
    rewrite Hnx. simpl. rewrite IH; auto. { eapply next_ok_tail; eauto. } simpl in Hf. lia.
Qed.

Context {W : Type}.
Fixpoint build (al : allocator W) (h : heap W) (f : fobj) (xs : list (option W)) (i : iter)
  : res (heap W * fobj * iter) :=
  match xs with
  | [] => Ok (h, f, i)
  | o :: xs =>
      let! '(h1, f1, i1) := match o with Some v => insert al h f i v | None => Ok (h, f, trailing_of i) end in
      let! i2 := increment h1 i1 in
      build al h1 f1 xs i2
  end.

Lemma transcribe_build proj al ps e toks fuel : next_ok (io_next O) (ps ++ [e]) -> io_done O e = true ->
  Forall2 tokpos ps toks -> length ps <= fuel -> forall h f i,
  transcribe fuel O proj (io_lead O) al (hd e ps) h f i = build al h f (map (option_map proj) toks) i.
Proof.
  intros Hn He HF. revert fuel Hn. induction HF as [|x o ps toks [Hd Hx] HF IH]; intros fuel Hn Hf h f i.
  - destruct fuel; simpl; rewrite He; auto.
  - destruct fuel as [|fuel]; [simpl in Hf; lia|]. simpl. rewrite Hd.
    assert (Hnx : io_next O x = Ok (hd e ps)).
    { destruct ps as [|y ps]; simpl in *; [apply (Hn [] x e []); auto|apply (Hn [] x y (ps ++ [e])); auto]. }
    assert (Ho : (if io_lead O x then let! v := io_get O x in insert al h f i (proj v) else Ok (h, f, trailing_of i))
        = match option_map proj o with Some v => insert al h f i v | None => Ok (h, f, trailing_of i) end).
    { destruct o as [v|]; [destruct Hx as [-> ->]; auto|rewrite Hx; auto]. }
    rewrite Ho. destruct (match option_map proj o with Some v => _ | None => _ end) as [[[h1 f1] i1]| |]; simpl; auto.
    rewrite Hnx. simpl. destruct (increment h1 i1) as [i2| |]; simpl; auto. apply IH.
    { eapply next_ok_tail; eauto. } simpl in Hf. lia.
Qed.
End gen.

Lemma build_tree {W} (al : allocator W) (s : list (tree W)) : good_alloc al -> forall h f D c d xs,
  Rep h f (plug D (c ++ d)) ->
  exists h' f' s', build al h f (ftok s ++ xs) (gap (f_tail f) D d) = build al h' f' xs (gap (f_tail f) D d) /\
    f_tail f' = f_tail f /\ Rep h' f' (plug D (c ++ s' ++ d)) /\ map strip s' = map strip s /\
    eff h h' (fp f (plug D (c ++ d))) (fp f' (plug D (c ++ s' ++ d))).
Proof.
  intros Hal. induction s as [|n v cs s IHc IHs] using forest_ind'; intros h f D c d xs R.
  - exists h, f, []. rewrite ftok_nil. simpl. do 4 (split; [auto|]). apply eff_refl.
  - rewrite ftok_cons. simpl. rewrite <- app_assoc. simpl.
    destruct (insert_eff al h f D c d v R (Hal h)) as (h1 & f1 & E1 & Tf1 & R1 & EF1).
    set (m := al h) in *. rewrite E1. simpl.
    rewrite (inc_leading h1 f1 D c m v [] d R1). simpl.
    set (D' := (c, m, v, d) :: D).
    destruct (IHc h1 f1 D' [] [] (None :: ftok s ++ xs) R1) as (h2 & f2 & cs' & E2 & Tf2 & R2 & Es2 & EF2).
    change (gap (f_tail f1) D' []) with (T m) in E2. rewrite E2. simpl. unfold trailing_of. simpl.
    simpl in R2, EF2. rewrite app_nil_r in R2, EF2.
    rewrite (inc_trailing h2 f2 D c m v cs' d R2). simpl. rewrite Tf2, Tf1.
    assert (R2' : Rep h2 f2 (plug D ((c ++ [Node m v cs']) ++ d))) by (rewrite <- app_assoc; auto).
    destruct (IHs h2 f2 D (c ++ [Node m v cs']) d xs R2') as (h3 & f3 & s' & E3 & Tf3 & R3 & Es3 & EF3).
    rewrite Tf2, Tf1 in E3. rewrite E3.
    rewrite <- !app_assoc in R3, EF3. simpl in R3, EF3.
    exists h3, f3, (Node m v cs' :: s'). split; auto. split; [congruence|]. split; auto.
    split; [simpl; rewrite Es2, Es3; auto|].
    eapply eff_trans; [exact EF1|]. eapply eff_trans; [exact EF2|]. rewrite <- app_assoc in EF3. exact EF3.
Qed.

(** The values mapped by [proj]. *)
Fixpoint tmap {V W} (proj : V -> W) (t : tree V) : tree W :=
  match t with Node n v cs => Node n (proj v) (map (tmap proj) cs) end.
Lemma ftok_map {V W} (proj : V -> W) l : map (option_map proj) (ftok l) = ftok (map (tmap proj) l).
Proof.
  induction l as [|n v cs l IHc IHl] using forest_ind'; [auto|].
  simpl. rewrite !ftok_cons. simpl. rewrite map_app. simpl. rewrite IHc, IHl. auto.
Qed.
