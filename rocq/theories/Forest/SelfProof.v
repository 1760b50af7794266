(** Copies of a range of a forest inserted into the same forest. *)
From stdpp Require Import gmap list.
From Coq Require Import ZArith Lia.
From Verif.Forest Require Import Model Spec Rep ProofWord ProofHeap ProofOps ProofOps2 ProofTree ProofEdge ProofCopy ProofCopy2.

Section self.
Context {V : Type}.
Implicit Types (h : heap V) (f g : fobj) (l r : list (tree V)) (C D : list (@frame V)) (A B R : list nat).

(** ** a position that is not in the range *)

Lemma inc_keep h h' t a b m x : WRep h t (a ++ b) -> WRep h' t (a ++ [L m; T m] ++ b) -> x ∈ a ++ b -> x <> lastp t a ->
  increment h' x = increment h x.
Proof.
  intros W W' Hx Hne. apply elem_of_app in Hx as [Hx|Hx]; apply elem_of_list_split in Hx as (a1 & a2 & ->).
  - destruct a2 as [|z a2]; [rewrite lastp_snoc in Hne; tauto|].
    rewrite <- app_assoc in W, W'. simpl in W, W'.
    rewrite (increment_cons _ _ _ _ _ W), (increment_cons _ _ _ _ _ W'). auto.
  - rewrite app_assoc in W. rewrite (app_assoc _ _ (a1 ++ x :: a2)), app_assoc in W'.
    rewrite (increment_cons _ _ _ _ _ W), (increment_cons _ _ _ _ _ W'). auto.
Qed.

(** The positions [w] follow each other; after the last comes [nx]. *)
Definition src h (w : list iter) (nx : iter) : Prop := forall a x b, w = a ++ x :: b -> increment h x = Ok (hd nx b).

Lemma src_keep h h' w nx : (forall x, x ∈ w -> increment h' x = increment h x) -> src h w nx -> src h' w nx.
Proof. intros K S a x b E. rewrite K; [eauto|]. rewrite E. apply elem_of_app. right. left. Qed.
Lemma src_mid h u w v nx : src h (u ++ w ++ v) nx -> src h w (hd nx v).
Proof.
  intros S a x b E. rewrite (S (u ++ a) x (b ++ v)).
  - destruct b; auto.
  - rewrite E, <- !app_assoc. auto.
Qed.

Lemma insert_range_self al lst s : good_alloc al -> forall h f D c d fuel nx,
  let t := f_tail f in let l := plug D (c ++ d) in
  Rep h f l -> src h (fword s) nx -> (forall n v, (n, v) ∈ fpre s -> dt h n = Some (Some v)) ->
  (forall x, x ∈ fword s -> x ∈ fword l) -> lastp t (pre D ++ fword c) ∉ fword s -> lst ∉ fword s ->
  exists h' f' s',
    insert_range (length (fword s) + fuel) al h f (gap t D d) (hd nx (fword s)) lst
      = insert_range fuel al h' f' (gap t D d) nx lst /\
    f_tail f' = t /\ Rep h' f' (plug D (c ++ s' ++ d)) /\ map strip s' = map strip s /\
    eff h h' (fp f l) (fp f' (plug D (c ++ s' ++ d))) /\
    (forall x, x ∈ fword l -> x <> lastp t (pre D ++ fword c) -> increment h' x = increment h x) /\
    (forall n, n ∈ fnodes l -> dt h' n = dt h n).
Proof.
  intros Hal. induction s as [|n v cs s IHc IHs] using forest_ind'; intros h f D c d fuel nx t l R SR Vs Sub Hu Hl.
  - exists h, f, []. rewrite fword_nil. simpl. do 4 (split; [auto|]). split; [apply eff_refl|auto].
  - rewrite fword_cons in *.
    set (w2 := fword cs ++ T n :: fword s) in *.
    assert (Hlen : length (L n :: w2) + fuel = S (length (fword cs) + S (length (fword s) + fuel))).
    { unfold w2. simpl. rewrite app_length. simpl. lia. }
    rewrite Hlen. cbn [insert_range hd]. rewrite decide_False by (intros E; apply Hl; rewrite <- E; apply elem_of_list_here).
    assert (Hv : dt h n = Some (Some v)). { apply Vs. rewrite fpre_cons. apply elem_of_list_here. }
    assert (Hder : deref h (L n) = Ok v).
    { unfold deref, load. unfold dt in Hv. simpl. destruct (h !! n) as [cl|]; simpl in *; [|discriminate].
      injection Hv as ->. auto. }
    rewrite Hder. cbn [is_leading it_edge rbind].
    pose proof R as [W Vl _]. unfold l in W, Vl, Sub. rewrite fword_gap in W, Sub. fold t in W.
    destruct (insert_eff al h f D c d v R (Hal h)) as (h1 & f1 & E1 & Tf1 & R1 & EF1).
    destruct (insert_word al h f (pre D ++ fword c) (fword d ++ post D) v W (Hal h)) as (h1' & f1' & E1' & _ & W1 & D1 & _).
    set (m := al h) in *. fold t in E1, Tf1, E1'. rewrite gap_firstp in E1. rewrite E1 in E1'. injection E1' as <- <-.
    rewrite gap_firstp, E1. cbn [rbind].
    assert (Hm : forall e, Iter m e ∉ fword l).
    { intros e Hx. apply elem_fword in Hx. assert (Hx' : m ∈ fp f l) by (apply elem_fp; auto).
      destruct (rep_alive _ _ _ _ R Hx') as [cl Hcl]. pose proof (Hal h) as Hn. fold m in Hn. congruence. }
    assert (Hwl : forall x, x ∈ (pre D ++ fword c) ++ fword d ++ post D <-> x ∈ fword l).
    { intros x. unfold l. rewrite fword_gap. tauto. }
    assert (K1 : forall x, x ∈ fword l -> x <> lastp t (pre D ++ fword c) -> increment h1 x = increment h x).
    { intros x Hx Hne. eapply inc_keep; eauto. apply Hwl. auto. }
    assert (Dt1 : forall k, k ∈ fnodes l -> dt h1 k = dt h k).
    { intros k Hk. rewrite D1. destruct (decide (k = m)) as [->|]; auto. exfalso. apply (Hm leading), elem_fword. auto. }
    assert (Sub' : forall x, x ∈ L n :: w2 -> x ∈ fword l) by (intros x Hx; apply Hwl; auto).
    assert (KS : forall x, x ∈ L n :: w2 -> increment h1 x = increment h x).
    { intros x Hx. apply K1; [auto|]. intros ->. auto. }
    assert (S1 : src h1 (L n :: w2) nx) by (eapply src_keep; eauto).
    rewrite (S1 [] (L n) w2) by auto. cbn [rbind].
    assert (Einc : increment h1 (L m) = Ok (T m)).
    { simpl in W1. rewrite (increment_cons _ _ _ _ _ W1). auto. }
    rewrite Einc. cbn [rbind].
    set (D' := (c, m, v, d) :: D).
    assert (HD' : plug D' [] = plug D (c ++ Node m v [] :: d)) by reflexivity.
    assert (Hsub1 : forall x, x ∈ fword l -> x ∈ fword (plug D' ([] ++ []))).
    { intros x Hx. simpl. apply Hwl in Hx. change (Node m v [] :: d) with ([Node m v []] ++ d). rewrite fword_gap3.
      rewrite !elem_of_app in *. tauto. }
    assert (Hlast1 : lastp (f_tail f1) (pre D' ++ fword (@nil (tree V))) = L m).
    { change (lastp (f_tail f1) ((pre D ++ fword c ++ [L m]) ++ []) = L m). rewrite app_nil_r, app_assoc. apply lastp_snoc. }
    assert (Efst : hd nx w2 = hd (hd nx (T n :: fword s)) (fword cs)).
    { unfold w2. destruct (fword cs); auto. }
    destruct (IHc h1 f1 D' [] [] (S (length (fword s) + fuel)) (hd nx (T n :: fword s)))
      as (h2 & f2 & cs' & E2 & Tf2 & R2 & Es2 & EF2 & K2 & Dt2).
    { exact R1. }
    { apply (src_mid h1 [L n] (fword cs) (T n :: fword s) nx). exact S1. }
    { intros k x Hk. rewrite Dt1.
      - apply Vs. rewrite fpre_cons, elem_of_cons, elem_of_app. auto.
      - apply (elem_fword _ _ leading). apply Sub'. unfold w2. rewrite elem_of_cons, elem_of_app, elem_fword. right. left.
        apply fnodes_fpre. eauto. }
    { intros x Hx. apply Hsub1, Sub'. unfold w2. rewrite elem_of_cons, elem_of_app. auto. }
    { rewrite Hlast1. intros Hx. apply (Hm leading), Sub'. unfold w2. rewrite elem_of_cons, elem_of_app. auto. }
    { intros Hin. apply Hl. unfold w2. rewrite elem_of_cons, elem_of_app. auto. }
    change (gap (f_tail f1) D' []) with (T m) in E2.
    rewrite Efst, E2. cbn [insert_range hd].
    rewrite decide_False.
    2:{ intros E. apply Hl. rewrite <- E. unfold w2. rewrite elem_of_cons, elem_of_app, elem_of_cons. auto. }
    rewrite Hlast1 in K2.
    assert (EF12 : eff h h2 (fp f l) (fp f2 (plug D' ([] ++ cs' ++ [])))).
    { eapply eff_trans; eauto. }
    assert (K12 : forall x, x ∈ fword l -> x <> lastp t (pre D ++ fword c) -> increment h2 x = increment h x).
    { intros x Hx Hne. rewrite K2; [auto|auto|]. intros ->. eapply Hm; eauto. }
    assert (Dt12 : forall k, k ∈ fnodes l -> dt h2 k = dt h k).
    { intros k Hk. rewrite Dt2; [auto|]. apply (elem_fword _ _ leading), Hsub1, elem_fword. auto. }
    assert (S2 : src h2 (L n :: w2) nx).
    { eapply src_keep; [|exact SR]. intros x Hx. apply K12; [auto|]. intros ->. auto. }
    cbn [is_leading it_edge rbind].
    rewrite (S2 (L n :: fword cs) (T n) (fword s)) by auto. cbn [rbind].
    assert (R2' : Rep h2 f2 (plug D ((c ++ [Node m v cs']) ++ d))).
    { unfold D' in R2. simpl in R2. rewrite app_nil_r in R2. rewrite <- app_assoc. auto. }
    assert (Et : f_tail f2 = t) by congruence.
    assert (Einc2 : increment h2 (T m) = Ok (gap t D d)).
    { rewrite gap_firstp. pose proof R2' as [WW _ _]. rewrite fword_gap, fword_app, fword_cons, fword_nil in WW.
      rewrite Et in WW.
      apply (increment_cons h2 t (pre D ++ fword c ++ L m :: fword cs') (T m)).
      rewrite <- !app_assoc in *. simpl in *. rewrite <- ?app_assoc in *. auto. }
    rewrite Einc2. cbn [rbind].
    assert (Hlast2 : lastp t (pre D ++ fword (c ++ [Node m v cs'])) = T m).
    { rewrite fword_app, fword_cons, fword_nil.
      replace (pre D ++ fword c ++ L m :: fword cs' ++ [T m]) with ((pre D ++ fword c ++ L m :: fword cs') ++ [T m]).
      - apply lastp_snoc.
      - rewrite <- !app_assoc. simpl. auto. }
    assert (Hsub2 : forall x, x ∈ fword l -> x ∈ fword (plug D ((c ++ [Node m v cs']) ++ d))).
    { intros x Hx. apply Hwl in Hx. rewrite <- app_assoc, fword_gap3. rewrite !elem_of_app in *. tauto. }
    destruct (IHs h2 f2 D (c ++ [Node m v cs']) d fuel nx)
      as (h3 & f3 & s' & E3 & Tf3 & R3 & Es3 & EF3 & K3 & Dt3).
    { exact R2'. }
    { intros a x b Eab. apply (S2 (L n :: fword cs ++ T n :: a) x b). unfold w2. rewrite Eab. simpl. rewrite <- app_assoc. auto. }
    { intros k x Hk. rewrite Dt12.
      - apply Vs. rewrite fpre_cons, elem_of_cons, elem_of_app. auto.
      - apply (elem_fword _ _ leading). apply Sub'. unfold w2. rewrite elem_of_cons, elem_of_app, elem_of_cons, (elem_fword s). right. right. right.
        apply fnodes_fpre. eauto. }
    { intros x Hx. apply Hsub2, Sub'. unfold w2. rewrite elem_of_cons, elem_of_app, elem_of_cons. auto. }
    { rewrite Et, Hlast2. intros Hx. apply (Hm trailing), Sub'. unfold w2. rewrite elem_of_cons, elem_of_app, elem_of_cons. auto. }
    { intros Hin. apply Hl. unfold w2. rewrite elem_of_cons, elem_of_app, elem_of_cons. auto. }
    rewrite Et in *. rewrite Hlast2 in K3.
    exists h3, f3, (Node m v cs' :: s'). split; [rewrite <- gap_firstp; exact E3|]. split; [congruence|].
    rewrite <- app_assoc in R3, EF3. simpl in R3, EF3. split; [exact R3|].
    split; [simpl; rewrite Es2, Es3; auto|]. split; [|split].
    + eapply eff_trans; [exact EF12|].
      unfold D'. simpl. rewrite app_nil_r. rewrite <- app_assoc in EF3. exact EF3.
    + intros x Hx Hne. rewrite K3; [auto|auto|]. intros ->. eapply Hm; eauto.
    + intros k Hk. rewrite Dt3; [auto|]. apply (elem_fword _ _ leading), Hsub2, elem_fword. auto.
Qed.

Lemma src_word h t a w b : WRep h t (a ++ w ++ b) -> src h w (firstp t b).
Proof.
  intros W u x v E. subst w. rewrite <- app_assoc in W. simpl in W. rewrite app_assoc in W.
  rewrite (increment_cons _ _ _ _ _ W). destruct v; auto.
Qed.

Lemma insert_range_self_final al h f C a s b D c d fuel : good_alloc al ->
  let t := f_tail f in
  Rep h f (plug C (a ++ s ++ b)) -> plug D (c ++ d) = plug C (a ++ s ++ b) ->
  gap t D d ∉ tail (fword s) -> (s <> [] -> gap t D d <> gap t C b) -> 2 * fcount s <= fuel ->
  exists h' f' s', insert_range fuel al h f (gap t D d) (gap t C (s ++ b)) (gap t C b) = Ok (h', f', gap t D d) /\
    f_tail f' = t /\ Rep h' f' (plug D (c ++ s' ++ d)) /\ map strip s' = map strip s /\
    eff h h' (fp f (plug C (a ++ s ++ b))) (fp f' (plug D (c ++ s' ++ d))).
Proof.
  intros Hal t R El Hp1 Hp2 Hf. pose proof (rep_word _ _ _ R) as W. rewrite fword_gap3 in W. fold t in W.
  pose proof (rep_word _ _ _ R) as W'. rewrite <- El, fword_gap in W'. fold t in W'.
  assert (Hs : src h (fword s) (gap t C b)). { rewrite gap_firstp. eapply src_word; eauto. }
  assert (Hu : lastp t (pre D ++ fword c) ∉ fword s).
  { intros Hx. pose proof (increment_gap h t (pre D ++ fword c) (fword d ++ post D) W') as Ei. rewrite <- gap_firstp in Ei.
    apply elem_of_list_split in Hx as (u & v & Ex). rewrite (Hs u _ v Ex) in Ei. injection Ei as Ei.
    destruct v as [|z v]; simpl in Ei.
    - apply Hp2; [|auto]. intros ->. rewrite fword_nil in Ex. destruct u; discriminate.
    - apply Hp1. rewrite <- Ei, Ex. destruct u as [|z' u]; simpl; [left|]. apply elem_of_app. right. right. left. }
  assert (Hl : gap t C b ∉ fword s).
  { rewrite gap_firstp. pose proof (wr_nodup _ _ _ W) as ND. unfold ring in ND. rewrite <- !app_assoc in ND.
    apply NoDup_cons in ND as [_ ND]. do 2 (apply NoDup_app in ND as (_ & _ & ND)).
    apply NoDup_app in ND as (_ & ND & _). intros Hi. apply (ND _ Hi).
    rewrite app_assoc. destruct (fword b ++ post C); simpl; left. }
  rewrite <- El in *.
  destruct (insert_range_self al (gap t C b) s Hal h f D c d (fuel - 2 * fcount s) (gap t C b))
    as (h' & f' & s' & E & Tf & R' & Es & EF & _).
  - exact R.
  - exact Hs.
  - intros n v Hn. apply (rep_vals _ _ _ R). rewrite El. apply fpre_plug. left. rewrite !fpre_app, !elem_of_app. auto.
  - intros x Hx. rewrite El, fword_gap3, !elem_of_app. auto.
  - exact Hu.
  - exact Hl.
  - exists h', f', s'. rewrite fword_length in E. replace (2 * fcount s + (fuel - 2 * fcount s)) with fuel in E by lia.
    assert (Eg : gap t C (s ++ b) = hd (gap t C b) (fword s)).
    { rewrite !gap_firstp, fword_app, <- app_assoc. destruct (fword s); auto. }
    rewrite Eg. fold t in E. rewrite E. split.
    { destruct (fuel - 2 * fcount s); simpl; rewrite decide_True; auto. }
    auto.
Qed.

Lemma insert_range_outside al h f C a s b D c d fuel : good_alloc al ->
  let t := f_tail f in
  Rep h f (plug C (a ++ s ++ b)) -> plug D (c ++ d) = plug C (a ++ s ++ b) ->
  gap t D d ∉ tail (fword s ++ [gap t C b]) -> 2 * fcount s <= fuel ->
  exists h' f' s', insert_range fuel al h f (gap t D d) (gap t C (s ++ b)) (gap t C b) = Ok (h', f', gap t D d) /\
    f_tail f' = t /\ Rep h' f' (plug D (c ++ s' ++ d)) /\ map strip s' = map strip s /\
    eff h h' (fp f (plug C (a ++ s ++ b))) (fp f' (plug D (c ++ s' ++ d))).
Proof.
  intros Hal t R El Hp Hf. apply insert_range_self_final; auto; fold t.
  - intros Hx. apply Hp. destruct (fword s); [inversion Hx|]. simpl in *. apply elem_of_app. auto.
  - intros Hs Hx. apply Hp. rewrite Hx. destruct s as [|[n v cs] s]; [tauto|]. rewrite fword_cons. simpl.
    rewrite !elem_of_app. right. left.
Qed.

(** ** inside the range, or at its end *)
Fixpoint run (k : nat) (w : list iter) : option nat :=
  match w with
  | [] => Some k
  | x :: w => match it_edge x with
              | leading => run (S k) w
              | trailing => match k with O => None | S k => run k w end
              end
  end.
Lemma run_app u : forall k v, run k (u ++ v) = match run k u with Some j => run j v | None => None end.
Proof. induction u as [|x u IH]; intros k v; simpl; auto. destruct (it_edge x); [|auto]. destruct k; auto. Qed.
Lemma bal_run w : bal w -> forall k, run k w = Some k.
Proof.
  induction 1 as [|n s w Hs IHs Hw IHw]; intros k; auto. simpl. rewrite run_app, IHs. simpl. auto.
Qed.

Lemma diverge_ne h t p u x v y q lst : WRep h t (p ++ u ++ (x :: v) ++ y ++ q) -> lst ∈ q ++ [T t] -> x <> lst.
Proof.
  intros W Hl ->. pose proof (wr_nodup _ _ _ W) as ND. unfold ring in ND. rewrite <- !app_assoc in ND.
  apply NoDup_cons in ND as [_ ND]. do 2 (apply NoDup_app in ND as (_ & _ & ND)). simpl in ND.
  apply NoDup_cons in ND as [ND _]. apply ND. rewrite !elem_of_app. right. right. rewrite <- elem_of_app. auto.
Qed.

Lemma diverge al lst fuel : good_alloc al -> forall h f p u v y q k, let t := f_tail f in
  WRep h t (p ++ u ++ v ++ y ++ q) -> lst ∈ q ++ [T t] -> v <> [] -> run 0 u = Some (length y) ->
  run 0 (u ++ v) = Some (length y + k) -> Forall (fun x => it_edge x = trailing) y ->
  insert_range fuel al h f (firstp t (y ++ q)) (firstp t v) lst = OOF.
Proof.
  intros Hal. induction fuel as [|fuel IH]; intros h f p u v y q k t W El Hv Ru Rv Hy; destruct v as [|x v]; try tauto; clear Hv.
  all: assert (Hne : x <> lst) by (eapply diverge_ne; [exact W|exact El]).
  { simpl. rewrite decide_False by auto. auto. }
  cbn [insert_range firstp]. rewrite decide_False by auto. destruct x as [n [|]]; cbn [is_leading it_edge].
  - rewrite run_app, Ru in Rv. simpl in Rv. destruct y as [|z y]; [discriminate|]. simpl in Rv, Ru. cbn [rbind].
    assert (W1 : WRep h t ((p ++ u) ++ T n :: (v ++ (z :: y) ++ q))) by (rewrite <- app_assoc; exact W).
    rewrite (increment_cons _ _ _ _ _ W1). cbn [rbind].
    assert (W2 : WRep h t ((p ++ u ++ T n :: v) ++ z :: (y ++ q))) by (rewrite <- !app_assoc; simpl; exact W).
    cbn [app firstp]. rewrite (increment_cons _ _ _ _ _ W2). cbn [rbind].
    replace (firstp t (v ++ z :: y ++ q)) with (firstp t (v ++ [z])) by (destruct v; auto).
    apply Forall_cons in Hy as [Hz Hy].
    apply (IH h f p (u ++ [T n]) (v ++ [z]) y q k).
    + rewrite <- !app_assoc. simpl. exact W.
    + exact El.
    + destruct v; discriminate.
    + rewrite run_app, Ru. auto.
    + rewrite app_assoc, run_app, <- app_assoc. change ([T n] ++ v) with (T n :: v).
      rewrite run_app, Ru. simpl. rewrite Rv. rewrite Hz. auto.
    + auto.
  - cbn [is_leading it_edge].
    assert (Hn : n ∈ wnodes (p ++ u ++ (L n :: v) ++ y ++ q)).
    { rewrite !wnodes_app, !elem_of_app, wnodes_cons, elem_of_cons. auto. }
    destruct (wr_data _ _ _ W n Hn) as [a Ha].
    assert (Hder : deref h (L n) = Ok a).
    { unfold deref, load. unfold dt in Ha. simpl. destruct (h !! n) as [cl|]; simpl in *; [|discriminate].
      injection Ha as ->. auto. }
    rewrite Hder. cbn [rbind].
    assert (W0 : WRep h t ((p ++ u ++ L n :: v) ++ (y ++ q))) by (rewrite <- !app_assoc; exact W).
    destruct (insert_word al h f _ _ a W0 (Hal h)) as (h1 & f1 & E1 & Ef & W1 & _).
    set (m := al h) in *. fold t in E1, W1. rewrite E1. cbn [rbind].
    assert (Et : f_tail f1 = t). { rewrite Ef. destruct (sv _ _); auto. }
    assert (W2 : WRep h1 t ((p ++ u) ++ L n :: (v ++ [L m; T m] ++ y ++ q))).
    { rewrite <- !app_assoc in W1. simpl in W1. rewrite <- !app_assoc. exact W1. }
    rewrite (increment_cons _ _ _ _ _ W2). cbn [rbind].
    assert (W3 : WRep h1 t ((p ++ u ++ L n :: v) ++ L m :: (T m :: y ++ q))) by exact W1.
    rewrite (increment_cons _ _ _ _ _ W3). cbn [rbind firstp].
    replace (firstp t (v ++ [L m; T m] ++ y ++ q)) with (firstp t (v ++ [L m])) by (destruct v; auto).
    rewrite <- Et. change (T m) with (firstp (f_tail f1) ((T m :: y) ++ q)).
    apply (IH h1 f1 p (u ++ [L n]) (v ++ [L m]) (T m :: y) q k).
    + rewrite Et. rewrite <- !app_assoc in W1. simpl in W1. rewrite <- !app_assoc. exact W1.
    + rewrite Et. exact El.
    + destruct v; discriminate.
    + rewrite run_app, Ru. auto.
    + rewrite app_assoc, run_app, <- app_assoc. change ([L n] ++ v) with (L n :: v).
      rewrite Rv. auto.
    + constructor; auto.
Qed.

Lemma insert_range_inside al h f C a s b fuel x : good_alloc al -> let t := f_tail f in
  Rep h f (plug C (a ++ s ++ b)) -> s <> [] -> x ∈ tail (fword s ++ [gap t C b]) ->
  insert_range fuel al h f x (gap t C (s ++ b)) (gap t C b) = OOF.
Proof.
  intros Hal t R Hs Hx. pose proof (rep_word _ _ _ R) as W. rewrite fword_gap3 in W. fold t in W.
  assert (E : exists w1 w2, fword s = w1 ++ w2 /\ w1 <> [] /\ x = firstp t (w2 ++ fword b ++ post C)).
  { destruct (fword s) as [|z w] eqn:Ew.
    { destruct s as [|[n v cs] s]; [tauto|]. rewrite fword_cons in Ew. discriminate. }
    simpl in Hx. apply elem_of_app in Hx as [Hx|Hx].
    - apply elem_of_list_split in Hx as (u & v & ->). exists (z :: u), (x :: v). auto.
    - apply elem_of_list_singleton in Hx. exists (z :: w), []. rewrite app_nil_r. split; [auto|]. split; [discriminate|].
      rewrite Hx. apply gap_firstp. }
  destruct E as (w1 & w2 & Ew & Hw & ->).
  pose proof (bal_run _ (fword_bal s) 0) as Rn. rewrite Ew, run_app in Rn. destruct (run 0 w1) as [k|] eqn:Ek; [|discriminate].
  rewrite !gap_firstp, fword_app, <- app_assoc, Ew. rewrite Ew in W.
  replace (firstp t ((w1 ++ w2) ++ fword b ++ post C)) with (firstp t w1) by (destruct w1; [tauto|auto]).
  apply (diverge al _ fuel Hal h f (pre C ++ fword a) [] w1 [] (w2 ++ fword b ++ post C) k).
  - simpl. rewrite <- (app_assoc w1 w2) in W. exact W.
  - rewrite <- app_assoc, elem_of_app. right. destruct (fword b ++ post C); simpl; left.
  - auto.
  - auto.
  - exact Ek.
  - constructor.
Qed.

End self.
