(** Word-level correctness of splice, insert_parent, range erase and clear. *)
From stdpp Require Import gmap list.
From Coq Require Import ZArith.
From Verif.Forest Require Import Model Spec Rep ProofWord ProofHeap ProofOps.

Section ops2.
Context {V : Type}.
Implicit Types (h : heap V) (f : fobj).

Lemma pivot_pivot x : pivot_of (pivot_of x) = x.
Proof. destruct x as [n []]; reflexivity. Qed.

Lemma wr_notin_ring h t a s b x : WRep h t (a ++ s ++ b) -> x ∈ s -> x ∉ ring t (a ++ b).
Proof.
  intros H Hx Hin. pose proof (wr_nodup _ _ _ H) as Hd. rewrite ring3 in Hd.
  apply nd3 in Hd as (N1 & N2 & N3 & _). rewrite ring_app in Hin.
  apply elem_of_app in Hin as [Hin|Hin]; [apply (N1 _ Hin); auto|apply (N3 _ Hx); auto].
Qed.

Lemma wnodes_app a b : wnodes (a ++ b) = wnodes a ++ wnodes b.
Proof. apply map_app. Qed.

Lemma wnodes_cons x a : wnodes (x :: a) = it_node x :: wnodes a.
Proof. reflexivity. Qed.

Lemma ring_nodes t w x : x ∈ ring t w -> it_node x = t \/ it_node x ∈ wnodes w.
Proof.
  unfold ring. intros Hx. apply elem_of_cons in Hx as [->|Hx]; auto.
  apply elem_of_app in Hx as [Hx|Hx].
  - right. apply elem_wnodes; auto.
  - apply elem_of_list_singleton in Hx as ->. auto.
Qed.

(** ** splice within one forest *)
Lemma splice_same_word h f g a s b c d count :
  let t := f_tail f in
  WRep h t (a ++ s ++ b) -> bal s -> s <> [] -> a ++ b = c ++ d ->
  exists h', splice h f g true (firstp t d) (firstp t s) (firstp t b) count
             = Ok (h', f, g, firstp t s) /\
    WRep h' t (c ++ s ++ d) /\ (forall m, dt h' m = dt h m) /\
    (forall m, m <> t -> m ∉ wnodes (a ++ s ++ b) -> h' !! m = h !! m).
Proof.
  intros t H Hs Hne Eab. unfold splice.
  assert (Hfs : firstp t s ∉ ring t (a ++ b)).
  { eapply wr_notin_ring; eauto. apply firstp_in; auto. }
  rewrite decide_False. 2:{ intros E. apply Hfs. rewrite E. apply firstp_in_ring. }
  rewrite decide_False. 2:{ intros E. apply Hfs. rewrite E, Eab. apply firstp_in_ring. }
  simpl.
  rewrite (decrement_gap h t (a ++ s) b) by (rewrite <- app_assoc; auto). simpl.
  rewrite (lastp_app t a s) by auto.
  unfold child_decrement.
  assert (Ed : decrement h (firstp t s) = Ok (lastp t a)).
  { rewrite <- (firstp_app t s b) by auto. apply decrement_gap; auto. }
  rewrite Ed. simpl. unfold child_set_next. rewrite pivot_pivot.
  destruct (cut_spec h t a s b H Hs) as (h1 & E1 & (U1l & U1d & U1f) & W1 & C1).
  rewrite E1. simpl.
  rewrite Eab in W1. rewrite (decrement_gap h1 t c d W1). simpl.
  assert (Hnod : forall m, m ∈ wnodes (c ++ s ++ d) <-> m ∈ wnodes (a ++ s ++ b)).
  { intros m. assert (E : wnodes (a ++ b) = wnodes (c ++ d)) by (rewrite Eab; auto).
    assert (E2 : m ∈ wnodes (a ++ b) <-> m ∈ wnodes (c ++ d)) by (rewrite E; tauto).
    rewrite !wnodes_app in *. rewrite !elem_of_app in *. tauto. }
  destruct (relink_spec h1 t c s d) as (h2 & h3 & E2 & U2 & E3 & U3 & W & D & F); auto.
  - eapply wr_chain_a; eauto.
  - eapply wr_chain_b; eauto.
  - apply W1.
  - apply bal_insert; auto. apply W1.
  - pose proof (wr_nodup _ _ _ W1) as Hd1. pose proof (wr_nodup _ _ _ H) as Hd.
    rewrite ring3 in Hd |- *. rewrite ring_app in Hd1.
    assert (N5 : NoDup s) by (apply nd3 in Hd; tauto).
    assert (Nsc : forall x, x ∈ s -> x ∉ (L t :: c) ++ d ++ [T t]).
    { intros x Hx Hin. rewrite <- ring_app in Hin. rewrite <- Eab in Hin.
      eapply wr_notin_ring; eauto. }
    apply NoDup_app in Hd1 as (Hc & Hcd & Hdd).
    apply NoDup_app. split; auto. split.
    + intros x Hx Hin. apply elem_of_app in Hin as [Hin|Hin].
      * apply (Nsc x Hin). apply elem_of_app. auto.
      * apply (Hcd x Hx Hin).
    + apply NoDup_app. split; auto. split; auto. intros x Hx Hin. apply (Nsc x Hx).
      apply elem_of_app. auto.
  - intros m Hm. rewrite U1d. apply H. apply Hnod; auto.
  - rewrite U1d. apply H.
  - rewrite E2. simpl. rewrite E3. simpl. exists h3. split; auto. split; auto. split.
    + intros m. rewrite D. auto.
    + intros m Hmt Hm. rewrite F; [|auto|rewrite Hnod; auto].
      apply U1f.
      * intros ->. destruct (ring_nodes t (a ++ b) (lastp t a)) as [E|E]; auto using lastp_in_ring.
        apply Hm. rewrite !wnodes_app, !elem_of_app in *. tauto.
      * intros ->. destruct (ring_nodes t (a ++ b) (firstp t b)) as [E|E]; auto using firstp_in_ring.
        apply Hm. rewrite !wnodes_app, !elem_of_app in *. tauto.
Qed.

(** ** splice between two forests *)
Definition splice_sizes f g (wf wg : list iter) (count : Z) : fobj * fobj :=
  if decide (count <> 0%Z) then
    (if sv f wf then with_size f (f_size f + count)%Z else f,
     if sv g wg then with_size g (f_size g - count)%Z else g)
  else (with_size f 0%Z, with_size g 0%Z).

Definition disj (t : nat) (w : list iter) (t' : nat) (w' : list iter) : Prop :=
  forall n, n = t \/ n ∈ wnodes w -> n = t' \/ n ∈ wnodes w' -> False.

Lemma splice_diff_word h f g a s b c d count :
  let tf := f_tail f in let tg := f_tail g in
  WRep h tg (a ++ s ++ b) -> WRep h tf (c ++ d) -> disj tf (c ++ d) tg (a ++ s ++ b) ->
  bal s -> s <> [] ->
  exists h' f' g', splice h f g false (firstp tf d) (firstp tg s) (firstp tg b) count
             = Ok (h', f', g', firstp tg s) /\
    (f', g') = splice_sizes f g (c ++ d) (a ++ s ++ b) count /\
    WRep h' tf (c ++ s ++ d) /\ WRep h' tg (a ++ b) /\ (forall m, dt h' m = dt h m) /\
    (forall m, m <> tf -> m <> tg -> m ∉ wnodes (a ++ s ++ b) -> m ∉ wnodes (c ++ d) ->
       h' !! m = h !! m).
Proof.
  intros tf tg H Hf Hdis Hs Hne. unfold splice.
  assert (Hfs : firstp tg s ∉ ring tg (a ++ b)).
  { eapply wr_notin_ring; eauto. apply firstp_in; auto. }
  assert (Hfsn : it_node (firstp tg s) ∈ wnodes s) by (apply elem_wnodes, firstp_in; auto).
  rewrite decide_False. 2:{ intros E. apply Hfs. rewrite E. apply firstp_in_ring. }
  rewrite decide_False.
  2:{ intros E. apply (Hdis (it_node (firstp tg s))).
      - rewrite E. apply ring_nodes. apply firstp_in_ring.
      - rewrite !wnodes_app, !elem_of_app. tauto. }
  rewrite (size_valid_spec h f (c ++ d)) by exact Hf.
  rewrite (size_valid_spec h g (a ++ s ++ b)) by exact H. simpl.
  assert (Esz : (if decide (count <> 0%Z) then
           Ok (if sv f (c ++ d) then with_size f (f_size f + count)%Z else f,
               if sv g (a ++ s ++ b) then with_size g (f_size g - count)%Z else g)
         else Ok (with_size f 0%Z, with_size g 0%Z))
       = Ok (splice_sizes f g (c ++ d) (a ++ s ++ b) count)).
  { unfold splice_sizes. destruct (decide (count <> 0%Z)); auto. }
  rewrite Esz. simpl. destruct (splice_sizes f g (c ++ d) (a ++ s ++ b) count) as [f' g'].
  rewrite (decrement_gap h tg (a ++ s) b) by (rewrite <- app_assoc; auto). simpl.
  rewrite (lastp_app tg a s) by auto.
  unfold child_decrement.
  assert (Ed : decrement h (firstp tg s) = Ok (lastp tg a)).
  { rewrite <- (firstp_app tg s b) by auto. apply decrement_gap; auto. }
  rewrite Ed. simpl. unfold child_set_next. rewrite pivot_pivot.
  destruct (cut_spec h tg a s b H Hs) as (h1 & E1 & (U1l & U1d & U1f) & W1 & C1).
  rewrite E1. simpl.
  assert (Hring_ab : forall x, x ∈ ring tg (a ++ b) -> it_node x = tg \/ it_node x ∈ wnodes (a ++ s ++ b)).
  { intros x Hx%ring_nodes. rewrite !wnodes_app, !elem_of_app in *. tauto. }
  assert (F1 : forall m, m <> tg -> m ∉ wnodes (a ++ s ++ b) -> h1 !! m = h !! m).
  { intros m Hmt Hm. apply U1f; intros ->.
    - destruct (Hring_ab (lastp tg a)); auto using lastp_in_ring.
    - destruct (Hring_ab (firstp tg b)); auto using firstp_in_ring. }
  assert (Wf1 : WRep h1 tf (c ++ d)).
  { eapply WRep_frame; [|exact Hf]. intros m Hm. apply F1.
    - intros ->. eapply Hdis; eauto.
    - intros Hin. eapply Hdis; eauto. }
  rewrite (decrement_gap h1 tf c d Wf1). simpl.
  rewrite (firstp_ne tg tf s), (lastp_ne tg tf s) by auto.
  destruct (relink_spec h1 tf c s d) as (h2 & h3 & E2 & U2 & E3 & U3 & W & D & F); auto.
  - eapply wr_chain_a; eauto.
  - eapply wr_chain_b; eauto.
  - apply Wf1.
  - apply bal_insert; auto. apply Wf1.
  - pose proof (wr_nodup _ _ _ Wf1) as Hd1. pose proof (wr_nodup _ _ _ H) as Hd.
    rewrite ring3 in Hd |- *.
    assert (N5 : NoDup s) by (apply nd3 in Hd; tauto).
    assert (Nsc : forall x, x ∈ s -> x ∉ (L tf :: c) ++ d ++ [T tf]).
    { intros x Hx Hin. rewrite <- ring_app in Hin. apply ring_nodes in Hin.
      apply (Hdis _ Hin). right. apply elem_wnodes in Hx. rewrite !wnodes_app, !elem_of_app. tauto. }
    rewrite ring_app in Hd1. apply NoDup_app in Hd1 as (Hc & Hcd & Hdd).
    apply NoDup_app. split; auto. split.
    + intros x Hx Hin. apply elem_of_app in Hin as [Hin|Hin].
      * apply (Nsc x Hin). apply elem_of_app. auto.
      * apply (Hcd x Hx Hin).
    + apply NoDup_app. split; auto. split; auto. intros x Hx Hin. apply (Nsc x Hx).
      apply elem_of_app. auto.
  - intros m Hm. rewrite !wnodes_app, !elem_of_app in Hm.
    destruct Hm as [Hm|[Hm|Hm]].
    + apply Wf1. rewrite wnodes_app, elem_of_app. auto.
    + rewrite U1d. apply H. rewrite !wnodes_app, !elem_of_app. auto.
    + apply Wf1. rewrite wnodes_app, elem_of_app. auto.
  - apply Wf1.
  - rewrite E2. simpl. rewrite E3. simpl. exists h3, f', g'.
    split; auto. split; auto. split; auto.
    assert (Fr : forall m, m <> tf -> m ∉ wnodes (c ++ d) -> m ∉ wnodes s -> h3 !! m = h1 !! m).
    { intros m Hmt Hm Hms. apply F; auto. rewrite !wnodes_app, !elem_of_app in *. tauto. }
    split; [|split].
    + (* the source forest is not touched by the second half *)
      eapply WRep_frame; [|exact W1]. intros m Hm. apply Fr.
      * intros ->. apply (Hdis tf); auto. rewrite !wnodes_app, !elem_of_app in *. tauto.
      * intros Hin. apply (Hdis m); auto. rewrite !wnodes_app, !elem_of_app in *. tauto.
      * intros Hin. apply elem_of_list_fmap in Hin as (x & -> & Hx).
        destruct Hm as [Hm|Hm].
        -- apply (wr_tail_nodes _ _ _ H). rewrite <- Hm. rewrite !wnodes_app, !elem_of_app.
           right. left. apply elem_wnodes; auto.
        -- destruct x as [m e]. simpl in *.
           apply (bal_node_in _ _ (wr_bal _ _ _ W1)) in Hm as [Hm1 Hm2].
           assert (Hx' : L m ∈ s) by (eapply bal_both; eauto).
           eapply (wr_notin_ring _ _ _ _ _ _ H Hx'). unfold ring.
           rewrite elem_of_cons, elem_of_app. auto.
    + intros m. rewrite D. auto.
    + intros m Hmf Hmg Hm1 Hm2. rewrite Fr; auto.
      rewrite !wnodes_app, !elem_of_app in Hm1. tauto.
Qed.

Lemma splice_sizes_ok f g a s b c d count :
  SizeOk f (c ++ d) -> SizeOk g (a ++ s ++ b) ->
  (count = 0%Z \/ (2 * count = Z.of_nat (length s))%Z) ->
  let '(f', g') := splice_sizes f g (c ++ d) (a ++ s ++ b) count in
  SizeOk f' (c ++ s ++ d) /\ SizeOk g' (a ++ b) /\ f_tail f' = f_tail f /\ f_tail g' = f_tail g.
Proof.
  intros Hf Hg Hc. unfold splice_sizes. destruct (decide (count <> 0%Z)) as [Hn|Hn].
  - destruct Hc as [Hc|Hc]; [tauto|]. split; [|split; [|split]].
    + destruct (sv f (c ++ d)) eqn:E.
      * apply sv_ok in E; auto. right. simpl. rewrite !app_length in *. lia.
      * left. unfold sv in E. apply bool_decide_eq_false in E. destruct (decide (f_size f = 0%Z)); tauto.
    + destruct (sv g (a ++ s ++ b)) eqn:E.
      * apply sv_ok in E; auto. right. simpl. rewrite !app_length in *. lia.
      * left. unfold sv in E. apply bool_decide_eq_false in E. destruct (decide (f_size g = 0%Z)); tauto.
    + destruct (sv f _); auto.
    + destruct (sv g _); auto.
  - repeat split; left; auto.
Qed.

(** ** insert_parent *)
Lemma insert_parent_word al h f a s b x :
  let t := f_tail f in let n := al h in
  WRep h t (a ++ s ++ b) -> h !! n = None -> bal s ->
  exists h' f', insert_parent al h f (firstp t (s ++ b)) (firstp t b) x = Ok (h', f', L n) /\
    f' = (if sv f (a ++ s ++ b) then with_size f (f_size f + 1)%Z else f) /\
    WRep h' t (a ++ L n :: s ++ T n :: b) /\
    (forall m, dt h' m = if decide (m = n) then Some (Some x) else dt h m) /\
    (forall m, m <> t -> m <> n -> m ∉ wnodes (a ++ s ++ b) -> h' !! m = h !! m).
Proof.
  intros t n H Hn Hs. unfold insert_parent.
  destruct (insert_word al h f (a ++ s) b x) as (h1 & f1 & E1 & Ef & W1 & D1 & F1).
  { rewrite <- app_assoc. exact H. } { exact Hn. }
  fold t n in E1, W1, D1, F1. rewrite E1. simpl. rewrite <- app_assoc in *.
  destruct (decide (s = [])) as [->|Hne].
  - simpl in *. rewrite decide_True by auto. eexists _, _. split; [reflexivity|]. auto.
  - rewrite firstp_app by auto. rewrite decide_False.
    2:{ intros E. eapply (wr_notin_ring h t a s b (firstp t s)); eauto using firstp_in.
        rewrite E. apply firstp_in_ring. }
    assert (Et : f_tail f1 = t) by (subst f1; destruct (sv f _); auto).
    destruct (splice_same_word h1 f1 f1 a s (L n :: T n :: b) (a ++ [L n]) (T n :: b) 0%Z)
      as (h2 & E2 & W2 & D2 & F2).
    { rewrite Et. exact W1. } { auto. } { auto. } { rewrite <- app_assoc. auto. }
    rewrite Et in *. simpl in E2. unfold trailing_of. simpl. rewrite E2. simpl.
    eexists _, _. split; [reflexivity|]. split; auto.
    rewrite <- app_assoc in W2. simpl in W2. split; auto. split.
    + intros m. rewrite D2. auto.
    + intros m Hmt Hmn Hm. rewrite F2; auto.
      rewrite !wnodes_app in *. simpl. rewrite !elem_of_app, !elem_of_cons in *. tauto.
Qed.

Lemma insert_parent_sizeok f a s b n : SizeOk f (a ++ s ++ b) ->
  SizeOk (if sv f (a ++ s ++ b) then with_size f (f_size f + 1)%Z else f) (a ++ L n :: s ++ T n :: b).
Proof.
  intros H. destruct (sv f (a ++ s ++ b)) eqn:E.
  - apply sv_ok in E; auto. right. simpl. rewrite !app_length in *. simpl. rewrite app_length. simpl. lia.
  - left. unfold sv in E. apply bool_decide_eq_false in E. destruct (decide (f_size f = 0%Z)); tauto.
Qed.

(** ** range erase *)
Lemma filter_ext_in {A} (P Q : A -> Prop) `{forall x, Decision (P x), forall x, Decision (Q x)} (l : list A) :
  (forall x, x ∈ l -> (P x <-> Q x)) -> filter P l = filter Q l.
Proof.
  induction l as [|x l IH]; intros E; auto. rewrite !filter_cons.
  rewrite IH by (intros y Hy; apply E; set_solver).
  specialize (E x ltac:(set_solver)).
  destruct (decide (P x)), (decide (Q x)); tauto.
Qed.

(** The positions of a segment whose other edge lies outside the segment. *)
Definition keep (r : list iter) : list iter := filter (fun x => pivot_of x ∉ r) r.

Lemma keep_T r n : L n ∉ r -> T n ∉ r -> keep (r ++ [T n]) = keep r ++ [T n].
Proof.
  intros HL HT. unfold keep. rewrite filter_app.
  assert (E : filter (fun x => pivot_of x ∉ r ++ [T n]) [T n] = [T n]).
  { rewrite filter_cons_True; [auto|]. simpl.
    intros [E|E]%elem_of_app; [auto|]. apply elem_of_list_singleton in E. discriminate. }
  rewrite E. f_equal. apply filter_ext_in. intros x Hx. rewrite elem_of_app, elem_of_list_singleton.
  assert (pivot_of x <> T n); [|tauto]. intros Ex.
  apply HL. destruct x as [m []]; unfold pivot_of in Ex; simpl in Ex; congruence.
Qed.

Lemma keep_L r n : T n ∉ r -> keep (r ++ [L n]) = keep r ++ [L n].
Proof.
  intros HT. unfold keep. rewrite filter_app.
  assert (E : filter (fun x => pivot_of x ∉ r ++ [L n]) [L n] = [L n]).
  { rewrite filter_cons_True; [auto|].
    intros [E|E]%elem_of_app; [auto|]. apply elem_of_list_singleton in E. discriminate. }
  rewrite E. f_equal. apply filter_ext_in. intros x Hx. rewrite elem_of_app, elem_of_list_singleton.
  assert (pivot_of x <> L n); [|tauto]. intros Ex.
  apply HT. destruct x as [m []]; unfold pivot_of in Ex; simpl in Ex; congruence.
Qed.

Lemma keep_close r n : L n ∈ r ->
  keep (r ++ [T n]) = filter (fun x => x <> L n) (keep r).
Proof.
  intros HL. unfold keep. rewrite filter_app.
  assert (E : filter (fun x => pivot_of x ∉ r ++ [T n]) [T n] = []).
  { rewrite filter_cons_False; [auto|]. intros Hx. apply Hx. apply elem_of_app. left.
    exact HL. }
  rewrite E, app_nil_r. rewrite list_filter_filter. apply list_filter_iff.
  intros x. rewrite elem_of_app, elem_of_list_singleton.
  assert (pivot_of x = T n <-> x = L n); [|tauto].
  destruct x as [m []]; unfold pivot_of; simpl; split; congruence.
Qed.

Lemma keep_in r x : x ∈ keep r <-> x ∈ r /\ pivot_of x ∉ r.
Proof. unfold keep. rewrite elem_of_list_filter. tauto. Qed.

Lemma filter_neq_id {A} `{EqDecision A} (x : A) (l : list A) : x ∉ l -> filter (fun y => y <> x) l = l.
Proof.
  induction l as [|y l IH]; intros H; auto. rewrite filter_cons_True by set_solver.
  f_equal. apply IH. set_solver.
Qed.

Lemma erase_loop_word t q p v : forall h f r1 ts ls fuel,
  length v <= fuel -> f_tail f = t ->
  keep r1 = map (fun n => T n) ts ++ map (fun n => L n) ls ->
  WRep h t (p ++ keep r1 ++ v ++ q) -> SizeOk f (p ++ keep r1 ++ v ++ q) ->
  NoDup (r1 ++ v) -> (forall n, T n ∈ r1 -> L n ∉ v) ->
  exists h' f', erase_loop fuel h f (firstp t (v ++ q)) (firstp t q) (Z.of_nat (length ls)) = Ok (h', f') /\
    WRep h' t (p ++ keep (r1 ++ v) ++ q) /\ SizeOk f' (p ++ keep (r1 ++ v) ++ q) /\ f_tail f' = t /\
    (forall m, dt h' m = if decide (m ∈ wnodes (keep r1 ++ v) /\ m ∉ wnodes (keep (r1 ++ v)))
                         then None else dt h m) /\
    (forall m, m <> t -> m ∉ wnodes (p ++ keep r1 ++ v ++ q) -> h' !! m = h !! m).
Proof.
  induction v as [|x v IH]; intros h f r1 ts ls fuel Hfuel Ht Ek H Hsz Hnd Hord.
  - exists h, f. split.
    { destruct fuel; simpl; rewrite decide_True by auto; auto. }
    rewrite app_nil_r in *. simpl in *. split; [auto|]. split; [auto|]. split; [auto|].
    split; [|auto]. intros m. rewrite app_nil_r. rewrite decide_False; [auto|tauto].
  - simpl in Hfuel. destruct fuel as [|fuel]; [lia|]. simpl.
    assert (Hring : NoDup (ring t ((p ++ keep r1) ++ x :: v ++ q))).
    { rewrite <- app_assoc. apply H. }
    rewrite decide_False.
    2:{ intros E. rewrite ring_app in Hring. apply NoDup_app in Hring as (_ & _ & Hring).
        simpl in Hring. apply NoDup_cons in Hring as [Hx _]. apply Hx. rewrite E.
        rewrite <- app_assoc. apply elem_of_app. right.
        destruct (firstp_split t q) as (q' & ->). apply elem_of_list_here. }
    assert (Hxr : x ∉ r1).
    { intros Hin. apply NoDup_app in Hnd as (_ & Hnd & _). apply (Hnd x Hin). apply elem_of_list_here. }
    assert (Hinc : increment h x = Ok (firstp t (v ++ q))).
    { apply (increment_cons h t (p ++ keep r1) x (v ++ q)). rewrite <- app_assoc. auto. }
    assert (Hnd' : NoDup ((r1 ++ [x]) ++ v)) by (rewrite <- app_assoc; auto).
    assert (Enode : (r1 ++ [x]) ++ v = r1 ++ x :: v) by (rewrite <- app_assoc; auto).
    destruct x as [n []]; simpl.
    + (* trailing edge *)
      assert (HLv : L n ∉ v).
      { intros Hin. pose proof (wr_bal _ _ _ H) as Hb.
        assert (E : p ++ keep r1 ++ (T n :: v) ++ q = (p ++ keep r1) ++ T n :: (v ++ q)).
        { rewrite <- app_assoc. auto. }
        destruct (bal_match_T _ _ _ _ Hb E) as (a1 & s & Ea & _).
        rewrite Ea, ring_app in Hring. apply NoDup_app in Hring as (_ & Hring & _).
        apply (Hring (L n)).
        - rewrite elem_of_cons, elem_of_app. right. right. apply elem_of_list_here.
        - rewrite elem_of_app. left. rewrite elem_of_cons, elem_of_app. auto. }
      assert (Hord' : forall m, T m ∈ r1 ++ [T n] -> L m ∉ v).
      { intros m [Hm|Hm]%elem_of_app.
        - intros Hin. apply (Hord m Hm). apply elem_of_list_further; auto.
        - apply elem_of_list_singleton in Hm as [= ->]. auto. }
      destruct ls as [|m ls _] using rev_ind.
      * (* no open node: keep the edge *)
        rewrite decide_False by (simpl; lia). rewrite Hinc. simpl.
        assert (HLr : L n ∉ r1).
        { intros Hin. assert (Hk : L n ∈ keep r1) by (apply keep_in; split; auto).
          rewrite Ek in Hk. simpl in Hk. rewrite app_nil_r in Hk.
          apply elem_of_list_fmap in Hk as (? & [=] & _). }
        assert (Ek' : keep (r1 ++ [T n]) = keep r1 ++ [T n]) by (apply keep_T; auto).
        destruct (IH h f (r1 ++ [T n]) (ts ++ [n]) [] fuel) as (h' & f' & E & W & S & Tf & D & F); auto.
        { lia. }
        { rewrite Ek', Ek. simpl. rewrite map_app, !app_nil_r. auto. }
        { rewrite Ek'. rewrite <- app_assoc. auto. }
        { rewrite Ek'. rewrite <- app_assoc. auto. }
        exists h', f'. split; [exact E|]. rewrite Enode in *. split; auto. split; auto. split; auto.
        rewrite Ek' in D, F. rewrite <- !app_assoc in D, F. simpl in D, F. auto.
      * (* the innermost open node is this one *)
        rewrite app_length. simpl. rewrite decide_True by lia.
        set (a := p ++ map (fun n => T n) ts ++ map (fun n => L n) ls).
        assert (Ew : p ++ keep r1 ++ (T n :: v) ++ q = a ++ L m :: T n :: (v ++ q)).
        { unfold a. rewrite Ek, map_app. simpl. rewrite <- !app_assoc. auto. }
        assert (m = n) as ->.
        { rewrite Ew in H. pose proof (wr_nodup _ _ _ H) as Hd. unfold ring in Hd.
          apply NoDup_cons in Hd as [_ Hd]. apply NoDup_app in Hd as (Hd & _ & _).
          destruct (adj_leading _ _ _ _ (wr_bal _ _ _ H) Hd) as [[= ->]|(k & [=] & _)]; auto. }
        rewrite Ew in H, Hsz. rewrite <- Ht in H.
        destruct (erase_word h f a n [] (v ++ q) trailing) as (h1 & f1 & E1 & Ef & W1 & D1 & F1).
        { simpl. exact H. } { constructor. }
        rewrite Ht in *.
        unfold leading_of, trailing_of in *. rewrite E1. simpl.
        pose proof (erase_sizeok f a [] (v ++ q) n Hsz) as Hsz1. simpl in Hsz1, Ef. rewrite <- Ef in Hsz1.
        assert (HLn : L n ∈ r1).
        { apply (keep_in r1 (L n)). rewrite Ek, map_app. rewrite !elem_of_app. right. right.
          apply elem_of_list_here. }
        assert (Ek' : keep (r1 ++ [T n]) = map (fun n => T n) ts ++ map (fun n => L n) ls).
        { rewrite keep_close by auto. rewrite Ek, map_app, filter_app. f_equal.
          - apply filter_neq_id. intros (? & [=] & _)%elem_of_list_fmap.
          - rewrite filter_app. simpl.
            rewrite (filter_cons_False _ (L n) []) by (intros Hx; apply Hx; auto).
            rewrite filter_nil, app_nil_r. apply filter_neq_id.
            rewrite Ek, map_app in Hring. clear - Hring. simpl in Hring.
            rewrite ring_app in Hring. apply NoDup_app in Hring as (Hring & _ & _).
            apply NoDup_cons in Hring as [_ Hring]. apply NoDup_app in Hring as (_ & _ & Hring).
            apply NoDup_app in Hring as (_ & _ & Hring). apply NoDup_app in Hring as (_ & Hring & _).
            intros Hin. apply (Hring _ Hin). apply elem_of_list_here. }
        assert (Ea : p ++ keep (r1 ++ [T n]) ++ v ++ q = a ++ v ++ q).
        { rewrite Ek'. unfold a. rewrite <- !app_assoc. auto. }
        destruct (IH h1 f1 (r1 ++ [T n]) ts ls fuel) as (h' & f' & E & W & S & Tf & D & F); auto.
        { lia. }
        { subst f1. destruct (sv f _); auto. }
        { rewrite Ea. auto. }
        { rewrite Ea. auto. }
        exists h', f'. split.
        { rewrite <- E. f_equal. lia. }
        rewrite Enode in *. split; auto. split; auto. split; auto.
        assert (HnT : n ∉ wnodes (keep (r1 ++ T n :: v))).
        { intros (y & Ey & [Hy1 Hy2]%keep_in)%elem_of_list_fmap.
          apply Hy2. destruct y as [k e]. simpl in Ey. subst k. unfold pivot_of. simpl.
          destruct e; simpl; rewrite elem_of_app; [left; auto|right; apply elem_of_list_here]. }
        split.
        -- intros k. rewrite D, D1. rewrite Ek', Ek.
           rewrite !wnodes_app, map_app, !wnodes_app. simpl.
           destruct (decide (k = n)) as [->|Hkn].
           ++ symmetry. rewrite (decide_True (P := n ∈ _ /\ _)).
              2:{ split; [|auto]. rewrite !elem_of_app, !elem_of_cons. tauto. }
              destruct (decide _); auto.
           ++ erewrite decide_ext; [reflexivity|].
              rewrite !elem_of_app, !elem_of_cons, elem_of_nil. tauto.
        -- intros k Hkt Hk. rewrite F; auto.
           ++ apply F1; auto. change (T n :: v ++ q) with ((T n :: v) ++ q) in Hk; rewrite Ew in Hk. exact Hk.
           ++ rewrite Ea. change (T n :: v ++ q) with ((T n :: v) ++ q) in Hk; rewrite Ew in Hk. intros Hin. apply Hk.
              rewrite !wnodes_app, !wnodes_cons, !wnodes_app in *. rewrite !elem_of_app, ?elem_of_cons, ?elem_of_app in *. tauto.
    + (* leading edge *)
      rewrite Hinc. simpl.
      assert (HTr : T n ∉ r1).
      { intros Hin. apply (Hord n Hin). apply elem_of_list_here. }
      assert (Ek' : keep (r1 ++ [L n]) = keep r1 ++ [L n]) by (apply keep_L; auto).
      destruct (IH h f (r1 ++ [L n]) ts (ls ++ [n]) fuel) as (h' & f' & E & W & S & Tf & D & F); auto.
      { lia. }
      { rewrite Ek', Ek. rewrite map_app, <- app_assoc. auto. }
      { rewrite Ek'. rewrite <- app_assoc. auto. }
      { rewrite Ek'. rewrite <- app_assoc. auto. }
      { intros m [Hm|Hm]%elem_of_app.
        - intros Hin. apply (Hord m Hm). apply elem_of_list_further; auto.
        - apply elem_of_list_singleton in Hm. discriminate. }
      exists h', f'. split.
      { rewrite <- E. f_equal. rewrite app_length. simpl. lia. }
      rewrite Enode in *. split; auto. split; auto. split; auto.
      rewrite Ek' in D, F. rewrite <- !app_assoc in D, F. simpl in D, F. auto.
Qed.

Lemma erase_range_word h f p r q fuel :
  let t := f_tail f in
  length r <= fuel -> WRep h t (p ++ r ++ q) -> SizeOk f (p ++ r ++ q) ->
  exists h' f', erase_range fuel h f (firstp t (r ++ q)) (firstp t q) = Ok (h', f', firstp t q) /\
    WRep h' t (p ++ keep r ++ q) /\ SizeOk f' (p ++ keep r ++ q) /\ f_tail f' = t /\
    (forall m, dt h' m = if decide (L m ∈ r /\ T m ∈ r) then None else dt h m) /\
    (forall m, m <> t -> m ∉ wnodes (p ++ r ++ q) -> h' !! m = h !! m).
Proof.
  intros t Hfuel H Hsz. unfold erase_range.
  assert (Hd : NoDup r).
  { pose proof (wr_nodup _ _ _ H) as Hd. rewrite ring3 in Hd. apply nd3 in Hd. tauto. }
  destruct (erase_loop_word t q p r h f [] [] [] fuel) as (h' & f' & E & W & S & Tf & D & F); auto.
  { intros n Hn. inversion Hn. }
  simpl in *. change (Z.of_nat 0) with 0%Z in E. rewrite E. simpl. exists h', f'. split; auto. split; auto. split; auto. split; auto.
  split; auto. intros m. rewrite D. erewrite decide_ext; [reflexivity|]. split.
  - intros [Hm1 Hm2]. unfold wnodes in Hm1. apply elem_of_list_fmap in Hm1 as (y & -> & Hy).
    destruct (decide (pivot_of y ∈ r)) as [Hp|Hp].
    + destruct y as [k []]; unfold pivot_of in Hp; simpl in *; auto.
    + destruct Hm2. apply elem_wnodes. apply keep_in. auto.
  - intros [HL HT]. split; [apply (elem_wnodes _ _ HL)|].
    intros (y & Ey & [Hy1 Hy2]%keep_in)%elem_of_list_fmap. apply Hy2.
    destruct y as [k []]; simpl in *; subst; auto.
Qed.

Lemma keep_bal w : bal w -> keep w = [].
Proof.
  intros H. destruct (keep w) as [|x l] eqn:E; auto. assert (Hx : x ∈ keep w) by (rewrite E; apply elem_of_list_here).
  apply keep_in in Hx as [Hx1 Hx2]. destruct Hx2. destruct x as [n e].
  destruct (bal_both _ _ _ H Hx1). destruct e; auto.
Qed.

Lemma clear_word h f w fuel :
  let t := f_tail f in
  length w <= fuel -> WRep h t w -> SizeOk f w ->
  exists h' f', clear fuel h f = Ok (h', f') /\ WRep h' t [] /\ SizeOk f' [] /\ f_tail f' = t /\
    (forall m, dt h' m = if decide (m ∈ wnodes w) then None else dt h m) /\
    (forall m, m <> t -> m ∉ wnodes w -> h' !! m = h !! m).
Proof.
  intros t Hfuel H Hsz. unfold clear. rewrite (f_begin_spec _ _ _ H). simpl.
  destruct (erase_range_word h f [] w [] fuel) as (h' & f' & E & W & S & Tf & D & F); auto.
  { rewrite app_nil_r. auto. } { rewrite app_nil_r. auto. }
  fold t in E, W, D, F, Tf |- *. rewrite app_nil_r in *. simpl in *. unfold f_end. fold t.
  rewrite E. simpl.
  rewrite keep_bal in W, S by apply H. simpl in W, S.
  rewrite (f_empty_spec h' f' []) by (rewrite Tf; auto). simpl.
  exists h', f'. split; auto. split; auto. split; auto. split; auto. split; auto.
  intros m. rewrite D. erewrite decide_ext; [reflexivity|]. split.
  - intros [Hm _]. apply (elem_wnodes _ _ Hm).
  - intros Hm. apply bal_node_in; auto. apply H.
Qed.

End ops2.
