From Coq Require Import List Bool NArith Lia.
From stdpp Require Import list.
From Verif.When Require Import Model Spec.

Lemma in_seq0 n i : i ∈ seq 0 n <-> i < n.
Proof. rewrite elem_of_list_In, in_seq. lia. Qed.

Lemma look_lt n i : i < n -> seq 0 n !! i = Some i.
Proof.
  assert (forall n k i, i < n -> seq k n !! i = Some (k + i)) as H.
  { clear. induction n as [|n IH]; intros k i Hi; [lia|]. destruct i; simpl; [f_equal; lia|]. rewrite IH by lia. f_equal. lia. }
  apply H.
Qed.
Lemma look_ge n i : n <= i -> seq 0 n !! i = None.
Proof. intros H. apply lookup_ge_None. by rewrite seq_length. Qed.

(** ** the context as a function of the arrivals *)
Definition ctx_of v n (arr : list (nat * outcome)) : ctx := foldl (fun c p => (arrive v p.1 p.2 c).1) (ctx0 n) arr.
Record good (n : nat) (arr : list (nat * outcome)) : Prop := Good { g_nd : NoDup arr.*1; g_lt : forall i, i ∈ arr.*1 -> i < n }.

Lemma ctx_snoc v n arr i o : ctx_of v n (arr ++ [(i, o)]) = (arrive v i o (ctx_of v n arr)).1.
Proof. unfold ctx_of. by rewrite foldl_app. Qed.
Lemma good_snoc n arr i o : good n (arr ++ [(i, o)]) <-> good n arr /\ i < n /\ i ∉ arr.*1.
Proof.
  split.
  - intros [N L]. rewrite fmap_app, NoDup_app in N. destruct N as (N & D & _). repeat split.
    + done.
    + intros j Hj. apply L. rewrite fmap_app. apply elem_of_app. by left.
    + apply L. rewrite fmap_app. apply elem_of_app. right. by left.
    + intros Hi. apply (D i Hi). by left.
  - intros ([N L] & Hi & D). split.
    + rewrite fmap_app. apply NoDup_app. split; [done|]. split; [|apply NoDup_singleton]. intros j Hj E. apply elem_of_list_singleton in E. simpl in E. by subst.
    + intros j. rewrite fmap_app, elem_of_app. intros [?|E]; [auto|]. apply elem_of_list_singleton in E. by subst.
Qed.
Lemma good_len n arr : good n arr -> length arr <= n.
Proof.
  intros [N L]. rewrite <- (fmap_length fst). rewrite <- (seq_length n 0). apply submseteq_length, NoDup_submseteq; [done|].
  intros i Hi. apply in_seq0. apply L in Hi. lia.
Qed.
Lemma good_full n arr i : good n arr -> length arr = n -> i < n -> i ∈ arr.*1.
Proof.
  intros [N L] E Hi. assert (incl (seq 0 n) arr.*1) as H.
  { apply NoDup_length_incl; [by apply NoDup_ListNoDup|by rewrite fmap_length, seq_length, E|]. intros j Hj. apply elem_of_list_In, L in Hj. apply in_seq. lia. }
  apply elem_of_list_In, H, in_seq. lia.
Qed.

Lemma fe_snoc arr i o : first_exc (arr ++ [(i, o)]) = match first_exc arr with Some e => Some e | None => match o with Exc e => Some e | Val _ => None end end.
Proof. induction arr as [|[j [x|e]] arr IH]; simpl; [by destruct o|done|done]. Qed.
Lemma fv_snoc arr i o : first_val (arr ++ [(i, o)]) = match first_val arr with Some p => Some p | None => match o with Val x => Some (i, x) | Exc _ => None end end.
Proof. induction arr as [|[j [x|e]] arr IH]; simpl; [by destruct o|done|done]. Qed.
Lemma vo_snoc arr i o j : i ∉ arr.*1 -> value_of (arr ++ [(i, o)]) j = match o with Val x => if decide (i = j) then Some x else value_of arr j | Exc _ => value_of arr j end.
Proof.
  intros N. induction arr as [|[k [x|e]] arr IH]; simpl.
  - destruct o; [|done]. destruct (Nat.eqb_spec i j), (decide (i = j)); congruence.
  - rewrite fmap_cons, not_elem_of_cons in N. destruct N as [Nk N]. simpl in Nk. rewrite (IH N). destruct (Nat.eqb_spec k j).
    + subst. destruct o; [|done]. destruct (decide (i = j)); [congruence|done].
    + done.
  - rewrite fmap_cons, not_elem_of_cons in N. destruct N as [Nk N]. by rewrite (IH N).
Qed.
Lemma vo_none arr j : j ∉ arr.*1 -> value_of arr j = None.
Proof.
  intros N. induction arr as [|[k [x|e]] arr IH]; simpl; [done|..]; rewrite fmap_cons, not_elem_of_cons in N; destruct N as [Nk N]; simpl in Nk.
  - destruct (Nat.eqb_spec k j); [congruence|auto].
  - auto.
Qed.
Lemma vo_some arr j : first_exc arr = None -> j ∈ arr.*1 -> exists x, value_of arr j = Some x.
Proof.
  intros F. induction arr as [|[k [x|e]] arr IH]; simpl in *; [by intros ?%elem_of_nil| |done].
  intros [->|H]%elem_of_cons; simpl.
  - rewrite Nat.eqb_refl. eauto.
  - destruct (k =? j); eauto.
Qed.

(** counts *)
Definition vals (arr : list (nat * outcome)) := omap (fun p => match p.2 with Val x => Some x | _ => None end) arr.
Definition excs (arr : list (nat * outcome)) := omap (fun p => match p.2 with Exc x => Some x | _ => None end) arr.
Lemma len_split arr : length arr = length (vals arr) + length (excs arr).
Proof. induction arr as [|[k [x|e]] arr IH]; simpl; [done|..]; rewrite IH; unfold vals, excs; simpl; lia. Qed.
Lemma fe_excs arr : first_exc arr = head (excs arr).
Proof. induction arr as [|[k [x|e]] arr IH]; simpl; done. Qed.
Lemma fv_vals arr : first_val arr = None <-> vals arr = [].
Proof. induction arr as [|[k [x|e]] arr IH]; simpl; done. Qed.
Lemma vals_snoc arr i o : vals (arr ++ [(i, o)]) = vals arr ++ match o with Val x => [x] | _ => [] end.
Proof. unfold vals. rewrite omap_app. by destruct o. Qed.
Lemma excs_snoc arr i o : excs (arr ++ [(i, o)]) = excs arr ++ match o with Exc x => [x] | _ => [] end.
Proof. unfold excs. rewrite omap_app. by destruct o. Qed.

Lemma dec_S k : dec (N.of_nat (S k)) = N.of_nat k.
Proof. unfold dec. destruct (N.eqb_spec (N.of_nat (S k)) 0); lia. Qed.
Lemma dec_sub n k : k < n -> dec (N.of_nat (n - k)) = N.of_nat (n - S k).
Proof. intros H. replace (n - k) with (S (n - S k)) by lia. apply dec_S. Qed.
Lemma eqb0 k : (N.of_nat k =? 0)%N = (k =? 0).
Proof. destruct (N.eqb_spec (N.of_nat k) 0), (Nat.eqb_spec k 0); lia. Qed.

Lemma args_set n (f g : nat -> option nat) i x : i < n -> g i = Some x -> (forall j, j <> i -> g j = f j) -> <[i := Some x]> (f <$> seq 0 n) = g <$> seq 0 n.
Proof.
  intros Hi Hx Hg. apply list_eq. intros j. destruct (decide (j = i)) as [->|N].
  - rewrite list_lookup_insert by (rewrite fmap_length, seq_length; done). rewrite list_lookup_fmap, look_lt by done. simpl. by rewrite Hx.
  - rewrite list_lookup_insert_ne by done. rewrite !list_lookup_fmap. destruct (decide (j < n)).
    + rewrite look_lt by done. simpl. by rewrite Hg.
    + rewrite look_ge by lia. done.
Qed.

Record call_all v n arr (c : ctx) : Prop := CallAll {
  a_exc : exc c = first_exc arr;
  a_single : v = RangeAll -> single c = bool_decide (is_Some (first_exc arr));
  a_rem : v = RangeAll \/ first_exc arr = None -> rem c = N.of_nat (n - length (vals arr));
  a_args : v = RangeAll \/ first_exc arr = None -> args c = value_of arr <$> seq 0 n
}.
Lemma all_ctx v n arr : v = PackAll \/ v = RangeAll -> good n arr -> call_all v n arr (ctx_of v n arr).
Proof.
  intros Hv. induction arr as [|[i o] arr IH] using rev_ind; intros G.
  - split; simpl; try done; intros _; [f_equal; lia|]. apply list_eq. intros j. rewrite list_lookup_fmap. destruct (decide (j < n)).
    + rewrite lookup_replicate_2, look_lt by done. done.
    + rewrite look_ge by lia. apply lookup_replicate_None. lia.
  - apply good_snoc in G as (G & Hi & Hn). specialize (IH G). destruct IH as [E1 E2 E3 E4].
    assert (length arr < n) as Hlen.
    { pose proof (good_len _ _ G). destruct (decide (length arr = n)); [|lia]. by destruct Hn; eapply good_full. }
    pose proof (len_split arr) as HL.
    assert (forall x, <[i := Some x]> (value_of arr <$> seq 0 n) = value_of (arr ++ [(i, Val x)]) <$> seq 0 n) as Hset.
    { intros x. apply args_set; [done| |]; [|intros j Hj]; rewrite vo_snoc by done; [by rewrite decide_True|by rewrite decide_False]. }
    rewrite ctx_snoc. split.
    + rewrite fe_snoc. destruct Hv as [-> | ->]; destruct o as [x|e]; simpl.
      * rewrite E1. by destruct (first_exc arr).
      * rewrite E1. by destruct (first_exc arr).
      * rewrite E1. by destruct (first_exc arr).
      * rewrite (E2 eq_refl). destruct (first_exc arr) eqn:F; simpl; [by rewrite E1|done].
    + intros ->. rewrite fe_snoc. destruct o as [x|e]; simpl; rewrite (E2 eq_refl); destruct (first_exc arr); simpl; try done; rewrite ?E2; done.
    + rewrite fe_snoc, vals_snoc. intros Hc. destruct o as [x|e].
      * rewrite app_length. simpl. assert (rem (ctx_of v n arr) = N.of_nat (n - length (vals arr))) as R.
        { apply E3. destruct Hc; [by left|]. right. by destruct (first_exc arr). }
        replace (n - (length (vals arr) + 1)) with (n - S (length (vals arr))) by lia. rewrite <- dec_sub by lia. rewrite <- R.
        destruct Hv as [-> | ->]; simpl; [|done]. rewrite E1. destruct Hc; [done|]. by destruct (first_exc arr).
      * rewrite app_nil_r. destruct Hv as [-> | ->]; [destruct Hc; [done|]; by destruct (first_exc arr)|]. simpl.
        rewrite (E2 eq_refl). destruct (first_exc arr); simpl; apply E3; by left.
    + rewrite fe_snoc. intros Hc. destruct o as [x|e].
      * assert (args (ctx_of v n arr) = value_of arr <$> seq 0 n) as R.
        { apply E4. destruct Hc; [by left|]. right. by destruct (first_exc arr). }
        rewrite <- Hset, <- R. destruct Hv as [-> | ->]; simpl; [|done]. rewrite E1. destruct Hc; [done|]. by destruct (first_exc arr).
      * destruct Hv as [-> | ->]; [destruct Hc; [done|]; by destruct (first_exc arr)|]. simpl.
        rewrite (E2 eq_refl). assert (args (ctx_of RangeAll n arr) = value_of (arr ++ [(i, Exc e)]) <$> seq 0 n) as R.
        { rewrite E4 by (by left). apply list_fmap_ext. intros ?? _. by rewrite vo_snoc. }
        by destruct (first_exc arr).
Qed.

Record call_any v n arr (c : ctx) : Prop := CallAny {
  y_exc : exc c = if decide (length (excs arr) = n) then last (excs arr) else None;
  y_idx : idx c = fst <$> first_val arr;
  y_arg : v <> PackAnyVoid -> arg c = snd <$> first_val arr;
  y_single : v = RangeAny -> single c = bool_decide (is_Some (first_val arr));
  y_rem : rem c = N.of_nat (n - length (excs arr))
}.
Lemma any_ctx v n arr : 0 < n -> v = PackAny \/ v = PackAnyVoid \/ v = RangeAny -> good n arr -> call_any v n arr (ctx_of v n arr).
Proof.
  intros Hn0 Hv. induction arr as [|[i o] arr IH] using rev_ind; intros G.
  - split; simpl; try done. rewrite decide_False by lia. done. f_equal. lia.
  - apply good_snoc in G as (G & Hi & Hn). specialize (IH G). destruct IH as [E1 E2 E3 E4 E5].
    assert (length arr < n) as Hlen.
    { pose proof (good_len _ _ G). destruct (decide (length arr = n)); [|lia]. by destruct Hn; eapply good_full. }
    pose proof (len_split arr) as HL. rewrite decide_False in E1 by lia.
    rewrite ctx_snoc. destruct o as [x|e].
    + assert (excs (arr ++ [(i, Val x)]) = excs arr) as HX by (rewrite excs_snoc; apply app_nil_r).
      split; rewrite ?HX, ?fv_snoc.
      * rewrite decide_False by lia. destruct Hv as [-> | [-> | ->]]; simpl; [destruct (idx _)..|destruct (single _)]; done.
      * destruct Hv as [-> | [-> | ->]]; simpl; [rewrite E2..|rewrite (E4 eq_refl)]; destruct (first_val arr) as [[]|]; simpl in *; done.
      * intros Hne. destruct Hv as [-> | [-> | ->]]; [|done|]; simpl; [rewrite E2|rewrite (E4 eq_refl)]; destruct (first_val arr) as [[]|]; simpl in *; auto.
      * intros ->. simpl. rewrite (E4 eq_refl). destruct (first_val arr) as [[]|]; simpl; [|done]. by rewrite (E4 eq_refl).
      * rewrite <- E5. destruct Hv as [-> | [-> | ->]]; simpl; [destruct (idx _)..|destruct (single _)]; done.
    + assert (excs (arr ++ [(i, Exc e)]) = excs arr ++ [e]) as HX by (rewrite excs_snoc; done).
      assert (first_val (arr ++ [(i, Exc e)]) = first_val arr) as HV by (rewrite fv_snoc; by destruct (first_val arr)).
      assert (dec (rem (ctx_of v n arr)) = N.of_nat (n - S (length (excs arr)))) as HD by (rewrite E5; apply dec_sub; lia).
      assert ((arrive v i (Exc e) (ctx_of v n arr)).1 =
              let c := ctx_of v n arr in Ctx (args c) (arg c) (idx c) (N.of_nat (n - S (length (excs arr))))
                (if decide (length (excs arr) + 1 = n) then Some e else exc c) (single c)) as ->.
      { destruct Hv as [-> | [-> | ->]]; simpl; rewrite HD, eqb0; destruct (Nat.eqb_spec (n - S (length (excs arr))) 0), (decide (length (excs arr) + 1 = n)); done || lia. }
      simpl. split; rewrite ?HX, ?HV; simpl; auto.
      * rewrite last_snoc, app_length. simpl. by rewrite E1.
      * rewrite app_length. simpl. f_equal. lia.
Qed.

Lemma passed_spec vd n (f : nat -> option nat) : (forall i, i < n -> exists x, f i = Some x) ->
  passed vd (f <$> seq 0 n) = omap (fun i => if vd i then None else f i) (seq 0 n).
Proof.
  intros H. unfold passed.
  assert (forall m k, m + k = n -> imap (fun i x => if vd (k + i) then [] else [default 0 x]) (f <$> seq k m) ≫= id = omap (fun i => if vd i then None else f i) (seq k m)) as HH.
  { induction m as [|m IH]; intros k E; [done|]. change (seq k (S m)) with (k :: seq (S k) m). rewrite fmap_cons, imap_cons, bind_cons, Nat.add_0_r.
    destruct (H k ltac:(lia)) as (x & Hx). rewrite Hx.
    specialize (IH (S k) ltac:(lia)).
    assert (imap ((λ (i : nat) (x0 : option nat), if vd (k + i) then [] else [default 0 x0]) ∘ S) (f <$> seq (S k) m) =
            imap (λ (i : nat) (x0 : option nat), if vd (S k + i) then [] else [default 0 x0]) (f <$> seq (S k) m)) as EE.
    { apply imap_ext. intros j y _. simpl. by rewrite <- plus_n_Sm. }
    rewrite EE, IH. simpl. destruct (vd k); [done|]. by rewrite Hx. }
  apply (HH n 0). lia.
Qed.

(** The context answers as the specification says. *)
Lemma apply_spec v vd n arr r : 0 < n -> good n arr -> spec v n vd arr = Some r -> apply v vd (ctx_of v n arr) = r.
Proof.
  intros Hn G. pose proof (len_split arr) as HL.
  assert (forall vv, vv = PackAll \/ vv = RangeAll -> spec_all n vd arr = Some r -> apply vv vd (ctx_of vv n arr) = r) as HA.
  { intros vv Hv. destruct (all_ctx vv n arr Hv G) as [E1 E2 E3 E4]. unfold spec_all. destruct (first_exc arr) as [e|] eqn:F.
    - intros [= <-]. destruct Hv as [-> | ->]; simpl; rewrite E1; [|done].
      (* some argument is missing: the one that failed *)
      destruct (existsb _ _) eqn:EX; [done|]. exfalso.
      assert (forall a, good n a -> forall e', first_exc a = Some e' -> exists i, i < n /\ args (ctx_of PackAll n a) !! i = Some None) as Hm.
      { clear. intros a. induction a as [|[i o] a IH] using rev_ind; intros G e F; [done|]. apply good_snoc in G as (G & Hi & Hn).
        destruct (all_ctx PackAll n a ltac:(by left) G) as [E1 _ _ E4]. rewrite ctx_snoc. rewrite fe_snoc in F.
        destruct (first_exc a) as [e'|] eqn:F'.
        - destruct (IH G _ eq_refl) as (j & Hj & Hl). exists j. split; [done|]. destruct o; simpl; rewrite E1; done.
        - destruct o as [x|e']; [done|]. simpl. rewrite E1. simpl. rewrite E4 by auto. exists i. split; [done|].
          rewrite list_lookup_fmap, look_lt by done. simpl. f_equal. by apply vo_none. }
      destruct (Hm _ G _ F) as (i & Hi & Hl). apply elem_of_list_lookup_2 in Hl. rewrite <- not_true_iff_false in EX. destruct EX.
      apply existsb_exists. exists None. split; [by apply elem_of_list_In|done].
    - destruct (Nat.eqb_spec (length arr) n) as [EL|]; [|done]. intros [= <-].
      assert (forall i, i < n -> exists x, value_of arr i = Some x) as HS by (intros i Hi; apply vo_some; [done|by eapply good_full]).
      rewrite <- passed_spec by done. destruct Hv as [-> | ->]; simpl; rewrite E4 by auto.
      + destruct (existsb _ _) eqn:EX; [|done]. exfalso. apply existsb_exists in EX as (x & Hx & Hb). destruct x; [done|].
        apply elem_of_list_In, elem_of_list_fmap in Hx as (i & Hi & Hs). apply in_seq0 in Hs. destruct (HS i ltac:(lia)). congruence.
      + by rewrite E1. }
  assert (forall vv vo, vv = PackAny \/ vv = PackAnyVoid \/ vv = RangeAny -> spec_any n vo arr = Some r ->
            (exists e, r = RExc e /\ exc (ctx_of vv n arr) = Some e) \/
            exists i x, r = RCall (if vo then [] else [x]) (Some i) /\ exc (ctx_of vv n arr) = None /\ idx (ctx_of vv n arr) = Some i /\
                        (vv <> PackAnyVoid -> arg (ctx_of vv n arr) = Some x)) as HY.
  { intros vv vo Hv. destruct (any_ctx vv n arr Hn Hv G) as [E1 E2 E3 E4 E5]. unfold spec_any. destruct (first_val arr) as [[i x]|] eqn:F.
    - intros [= <-]. right. exists i, x. simpl in *. assert (vals arr <> []) as NV by (intros ?%fv_vals; congruence).
      rewrite decide_False in E1; [auto|]. pose proof (good_len _ _ G). destruct (vals arr); [done|]. simpl in HL. lia.
    - destruct (Nat.eqb_spec (length arr) n) as [EL|]; [|done]. apply fv_vals in F. rewrite F in HL. simpl in HL.
      rewrite decide_True in E1 by lia. destruct (last arr) as [[i [x|e]]|] eqn:La; [done| |done]. intros [= <-]. left. exists e. split; [done|].
      rewrite E1. apply last_Some in La as (a & ->). rewrite excs_snoc. apply last_snoc. }
  destruct v; simpl; intros HS.
  - apply (HA PackAll); auto.
  - destruct (HY PackAny false ltac:(auto) HS) as [(e & -> & ->)|(i & x & -> & -> & -> & Hx)]; [done|]. by rewrite Hx.
  - destruct (HY PackAnyVoid true ltac:(auto) HS) as [(e & -> & ->)|(i & x & -> & -> & -> & Hx)]; done.
  - apply (HA RangeAll); auto.
  - destruct (HY RangeAny (vd 0) ltac:(auto) HS) as [(e & -> & ->)|(i & x & -> & -> & -> & Hx)]; [done|]. by rewrite Hx.
Qed.

(** Once decided the result stays. *)
Lemma spec_stable v vd n arr i o r : good n (arr ++ [(i, o)]) -> spec v n vd arr = Some r -> spec v n vd (arr ++ [(i, o)]) = Some r.
Proof.
  intros G. assert (length arr <> n) as Hl by (apply good_len in G; rewrite app_length in G; simpl in G; lia).
  assert (spec_all n vd arr = Some r -> spec_all n vd (arr ++ [(i, o)]) = Some r) as HA.
  { unfold spec_all. rewrite fe_snoc. destruct (first_exc arr); [done|]. destruct (Nat.eqb_spec (length arr) n); done. }
  assert (forall vo, spec_any n vo arr = Some r -> spec_any n vo (arr ++ [(i, o)]) = Some r) as HY.
  { intros vo. unfold spec_any. rewrite fv_snoc. destruct (first_val arr) as [[]|]; [done|]. destruct (Nat.eqb_spec (length arr) n); done. }
  destruct v; simpl; auto.
Qed.
(** _f is to be called exactly when the result becomes known. *)
Lemma run_spec v vd n arr i o : 0 < n -> good n (arr ++ [(i, o)]) ->
  (arrive v i o (ctx_of v n arr)).2 = match spec v n vd arr with Some _ => false | None => match spec v n vd (arr ++ [(i, o)]) with Some _ => true | None => false end end.
Proof.
  intros Hn0 G'. pose proof G' as G. apply good_snoc in G as (G & Hi & Hn). pose proof (len_split arr) as HL.
  assert (length arr < n) as Hlen by (apply good_len in G'; rewrite app_length in G'; simpl in G'; lia).
  assert (forall vv, vv = PackAll \/ vv = RangeAll -> (arrive vv i o (ctx_of vv n arr)).2 =
     match spec_all n vd arr with Some _ => false | None => match spec_all n vd (arr ++ [(i, o)]) with Some _ => true | None => false end end) as HA.
  { intros vv Hv. destruct (all_ctx vv n arr Hv G) as [E1 E2 E3 E4]. unfold spec_all. rewrite fe_snoc, app_length. simpl.
    destruct (first_exc arr) as [e|] eqn:F.
    - destruct Hv as [-> | ->]; destruct o; simpl.
      + by rewrite E1.
      + by rewrite E1.
      + rewrite (E3 ltac:(auto)). assert (length (excs arr) <> 0) as NX by (rewrite fe_excs in F; by destruct (excs arr)). rewrite dec_sub by lia. rewrite eqb0. apply Nat.eqb_neq. lia.
      + by rewrite (E2 eq_refl).
    - assert (excs arr = []) as NX by (rewrite fe_excs in F; by destruct (excs arr)). rewrite NX in HL. simpl in HL.
      destruct (Nat.eqb_spec (length arr) n); [lia|]. destruct o as [x|e].
      + assert ((dec (rem (ctx_of vv n arr)) =? 0)%N = (length arr + 1 =? n)) as ED.
        { rewrite (E3 ltac:(auto)), dec_sub by lia. rewrite eqb0. destruct (Nat.eqb_spec (n - S (length (vals arr))) 0), (Nat.eqb_spec (length arr + 1) n); lia || done. }
        destruct Hv as [-> | ->]; simpl; rewrite ?E1; simpl; rewrite ED; by destruct (length arr + 1 =? n).
      + destruct Hv as [-> | ->]; simpl; [by rewrite E1|]. by rewrite (E2 eq_refl). }
  assert (forall vv vo, vv = PackAny \/ vv = PackAnyVoid \/ vv = RangeAny -> (arrive vv i o (ctx_of vv n arr)).2 =
     match spec_any n vo arr with Some _ => false | None => match spec_any n vo (arr ++ [(i, o)]) with Some _ => true | None => false end end) as HY.
  { intros vv vo Hv. destruct (any_ctx vv n arr Hn0 Hv G) as [E1 E2 E3 E4 E5]. unfold spec_any. rewrite fv_snoc, app_length, last_snoc. simpl.
    destruct (Nat.eqb_spec (length arr) n); [lia|].
    destruct o as [x|e].
    - destruct Hv as [-> | [-> | ->]]; simpl; [rewrite E2..|rewrite (E4 eq_refl)]; by destruct (first_val arr) as [[]|].
    - assert ((arrive vv i (Exc e) (ctx_of vv n arr)).2 = (length (excs arr) + 1 =? n)) as ->.
      { assert (dec (rem (ctx_of vv n arr)) = N.of_nat (n - S (length (excs arr)))) as HD by (rewrite E5; apply dec_sub; lia).
        destruct Hv as [-> | [-> | ->]]; simpl; rewrite HD, eqb0; destruct (Nat.eqb_spec (n - S (length (excs arr))) 0), (Nat.eqb_spec (length (excs arr) + 1) n); done || lia. }
      destruct (first_val arr) as [[]|] eqn:F.
      + assert (vals arr <> []) as NV by (intros ?%fv_vals; congruence). destruct (vals arr); [done|]. simpl in HL. apply Nat.eqb_neq. lia.
      + apply fv_vals in F. rewrite F in HL. simpl in HL. rewrite HL. by destruct (_ =? n). }
  destruct v; [apply (HA PackAll)|apply (HY PackAny false)|apply (HY PackAnyVoid true)|apply (HA RangeAll)|apply (HY RangeAny (vd 0))]; auto.
Qed.
