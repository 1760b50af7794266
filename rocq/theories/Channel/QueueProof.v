From Coq Require Import List Bool ZArith Lia Arith.
From stdpp Require Import list.
From Verif.Channel Require Import Queue.

(** operations on one queue *)
Inductive qop := QA (p : nat) (m : msg) | QT.
(** appended to port p, in order *)
Definition apps (p : nat) (ops : list qop) : list msg :=
  omap (fun o => match o with QA p' m => if p' =? p then Some m else None | QT => None end) ops.
Definition q_take (st : strategy) (q : qst) : option (list msg * qst) :=
  if q_empty st q then None else match q_front st q with Some (ms, q') => Some (ms, q_pop st q') | None => None end.
Fixpoint qrun (st : strategy) (q : qst) (ops : list qop) : option (qst * list (list msg)) :=
  match ops with
  | [] => Some (q, [])
  | QA p m :: ops => qrun st (q_append p m q) ops
  | QT :: ops => match q_take st q with
                 | None => None
                 | Some (ms, q') => match qrun st q' ops with None => None | Some (q2, o) => Some (q2, ms :: o) end
                 end
  end.
Lemma qrun_app st ops1 : forall ops2 q q2 o, qrun st q (ops1 ++ ops2) = Some (q2, o) <->
  exists q1 o1 o2, qrun st q ops1 = Some (q1, o1) /\ qrun st q1 ops2 = Some (q2, o2) /\ o = o1 ++ o2.
Proof.
  induction ops1 as [|[p m|] ops1 IH]; intros ops2 q q2 o; simpl.
  - split; [intros H; by exists q, [], o|]. by intros (q1 & o1 & o2 & [= <- <-] & H & ->).
  - apply IH.
  - destruct (q_take st q) as [[ms q']|]; [|split; [done|by intros (? & ? & ? & ? & _)]]. split.
    + destruct (qrun st q' (ops1 ++ ops2)) as [[q3 o3]|] eqn:R; [|done]. intros [= <- <-].
      apply IH in R as (q1 & o1 & o2 & R1 & R2 & ->). rewrite R1. by exists q1, (ms :: o1), o2.
    + intros (q1 & o1 & o2 & R1 & R2 & ->). destruct (qrun st q' ops1) as [[q3 o3]|] eqn:R; [|done]. injection R1 as <- <-.
      assert (qrun st q' (ops1 ++ ops2) = Some (q2, o3 ++ o2)) as -> by (apply IH; by exists q3, o3, o2). done.
Qed.
Lemma apps_app p o1 o2 : apps p (o1 ++ o2) = apps p o1 ++ apps p o2.
Proof. apply omap_app. Qed.

(** ** find_i *)
Lemma find_i_le {A} f (l : list A) : find_i f l <= length l.
Proof. induction l as [|a l IH]; simpl; [lia|]. destruct (f a); lia. Qed.
Lemma find_i_lt {A} f (l : list A) : find_i f l < length l <-> exists i a, l !! i = Some a /\ f a = true.
Proof.
  induction l as [|a l IH]; simpl.
  - split; [lia|]. by intros (i & a & H & _).
  - destruct (f a) eqn:E.
    + split; [|lia]. intros _. by exists 0, a.
    + rewrite <- Nat.succ_lt_mono, IH. split.
      * intros (i & b & H & Hb). by exists (S i), b.
      * intros ([|i] & b & H & Hb); [injection H as ->; congruence|]. by exists i, b.
Qed.
Lemma find_i_spec {A} f (l : list A) a : l !! find_i f l = Some a -> f a = true.
Proof.
  induction l as [|b l IH]; simpl; [done|]. destruct (f b) eqn:E; simpl; [by intros [= ->]|done].
Qed.
Lemma nilb_true {A} (l : list A) : nilb l = true <-> l = [].
Proof. by destruct l. Qed.
Lemma nilb_false {A} (l : list A) : nilb l = false <-> l <> [].
Proof. by destruct l. Qed.

(** ** emptiness *)
Lemma empty_default q c : qs q = [c] -> q_empty Default q = nilb c.
Proof. intros H. simpl. by rewrite H. Qed.
Lemma empty_zip q : q_empty Zip q = false <-> Forall (fun c => c <> []) (qs q).
Proof.
  simpl. rewrite negb_false_iff, Nat.eqb_eq, Forall_forall. pose proof (find_i_le nilb (qs q)) as L. split.
  - intros E c Hc N. apply elem_of_list_lookup in Hc as [i Hi]. subst c.
    assert (find_i nilb (qs q) < length (qs q)) by (apply find_i_lt; by exists i, []). lia.
  - intros H. destruct (decide (find_i nilb (qs q) < length (qs q))) as [F|F]; [|lia].
    apply find_i_lt in F as (i & a & Hi & Ha). apply nilb_true in Ha as ->. destruct (H []); [|done].
    by apply elem_of_list_lookup_2 in Hi.
Qed.
Lemma empty_unordered q : q_empty Unordered q = true <-> Forall (fun c => c = []) (qs q).
Proof.
  simpl. rewrite Nat.eqb_eq, Forall_forall. pose proof (find_i_le (fun c => negb (nilb c)) (qs q)) as L. split.
  - intros E c Hc. apply elem_of_list_lookup in Hc as [i Hi]. destruct c as [|m c]; [done|].
    assert (find_i (fun c : list msg => negb (nilb c)) (qs q) < length (qs q)) by (apply find_i_lt; by exists i, (m :: c)). lia.
  - intros H. destruct (decide (find_i (fun c => negb (nilb c)) (qs q) < length (qs q))) as [F|F]; [|lia].
    apply find_i_lt in F as (i & a & Hi & Ha). apply elem_of_list_lookup_2 in Hi. apply H in Hi as ->. done.
Qed.
Lemma empty_rr q : q_empty RoundRobin q = false <-> exists m c, qs q !! qi q = Some (m :: c).
Proof.
  simpl. destruct (qs q !! qi q) as [[|m c]|]; simpl; split; try done.
  - by intros (? & ? & ?).
  - intros _. by exists m, c.
  - by intros (? & ? & ?).
Qed.
(** ** take *)
Lemma mapM_head (l : list (list msg)) ms : mapM head l = Some ms <-> length ms = length l /\
  forall i, i < length l -> exists m c, l !! i = Some (m :: c) /\ ms !! i = Some m.
Proof.
  rewrite mapM_Some, Forall2_lookup. split.
  - intros H. assert (length ms = length l) as L.
    { apply Forall2_lookup in H. symmetry. by eapply Forall2_length. }
    split; [done|]. intros i Hi. specialize (H i). destruct (lookup_lt_is_Some_2 l i Hi) as [c Hc]. rewrite Hc in H.
    inversion H as [? m E Q|]; subst. destruct c as [|m' c]; simpl in E; [done|]. injection E as ->. by exists m, c.
  - intros [L H] i. destruct (l !! i) as [c|] eqn:E.
    + pose proof (lookup_lt_Some _ _ _ E) as Hi. destruct (H i Hi) as (m & c' & E' & ->). rewrite E in E'. injection E' as ->.
      by constructor.
    + apply lookup_ge_None in E. rewrite (proj2 (lookup_ge_None ms i)) by lia. constructor.
Qed.
(** whenever the queue is not empty a message can be taken *)
Lemma take_ok st q : q_empty st q = false -> exists ms q', q_take st q = Some (ms, q') /\ q_front st q <> None.
Proof.
  intros E. unfold q_take. rewrite E. destruct st.
  - simpl in E. unfold q_front, port_head. destruct (qs q !! 0) as [[|m c]|]; try done. eauto.
  - apply empty_zip in E. unfold q_front.
    assert (exists ms, mapM head (qs q) = Some ms) as [ms ->]; [|eauto].
    rewrite Forall_forall in E. apply mapM_is_Some_2. apply Forall_forall. intros c Hc. apply E in Hc. destruct c; [done|]. by eexists.
  - apply empty_rr in E as (m & c & E). unfold q_front, port_head. rewrite E. eauto.
  - unfold q_front, port_head. simpl in E. apply Nat.eqb_neq in E.
    pose proof (find_i_le (fun c => negb (nilb c)) (qs q)). destruct (lookup_lt_is_Some_2 (qs q) (find_i (fun c => negb (nilb c)) (qs q))) as [c Hc]; [lia|].
    rewrite Hc. apply find_i_spec in Hc. destruct c; [done|]. eauto.
Qed.
(** what is taken: from one port, or from all of them *)
Definition taken (st : strategy) (q : qst) (ms : list msg) (q' : qst) : Prop :=
  match st with
  | Zip => length ms = length (qs q) /\ length (qs q') = length (qs q) /\
           forall p, p < length (qs q) -> exists m c, qs q !! p = Some (m :: c) /\ ms !! p = Some m /\ qs q' !! p = Some c
  | _ => exists p m c, qs q !! p = Some (m :: c) /\ ms = [m] /\ qs q' = <[p := c]> (qs q) /\
         match st with Default => p = 0 | RoundRobin => p = qi q /\ qi q' = (if S (qi q) =? length (qs q) then 0 else S (qi q)) | _ => True end /\
         match st with Default => True | _ => qp q' = p end
  end.
Lemma alter_insert {A} (f : A -> A) (l : list A) i a : l !! i = Some a -> alter f i l = <[i := f a]> l.
Proof.
  intros H. apply list_eq. intros j. destruct (decide (i = j)) as [->|N].
  - rewrite list_lookup_alter, H, list_lookup_insert; [done|]. by eapply lookup_lt_Some.
  - by rewrite list_lookup_alter_ne, list_lookup_insert_ne.
Qed.
Lemma take_spec st q ms q' : q_take st q = Some (ms, q') -> taken st q ms q'.
Proof.
  unfold q_take. destruct (q_empty st q) eqn:E; [done|]. destruct (q_front st q) as [[ms1 q1]|] eqn:F; [|done]. intros [= -> <-].
  destruct st; unfold q_front, port_head in F; simpl.
  - destruct (qs q !! 0) as [[|m c]|] eqn:H; try done. injection F as <- <-. exists 0, m, c. simpl. rewrite (alter_insert _ _ _ _ H). done.
  - destruct (mapM head (qs q)) as [ms1|] eqn:H; [|done]. injection F as <- <-. apply mapM_head in H as [L H]. simpl.
    split; [done|]. rewrite map_length. split; [done|]. intros p Hp. destruct (H p Hp) as (m & c & H1 & H2). exists m, c.
    rewrite list_lookup_fmap, H1. done.
  - destruct (qs q !! qi q) as [[|m c]|] eqn:H; try done. injection F as <- <-. exists (qi q), m, c. simpl. rewrite (alter_insert _ _ _ _ H). done.
  - destruct (qs q !! find_i _ (qs q)) as [[|m c]|] eqn:H; try done. injection F as <- <-. exists (find_i (fun c => negb (nilb c)) (qs q)), m, c. simpl.
    rewrite (alter_insert _ _ _ _ H). done.
Qed.
Lemma append_lookup p m q p' : qs (q_append p m q) !! p' = (fun c => if p =? p' then c ++ [m] else c) <$> qs q !! p'.
Proof.
  simpl. destruct (Nat.eqb_spec p p') as [->|N].
  - by rewrite list_lookup_alter.
  - rewrite list_lookup_alter_ne by done. by destruct (qs q !! p').
Qed.
Lemma append_length p m q : length (qs (q_append p m q)) = length (qs q).
Proof. simpl. apply alter_length. Qed.
Lemma taken_length st q ms q' : taken st q ms q' -> length (qs q') = length (qs q).
Proof.
  intros T. destruct st; simpl in T; try (destruct T as (p & m & c & _ & _ & -> & _); apply insert_length). by destruct T as (_ & -> & _).
Qed.
Lemma qrun_length st ops : forall q q' o, qrun st q ops = Some (q', o) -> length (qs q') = length (qs q).
Proof.
  induction ops as [|[p m|] ops IH]; intros q q' o R; simpl in R.
  - by injection R as <- <-.
  - apply IH in R. by rewrite append_length in R.
  - destruct (q_take st q) as [[ms q1]|] eqn:T; [|done]. destruct (qrun st q1 ops) as [[q2 o2]|] eqn:R1; [|done]. injection R as <- <-.
    apply IH in R1. apply take_spec, taken_length in T. congruence.
Qed.

(** ** what is delivered *)
Lemma qrun_snoc st q ops o q' outs : qrun st q (ops ++ [o]) = Some (q', outs) ->
  exists q1 o1, qrun st q ops = Some (q1, o1) /\
    match o with QA p m => q' = q_append p m q1 /\ outs = o1 | QT => exists ms, q_take st q1 = Some (ms, q') /\ outs = o1 ++ [ms] end.
Proof.
  intros R. apply qrun_app in R as (q1 & o1 & o2 & R1 & R2 & ->). exists q1, o1. split; [done|]. destruct o as [p m|]; simpl in R2.
  - injection R2 as <- <-. by rewrite app_nil_r.
  - destruct (q_take st q1) as [[ms q2]|]; [|done]. injection R2 as <- <-. by exists ms.
Qed.
Lemma new_lookup n p c : qs (q_new n) !! p = Some c -> c = [].
Proof. simpl. intros H. by apply lookup_replicate in H as [-> _]. Qed.

(** the default strategy: first in, first out *)
Lemma default_out ops q outs : qrun Default (q_new 1) ops = Some (q, outs) ->
  exists c, qs q = [c] /\ apps 0 ops = concat outs ++ c /\ Forall (fun ms => length ms = 1) outs.
Proof.
  revert q outs. induction ops as [|o ops IH] using rev_ind; intros q outs R.
  - injection R as <- <-. exists []. done.
  - apply qrun_snoc in R as (q1 & o1 & R & H). destruct (IH _ _ R) as (c & Hc & A & F). rewrite apps_app, A. destruct o as [p m|].
    + destruct H as [-> ->]. simpl. destruct p as [|p]; simpl.
      * exists (c ++ [m]). rewrite Hc, app_assoc. done.
      * exists c. rewrite Hc, app_nil_r. done.
    + destruct H as (ms & T & ->). apply take_spec in T as (p & m & c' & H1 & -> & H2 & -> & _). rewrite Hc in H1, H2. injection H1 as ->.
      exists c'. rewrite H2, concat_app, <- !app_assoc. simpl. rewrite app_nil_r. split; [done|]. split; [done|]. apply Forall_app. split; [done|]. by repeat constructor.
Qed.
(** zip: row by row *)
Lemma zip_out n ops q outs : qrun Zip (q_new n) ops = Some (q, outs) ->
  Forall (fun ms => length ms = n) outs /\ length (qs q) = n /\
  forall p, p < n -> exists c, qs q !! p = Some c /\ length outs + length c = length (apps p ops) /\ c = drop (length outs) (apps p ops) /\
  forall k ms, outs !! k = Some ms -> ms !! p = apps p ops !! k /\ k < length (apps p ops).
Proof.
  revert q outs. induction ops as [|o ops IH] using rev_ind; intros q outs R.
  - injection R as <- <-. split; [done|]. split; [simpl; by rewrite replicate_length|]. intros p Hp. exists []. simpl.
    rewrite lookup_replicate_2 by done. done.
  - apply qrun_snoc in R as (q1 & o1 & R & H). destruct (IH _ _ R) as (F & L & P). destruct o as [p0 m|].
    + destruct H as [-> ->]. split; [done|]. split; [by rewrite append_length|]. intros p Hp. destruct (P p Hp) as (c & Hc & N & D & O).
      exists (if p0 =? p then c ++ [m] else c). rewrite append_lookup, Hc. split; [done|]. rewrite apps_app. simpl.
      destruct (p0 =? p); simpl; rewrite ?app_nil_r; [|done]. rewrite !app_length. simpl. split; [lia|]. split.
      * rewrite drop_app_le by lia. by rewrite D at 1.
      * intros k ms Hk. destruct (O k ms Hk) as [E Lk]. rewrite lookup_app_l by done. split; [done|lia].
    + destruct H as (ms & T & ->). apply take_spec in T as (L1 & L2 & T). split; [apply Forall_app; split; [done|]; by rewrite Forall_singleton, L1|].
      split; [congruence|]. intros p Hp. destruct (P p Hp) as (c & Hc & N & D & O). destruct (T p) as (m & c' & H1 & H2 & H3); [lia|].
      rewrite Hc in H1. injection H1 as ->. exists c'. rewrite H3, apps_app, app_length. simpl. rewrite app_nil_r. simpl in N. split; [done|].
      assert (apps p ops !! length o1 = Some m) as E1. { rewrite <- (Nat.add_0_r (length o1)), <- lookup_drop, <- D. done. }
      split; [lia|]. split.
      * rewrite <- drop_drop, <- D. done.
      * intros k ms' Hk. apply lookup_app_Some in Hk as [Hk|[Hge Hk]]; [by apply O|].
        destruct (k - length o1) as [|j] eqn:Ek; simpl in Hk; [|done]. injection Hk as ->. replace k with (length o1) by lia.
        rewrite H2, E1. split; [done|]. by apply lookup_lt_Some in E1.
Qed.
(** round robin: in strict rotation *)
Definition turns (n k p : nat) : nat := k / n + (if p <? k mod n then 1 else 0).
Lemma turns_step n k p : 0 < n -> p < n -> turns n (S k) p = turns n k p + (if p =? k mod n then 1 else 0).
Proof.
  intros Hn Hp. unfold turns. pose proof (Nat.div_mod_eq k n) as E. pose proof (Nat.mod_upper_bound k n) as U.
  destruct (decide (S (k mod n) = n)) as [W|W].
  - assert (S k / n = S (k / n)) as -> by (symmetry; apply (Nat.div_unique _ _ _ 0); lia).
    assert (S k mod n = 0) as -> by (symmetry; apply (Nat.mod_unique _ _ (S (k / n))); lia).
    destruct (Nat.ltb_spec p 0), (Nat.ltb_spec p (k mod n)), (Nat.eqb_spec p (k mod n)); lia.
  - assert (S k / n = k / n) as -> by (symmetry; apply (Nat.div_unique _ _ _ (S (k mod n))); lia).
    assert (S k mod n = S (k mod n)) as -> by (symmetry; apply (Nat.mod_unique _ _ (k / n)); lia).
    destruct (Nat.ltb_spec p (S (k mod n))), (Nat.ltb_spec p (k mod n)), (Nat.eqb_spec p (k mod n)); lia.
Qed.
Lemma turns_self n k : 0 < n -> turns n k (k mod n) = k / n.
Proof. intros Hn. unfold turns. rewrite Nat.ltb_irrefl. lia. Qed.
Lemma rr_out n ops q outs : 0 < n -> qrun RoundRobin (q_new n) ops = Some (q, outs) ->
  length (qs q) = n /\ qi q = length outs mod n /\
  (forall p, p < n -> exists c, qs q !! p = Some c /\ c = drop (turns n (length outs) p) (apps p ops) /\ turns n (length outs) p <= length (apps p ops)) /\
  (forall k ms, outs !! k = Some ms -> exists m, ms = [m] /\ apps (k mod n) ops !! (k / n) = Some m).
Proof.
  intros Hn. revert q outs. induction ops as [|o ops IH] using rev_ind; intros q outs R.
  - injection R as <- <-. split; [simpl; by rewrite replicate_length|]. simpl. rewrite Nat.mod_0_l by lia. split; [done|]. split; [|done].
    intros p Hp. exists []. rewrite lookup_replicate_2 by done. unfold turns. rewrite Nat.mod_0_l, Nat.div_0_l by lia. done.
  - apply qrun_snoc in R as (q1 & o1 & R & H). destruct (IH _ _ R) as (L & Q & P & O). destruct o as [p0 m|].
    + destruct H as [-> ->]. split; [by rewrite append_length|]. split; [done|]. split.
      * intros p Hp. destruct (P p Hp) as (c & Hc & D & Le). exists (if p0 =? p then c ++ [m] else c). rewrite append_lookup, Hc, apps_app. split; [done|].
        simpl. destruct (p0 =? p); simpl; rewrite ?app_nil_r; [|done]. rewrite app_length, drop_app_le by done. rewrite D. split; [done|lia].
      * intros k ms Hk. destruct (O k ms Hk) as (m' & -> & E). exists m'. split; [done|]. rewrite apps_app. by apply lookup_app_l_Some.
    + destruct H as (ms & T & ->). apply take_spec in T as (p0 & m & c0 & H1 & -> & H2 & [-> H3] & _).
      assert (qi q1 < n) as Hq by (rewrite Q; apply Nat.mod_upper_bound; lia). split; [by rewrite H2, insert_length|].
      rewrite app_length. simpl. split; [|split].
      * rewrite H3, L, Q, Nat.add_1_r. pose proof (Nat.div_mod_eq (length o1) n). pose proof (Nat.mod_upper_bound (length o1) n).
        destruct (Nat.eqb_spec (S (length o1 mod n)) n); [apply (Nat.mod_unique _ _ (S (length o1 / n)))|apply (Nat.mod_unique _ _ (length o1 / n))]; lia.
      * intros p Hp. destruct (P p Hp) as (c & Hc & D & Le). rewrite Nat.add_1_r, turns_step, <- Q, apps_app by done. simpl. rewrite app_nil_r, H2.
        destruct (Nat.eqb_spec p (qi q1)) as [->|N].
        -- rewrite Hc in H1. injection H1 as ->. exists c0. rewrite list_lookup_insert by lia. split; [done|].
           rewrite Nat.add_1_r. assert (apps (qi q1) ops !! turns n (length o1) (qi q1) = Some m) as E.
           { rewrite <- (Nat.add_0_r (turns _ _ _)), <- lookup_drop, <- D. done. }
           split; [|by apply lookup_lt_Some in E]. rewrite <- Nat.add_1_r, <- drop_drop, <- D. done.
        -- exists c. rewrite Nat.add_0_r, list_lookup_insert_ne by done. done.
      * intros k ms Hk. rewrite !apps_app. simpl. rewrite app_nil_r. apply lookup_app_Some in Hk as [Hk|[Hge Hk]]; [by apply O|].
        destruct (k - length o1) as [|j] eqn:Ek; simpl in Hk; [|done]. injection Hk as <-. replace k with (length o1) by lia. exists m. split; [done|].
        rewrite <- Q. destruct (P (qi q1) Hq) as (c & Hc & D & Le). rewrite Hc in H1. injection H1 as ->.
        rewrite <- (turns_self n (length o1)), <- Q, <- (Nat.add_0_r (turns _ _ _)), <- lookup_drop, <- D by done. done.
Qed.
(** unordered: some interleaving; src: where each message came from *)
Definition from (p : nat) (src : list nat) (outs : list (list msg)) : list msg :=
  concat (omap (fun '(i, ms) => if i =? p then Some ms else None) (zip src outs)).
Lemma un_out n ops q outs : qrun Unordered (q_new n) ops = Some (q, outs) ->
  length (qs q) = n /\ exists src, length src = length outs /\ Forall (fun i => i < n) src /\ Forall (fun ms => length ms = 1) outs /\
  forall p, p < n -> exists c, qs q !! p = Some c /\ apps p ops = from p src outs ++ c.
Proof.
  revert q outs. induction ops as [|o ops IH] using rev_ind; intros q outs R.
  - injection R as <- <-. split; [simpl; by rewrite replicate_length|]. exists []. split; [done|]. split; [done|]. split; [done|]. intros p Hp. exists [].
    simpl. rewrite lookup_replicate_2 by done. done.
  - apply qrun_snoc in R as (q1 & o1 & R & H). destruct (IH _ _ R) as (L & src & Ls & F & F1 & P). destruct o as [p0 m|].
    + destruct H as [-> ->]. split; [by rewrite append_length|]. exists src. split; [done|]. split; [done|]. split; [done|].
      intros p Hp. destruct (P p Hp) as (c & Hc & A). exists (if p0 =? p then c ++ [m] else c). rewrite append_lookup, Hc, apps_app, A. split; [done|].
      simpl. destruct (p0 =? p); simpl; by rewrite ?app_nil_r, ?app_assoc.
    + destruct H as (ms & T & ->). apply take_spec in T as (p0 & m & c0 & H1 & -> & H2 & _). pose proof (lookup_lt_Some _ _ _ H1) as Hl.
      split; [by rewrite H2, insert_length|]. exists (src ++ [p0]). rewrite !app_length, Ls. split; [done|].
      split; [apply Forall_app; split; [done|]; rewrite Forall_singleton; lia|]. split; [apply Forall_app; split; [done|]; by repeat constructor|].
      intros p Hp. destruct (P p Hp) as (c & Hc & A). rewrite apps_app, A, H2. simpl. rewrite app_nil_r. unfold from.
      rewrite zip_with_app, omap_app, concat_app by done. simpl. destruct (Nat.eqb_spec p0 p) as [->|N]; simpl.
      * rewrite Hc in H1. injection H1 as ->. exists c0. rewrite list_lookup_insert by done. by rewrite <- app_assoc.
      * exists c. rewrite list_lookup_insert_ne, app_nil_r by done. done.
Qed.
