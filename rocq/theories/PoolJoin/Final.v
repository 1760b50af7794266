(** What the properties of join follow from. *)
From Coq Require Import List Bool Arith Lia.
From stdpp Require Import list.
From Verif.PoolJoin Require Import Model Spec View Inv Cover Trace Joined Watch Awaits.

(** * Tasks, and what has happened *)
Record tinv (tr : list event) (s : st) : Prop := {
  i_queued : forall x t, Pushed x t ∈ tr -> Started t ∈ tr \/ inq s t;
  i_pre : forall tr1 tr2 x t, tr = tr1 ++ Called :: tr2 -> Pushed x t ∈ tr1 -> Started t ∈ tr \/ inql s t;
  i_run : forall t, Started t ∈ tr -> Ended t ∈ tr \/ running s t
}.
Lemma delete_elem {A} (q : list A) c x y : q !! c = Some x -> y ∈ q -> y ∈ delete c q \/ y = x.
Proof. intros Hc Hy. apply delete_Permutation in Hc. rewrite Hc in Hy. apply elem_of_cons in Hy. tauto. Qed.
(** a task stays in its queue until it is started *)
Lemma queue_keep s s' e j q t : qchange s s' e -> qs s !! j = Some q -> t ∈ q -> (exists q', qs s' !! j = Some q' /\ t ∈ q') \/ Started t ∈ e.
Proof.
  intros [[Hq He]|[(i & t0 & x & Hi & Hq & -> & _)|(i & r & c & t0 & H1 & H2 & Hq & -> & Hr)]] Hj Ht; rewrite Hq.
  - eauto.
  - left. apply lookup_lt_is_Some in Hi as [r Hr]. destruct (decide (j = i)) as [->|Hn]; [|rewrite qs_push by exact Hn; eauto].
    rewrite (qs_push_same i t0 s r Hr). rewrite Hr in Hj. injection Hj as ->. eexists. split; [reflexivity|]. apply elem_of_app. auto.
  - destruct (decide (i = j)) as [->|Hn]; [|rewrite list_lookup_insert_ne by exact Hn; eauto].
    rewrite H1 in Hj. injection Hj as ->. rewrite list_lookup_insert by (eapply lookup_lt_Some, H1).
    destruct (delete_elem q c _ t H2 Ht) as [Hd| ->]; [eauto|]. right. left.
Qed.
Lemma inql_keep m s s' e t : qchange s s' e -> tchange m s s' e -> inql s t -> inql s' t \/ Started t ∈ e.
Proof.
  intros Hq (_ & _ & T3 & _) (j & q & Hj & Ht & Hx). destruct (queue_keep _ _ _ _ _ _ Hq Hj Ht) as [(q' & Hj' & Ht')|]; [|auto].
  left. exists j, q'. split; [exact Hj'|]. split; [exact Ht'|]. intros Hk. destruct (T3 j Hk) as [|(_ & Hn & _)]; [congruence|].
  apply lookup_lt_Some in Hj as Hl. specialize (Hn Hl). unfold nothing in Hn. rewrite Hj in Hn. destruct q; [apply elem_of_nil in Ht; destruct Ht|discriminate].
Qed.
Lemma step_tinv m tr s l s' e : base s -> jinv m tr s -> tinv tr s -> step m s l = Some (s', e) -> tinv (tr ++ e) s'.
Proof.
  intros Hb Hj [H1 H2 H3] Hst. pose proof (step_qchange _ _ _ _ _ Hb (j_cl _ _ _ Hj) Hst) as HQ. pose proof (step_tchange _ _ _ _ _ Hst) as HT. split.
  - intros x t Ht. rewrite elem_of_app. apply elem_of_app in Ht as [Ht|Ht].
    + destruct (H1 x t Ht) as [|(j & q & Hq & Hin)]; [auto|]. destruct (queue_keep _ _ _ _ _ _ HQ Hq Hin) as [(q' & ?)|]; [|auto]. right. exists j, q'. auto.
    + destruct HQ as [[_ [->|(ev & -> & He & _)]]|[(i & t0 & x0 & Hi & Hq & -> & _)|(i & r & c & t0 & _ & _ & _ & -> & _)]].
      * apply elem_of_nil in Ht. destruct Ht.
      * apply elem_of_list_singleton in Ht. destruct (He x t). auto.
      * apply elem_of_list_singleton in Ht. injection Ht as -> ->. right. apply lookup_lt_is_Some in Hi as [r Hr]. exists i, (r ++ [t0]).
        rewrite Hq. split; [apply qs_push_same, Hr|]. apply elem_of_app. right. left.
      * apply elem_of_list_singleton in Ht. discriminate.
  - intros tr1 tr2 x t He Ht. rewrite elem_of_app.
    assert (Hcase : (exists tr2', tr = tr1 ++ Called :: tr2') \/ (tr1 = tr /\ e = [Called])).
    { destruct HQ as [[_ [->|(ev & -> & _)]]|[(i & t0 & x0 & Hi & Hq & -> & _)|(i & r & c & t0 & _ & _ & _ & -> & _)]].
      - rewrite app_nil_r in He. eauto.
      - destruct tr2 as [|ev2 tr2] using rev_ind.
        + apply app_inj_tail in He as [-> ->]. auto.
        + rewrite app_comm_cons, app_assoc in He. apply app_inj_tail in He as [-> ->]. eauto.
      - destruct tr2 as [|ev2 tr2] using rev_ind; [apply app_inj_tail in He as [_ ?]; discriminate|].
        rewrite app_comm_cons, app_assoc in He. apply app_inj_tail in He as [-> _]. eauto.
      - destruct tr2 as [|ev2 tr2] using rev_ind; [apply app_inj_tail in He as [_ ?]; discriminate|].
        rewrite app_comm_cons, app_assoc in He. apply app_inj_tail in He as [-> _]. eauto. }
    assert (Hl : Started t ∈ tr \/ inql s t).
    { destruct Hcase as [(tr2' & Htr)|(-> & ->)]; [exact (H2 _ _ _ _ Htr Ht)|]. destruct (H1 x t Ht) as [|(j & q & Hq & Hin)]; [auto|]. right. exists j, q.
      split; [exact Hq|]. split; [exact Hin|]. intros Hk. pose proof (j_ex _ _ _ Hj j Hk) as Hd. destruct (decide (l = Join)) as [->|Hnl].
      - unfold step in Hst. destruct (bad s); [discriminate|]. assert (Hno : jn s = JNo) by (unfold join in Hst; repeat case_match; simplify_eq; auto).
        rewrite (j_no _ _ _ Hj Hno) in Hd. discriminate.
      - destruct (step_frame _ _ _ _ _ Hnl Hst) as (_ & _ & Hpl & _). discriminate. }
    destruct Hl as [|Hl]; [auto|]. destruct (inql_keep _ _ _ _ _ HQ HT Hl); auto.
  - intros t Ht. rewrite elem_of_app. destruct HT as (T1 & _). apply elem_of_app in Ht as [Ht|Ht].
    + destruct (H3 t Ht) as [|Hr]; [auto|]. destruct (T1 t Hr); auto.
    + right. destruct HQ as [[_ [->|(ev & -> & _ & He)]]|[(i & t0 & x0 & Hi & Hq & -> & _)|(i & r & c & t0 & _ & _ & _ & -> & Hr)]].
      * apply elem_of_nil in Ht. destruct Ht.
      * apply elem_of_list_singleton in Ht. destruct (He t). auto.
      * apply elem_of_list_singleton in Ht. discriminate.
      * apply elem_of_list_singleton in Ht. injection Ht as ->. exact Hr.
Qed.
Lemma init_tinv c m : tinv [] (init c m).
Proof. split; try (intros; exfalso; eapply elem_of_nil; eassumption). intros tr1 tr2 x t He. destruct tr1; discriminate. Qed.

(** * Along an execution *)
Record inv (m : nat) (tr : list event) (s : st) : Prop := { v_base : base s; v_park : park s; v_join : jinv m tr s; v_task : tinv tr s; v_aw : ainv tr s; v_fin : finv tr s }.
Lemma init_inv c m : 0 < c -> c <= m -> inv m [] (init c m).
Proof. intros Hc Hm. split; auto using init_base, init_park, init_jinv, init_tinv, init_ainv. intros t Ht. apply elem_of_nil in Ht. destruct Ht. Qed.
Lemma run_inv m ls : forall tr s s' e, inv m tr s -> run m s ls = Some (s', e) -> inv m (tr ++ e) s'.
Proof.
  induction ls as [|l ls IH]; simpl; intros tr s s' e Hi Hr.
  - injection Hr as <- <-. rewrite app_nil_r. exact Hi.
  - destruct (step m s l) as [[s1 e1]|] eqn:Es; [|discriminate]. destruct (run m s1 ls) as [[s2 e2]|] eqn:Er; [|discriminate]. injection Hr as <- <-.
    rewrite app_assoc. eapply IH; [|exact Er]. destruct Hi. split; [eapply step_base|eapply step_park|eapply step_jinv|eapply step_tinv|eapply step_ainv|eapply step_finv]; eauto.
Qed.
Lemma run_init m c ls s tr : 0 < c -> c <= m -> run m (init c m) ls = Some (s, tr) -> inv m tr s.
Proof. intros Hc Hm Hr. apply (run_inv m ls [] (init c m) s tr); [|exact Hr]. apply init_inv; auto. Qed.
Lemma run_wat m ls : forall tr s s' e, inv m tr s -> wat s -> run m s ls = Some (s', e) -> Missed ∉ e -> wat s'.
Proof.
  induction ls as [|l ls IH]; simpl; intros tr s s' e Hi Hw Hr Hm.
  - injection Hr as <- <-. exact Hw.
  - destruct (step m s l) as [[s1 e1]|] eqn:Es; [|discriminate]. destruct (run m s1 ls) as [[s2 e2]|] eqn:Er; [|discriminate]. injection Hr as <- <-.
    rewrite elem_of_app in Hm. eapply (IH (tr ++ e1)); [|eapply step_wat; [apply Hi|apply Hi|exact Hw|exact Es|tauto]|exact Er|tauto].
    destruct Hi. split; [eapply step_base|eapply step_park|eapply step_jinv|eapply step_tinv|eapply step_ainv|eapply step_finv]; eauto.
Qed.

(** * When join has returned *)
Lemma returned m tr s : inv m tr s -> Late ∉ tr -> Returned ∈ tr -> all_exited s.
Proof. intros [_ _ Hj _ _ _] Hl Hr. apply (j_end _ _ _ Hj); [|exact Hl]. apply (j_ret _ _ _ Hj), Hr. Qed.
Lemma not_running s t : all_exited s -> running s t -> False.
Proof. intros Hx (k & a & Hk). pose proof (Hx k (lookup_lt_Some _ _ _ Hk)). congruence. Qed.
Lemma safe m c ls s tr : 0 < c -> c <= m -> run m (init c m) ls = Some (s, tr) -> Late ∉ tr -> bad s = false.
Proof. intros Hc Hm Hr. apply (j_bad _ _ _ (v_join _ _ _ (run_init _ _ _ _ _ Hc Hm Hr))). Qed.
Lemma last_event m c ls s tr : 0 < c -> c <= m -> run m (init c m) ls = Some (s, tr) -> Late ∉ tr ->
  forall tr1 tr2, tr = tr1 ++ Returned :: tr2 -> tr2 = [].
Proof.
  intros Hc Hm Hr Hl tr1 tr2 He. pose proof (run_init _ _ _ _ _ Hc Hm Hr) as [_ _ Hj _ _ _].
  assert (Hret : Returned ∈ tr) by (rewrite He; apply elem_of_app; right; left).
  apply (j_ret _ _ _ Hj) in Hret. destruct (j_end _ _ _ Hj Hret Hl) as (_ & tr0 & Htr & Hn).
  destruct tr2 as [|ev tr2] using rev_ind; [reflexivity|]. exfalso. rewrite He, app_comm_cons, app_assoc in Htr. apply app_inj_tail in Htr as [<- _]. apply Hn, elem_of_app. right. left.
Qed.
Lemma before m c ls s tr : 0 < c -> c <= m -> run m (init c m) ls = Some (s, tr) -> Late ∉ tr -> Returned ∈ tr ->
  forall tr1 tr2 x t, tr = tr1 ++ Called :: tr2 -> Pushed x t ∈ tr1 -> Ended t ∈ tr.
Proof.
  intros Hc Hm Hr Hl Hret tr1 tr2 x t He Ht. pose proof (run_init _ _ _ _ _ Hc Hm Hr) as Hi. pose proof (returned _ _ _ Hi Hl Hret) as Hx. destruct Hi as [Hb _ _ Ht' _ _].
  assert (Hs : Started t ∈ tr).
  { destruct (i_pre _ _ Ht' _ _ _ _ He Ht) as [|(j & q & Hq & _ & Hn)]; [assumption|]. exfalso. apply Hn, Hx. apply lookup_lt_Some in Hq.
    pose proof (b_cnt _ Hb) as Hcn. unfold count in Hcn. lia. }
  destruct (i_run _ _ Ht' t Hs) as [|Hrun]; [assumption|]. destruct (not_running _ _ Hx Hrun).
Qed.
Lemma all_tasks m c ls s tr : 0 < c -> c <= m -> run m (init c m) ls = Some (s, tr) -> Late ∉ tr -> Missed ∉ tr -> Returned ∈ tr ->
  forall x t, Pushed x t ∈ tr -> Ended t ∈ tr.
Proof.
  intros Hc Hm Hr Hl Hms Hret x t Ht. pose proof (run_init _ _ _ _ _ Hc Hm Hr) as Hi. pose proof (returned _ _ _ Hi Hl Hret) as Hx.
  assert (Hw : wat s). { eapply (run_wat m ls []); [exact (init_inv c m Hc Hm)|apply init_wat|exact Hr|exact Hms]. }
  destruct Hi as [Hb _ _ Ht' _ _].
  assert (Hs : Started t ∈ tr).
  { destruct (i_queued _ _ Ht' _ _ Ht) as [|(j & q & Hq & Hin)]; [assumption|]. exfalso. apply lookup_lt_Some in Hq as Hlt.
    destruct (Hw j Hlt) as (k & p & Hk & Hlk).
    - unfold nothing. rewrite Hq. destruct q; [apply elem_of_nil in Hin; destruct Hin|reflexivity].
    - pose proof (Hx k (lookup_lt_Some _ _ _ Hk)) as Hxk. rewrite Hk in Hxk. injection Hxk as ->. destruct Hlk as [[_ ?]|[]]. congruence. }
  destruct (i_run _ _ Ht' t Hs) as [|Hrun]; [assumption|]. destruct (not_running _ _ Hx Hrun).
Qed.

(** * At rest *)
Lemma rest_act m s w a : bad s = false -> at_rest m s -> get w s = Some a ->
  (exists k, w = C k /\ a = User) \/ exists o, a = Blocked o /\ forall y, o = Some y -> y ∉ fin s.
Proof.
  intros Hb Hr Hg. assert (Hst : forall f, call m w f a s = None).
  { intros f. specialize (Hr (Step w f) I). unfold step in Hr. rewrite Hb, Hg in Hr. exact Hr. }
  unfold call in Hst. destruct (uses a && cleared s); [discriminate (Hst true)|]. destruct a as [|t i n|t i|j k|n o|n l o|o|o].
  - destruct w as [k|k]; [|eauto]. exfalso. rewrite get_T in Hg. specialize (Hr (End k) I). unfold step in Hr. rewrite Hb in Hr.
    destruct (thr s !! k) as [[| | | |t b]|]; try discriminate. injection Hg as ->. discriminate.
  - discriminate (Hst false).
  - discriminate (Hst false).
  - discriminate (Hst false).
  - specialize (Hst true). destruct (n =? count s); discriminate.
  - specialize (Hst true). destruct (n =? l); discriminate.
  - specialize (Hst true). destruct (length (thr s) =? m); discriminate.
  - right. exists o. split; [reflexivity|]. intros y -> Hy. specialize (Hr (Resume w) I). unfold step in Hr. rewrite Hb, Hg in Hr.
    rewrite bool_decide_eq_true_2 in Hr by exact Hy. discriminate.
Qed.
Lemma eval_some k s : is_Some (eval_wait k 0 s).
Proof.
  unfold eval_wait. destruct ((k <? count s) && negb (nothing k s)) eqn:En.
  - apply andb_true_iff in En as [_ En]. apply negb_true_iff, nothing_false in En as (q & Hq & Hne). unfold take_from. simpl. rewrite Hq. destruct q as [|t q]; [congruence|]. eauto.
  - destruct (is_done k s); [eauto|]. destruct (flag s !! k) as [[]|]; eauto.
Qed.
Lemma rest_thr m s k p : bad s = false -> at_rest m s -> thr s !! k = Some p ->
  p = Wait false \/ p = Exited \/ exists t o, p = Run t (Blocked o) /\ forall y, o = Some y -> y ∉ fin s.
Proof.
  intros Hb Hr Hk. assert (Hst : poll k true 0 s = None). { specialize (Hr (Poll k true 0) I). unfold step in Hr. rewrite Hb in Hr. exact Hr. }
  unfold poll in Hst. rewrite Hk in Hst. destruct p as [n| |b| |t a]; auto.
  - destruct (cleared s); discriminate.
  - destruct (cleared s && _); [discriminate|]. destruct (eval_some k (set_flag k true s)) as [? Hx]. congruence.
  - destruct b; [|auto]. destruct (cleared s && _); [discriminate|]. destruct (eval_some k s) as [? Hx]. congruence.
  - right. right. assert (Hg : get (T k) s = Some a) by (rewrite get_T, Hk; reflexivity). destruct (rest_act m s _ _ Hb Hr Hg) as [(k' & ? & _)|(o & -> & Ho)]; [discriminate|]. eauto.
Qed.
Lemma rest_join m s : bad s = false -> at_rest m s ->
  jn s = JEnd \/ exists k e, jn s = JWait k e /\ k <> e /\ thr s !! k <> Some Exited.
Proof.
  intros Hb Hr. assert (Hst : join m s = None). { specialize (Hr Join I). unfold step in Hr. rewrite Hb in Hr. exact Hr. }
  unfold join in Hst. destruct (jn s) as [|j|j| |k e0|] eqn:Ej; try discriminate; [| | |auto].
  - destruct (forallb out (cl s)) eqn:Eo; [discriminate|]. exfalso. enough (forallb out (cl s) = true) by congruence. apply forallb_forall. intros a Ha.
    apply elem_of_list_In, elem_of_list_lookup in Ha as [k Hk]. destruct (rest_act m s (C k) a Hb Hr Hk) as [(? & _ & ->)|(o & -> & _)]; reflexivity.
  - destruct (j =? m); discriminate.
  - right. exists k, e0. split; [reflexivity|]. destruct (k =? e0) eqn:Ek; [discriminate|]. apply Nat.eqb_neq in Ek. split; [exact Ek|]. intros Hx. rewrite Hx in Hst. discriminate.
Qed.
Lemma rest m c ls s tr : 0 < c -> c <= m -> run m (init c m) ls = Some (s, tr) -> bad s = false -> at_rest m s ->
  Called ∈ tr /\ (Returned ∈ tr \/ exists k t o, thr s !! k = Some (Run t (Blocked o)) /\ Awaits (Some t) o ∈ tr /\ forall y, o = Some y -> Ended y ∉ tr).
Proof.
  intros Hc Hm Hr Hb Hrest. destruct (run_init _ _ _ _ _ Hc Hm Hr) as [_ Hp Hj _ Ha Hf].
  destruct (rest_join m s Hb Hrest) as [He|(k & e & He & Hne & Hx)].
  - split; [apply (j_called _ _ _ Hj); unfold called; rewrite He; reflexivity|]. left. apply (j_ret _ _ _ Hj), He.
  - split; [apply (j_called _ _ _ Hj); unfold called; rewrite He; reflexivity|]. right. destruct (j_wait _ _ _ Hj _ _ He) as (W1 & _ & _).
    pose proof (j_len _ _ _ Hj) as Hlen. pose proof (j_done _ _ _ Hj) as Hd. rewrite He in Hd.
    assert (Hlt : k < length (thr s)) by lia. apply lookup_lt_is_Some in Hlt as [p Hpk]. assert (Hdk : is_done k s = true) by (apply Hd; lia).
    destruct (rest_thr m s k p Hb Hrest Hpk) as [->|[->|(t & o & -> & Ho)]]; [|congruence|].
    + exfalso. destruct (Hp k Hpk (or_intror (or_intror Hdk))) as [(w & kk & Hg)|Hx']; [|congruence].
      destruct (rest_act m s w _ Hb Hrest Hg) as [(? & _ & ?)|(? & ? & _)]; discriminate.
    + exists k, t, o. split; [exact Hpk|]. split.
      * assert (Hg : get (T k) s = Some (Blocked o)) by (rewrite get_T, Hpk; reflexivity). specialize (Ha (T k) _ o Hg eq_refl). simpl in Ha. rewrite Hpk in Ha. exact Ha.
      * intros y Hy Hx'. exact (Ho y Hy (Hf y Hx')).
Qed.

(** * Deciding these for given states and traces *)
Global Instance event_dec : EqDecision event.
Proof. solve_decision. Defined.
Definition restp (s : st) (p : pos) : bool :=
  match p with
  | Wait false | Exited => true
  | Run _ (Blocked o) => match o with None => true | Some y => bool_decide (y ∉ fin s) end
  | _ => false
  end.
Definition resta (s : st) (a : act) : bool :=
  match a with
  | User => true
  | Blocked o => match o with None => true | Some y => bool_decide (y ∉ fin s) end
  | _ => false
  end.
Definition restb (m : nat) (s : st) : bool := forallb (restp s) (thr s) && forallb (resta s) (cl s) && match join m s with None => true | _ => false end.
Lemma restb_ok m s : restb m s = true -> at_rest m s.
Proof.
  intros H. apply andb_true_iff in H as [H H3]. apply andb_true_iff in H as [H1 H2]. rewrite forallb_forall in H1, H2.
  assert (HT : forall k p, thr s !! k = Some p -> restp s p = true) by (intros k p Hk; apply H1, elem_of_list_In, elem_of_list_lookup; eauto).
  assert (HC : forall k a, cl s !! k = Some a -> resta s a = true) by (intros k a Hk; apply H2, elem_of_list_In, elem_of_list_lookup; eauto).
  assert (HG : forall w a, get w s = Some a -> a = User \/ exists o, a = Blocked o /\ forall y, o = Some y -> y ∉ fin s).
  { intros [k|k] a Hg.
    - rewrite get_T in Hg. destruct (thr s !! k) as [[| | | |t b]|] eqn:E; try discriminate. injection Hg as ->. specialize (HT k _ E). simpl in HT.
      destruct a as [| | | | | | |[y|]]; try discriminate; right; eexists; (split; [reflexivity|]); [|discriminate]. intros y' [= <-]. apply bool_decide_eq_true in HT. exact HT.
    - unfold get in Hg. specialize (HC k _ Hg). destruct a as [| | | | | | |[y|]]; try discriminate; [auto| |]; right; eexists; (split; [reflexivity|]); [|discriminate].
      intros y' [= <-]. apply bool_decide_eq_true in HC. exact HC. }
  intros l Hl. unfold step. destruct (bad s); [reflexivity|]. destruct l as [|w|w o|w|w f|k f c|k|w|k|]; simpl in Hl; try contradiction.
  - destruct (get w s) as [a|] eqn:E; [|reflexivity]. destruct (HG w a E) as [->|(o & -> & _)]; reflexivity.
  - unfold poll. destruct (thr s !! k) as [p|] eqn:E; [|reflexivity]. specialize (HT k p E). destruct p as [| |[]| |]; try discriminate HT; reflexivity.
  - destruct (thr s !! k) as [p|] eqn:E; [|reflexivity]. specialize (HT k p E). destruct p as [| | | |t []]; try discriminate HT; reflexivity.
  - destruct (get w s) as [a|] eqn:E; [|reflexivity]. destruct (HG w a E) as [->|(o & -> & Ho)]; [reflexivity|]. destruct o as [y|]; [|reflexivity].
    rewrite bool_decide_eq_false_2; [reflexivity|]. apply Ho. reflexivity.
  - destruct (join m s); [discriminate|reflexivity].
Qed.
Fixpoint structb (pre tr : list event) : bool :=
  match tr with
  | [] => true
  | ev :: tr' => match ev with
                 | Awaits (Some x) o => match o with Some y => bool_decide (Pushed (Some x) y ∈ pre) | None => false end
                 | _ => true
                 end && structb (pre ++ [ev]) tr'
  end.
Lemma structb_ok tr : structb [] tr = true -> structured tr.
Proof.
  assert (H : forall tr pre, structb pre tr = true -> forall tr1 x o tr2, tr = tr1 ++ Awaits (Some x) o :: tr2 -> exists y, o = Some y /\ Pushed (Some x) y ∈ pre ++ tr1).
  { induction tr0 as [|ev tr0 IH]; intros pre Hs tr1 x o tr2 He; [destruct tr1; discriminate|]. simpl in Hs. apply andb_true_iff in Hs as [Hs1 Hs2].
    destruct tr1 as [|ev1 tr1]; injection He as -> He.
    - destruct o as [y|]; [|discriminate]. apply bool_decide_eq_true in Hs1. rewrite app_nil_r. eauto.
    - destruct (IH _ Hs2 _ _ _ _ He) as (y & -> & Hy). rewrite <- app_assoc in Hy. eauto. }
  intros Hs tr1 x o tr2 He. exact (H tr [] Hs tr1 x o tr2 He).
Qed.
