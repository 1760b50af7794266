(** What is observed, related to the state. *)
From Coq Require Import List Bool Arith Lia.
From stdpp Require Import list.
From Verif.Lone Require Import Model Spec Inv.

Definition incall (p : pc) : nat := match p with JCall _ => 1 | _ => 0 end.
Definition restart (p : pc) : nat := match p with JRun | JDone => 1 | _ => 0 end.
Definition on_way (p : pc) : list outcome := match p with JBcast o | JSusp o | JSend o => [o] | _ => [] end.
Definition flight (l : list pc) : list outcome := flat_map on_way l.
Definition gone (s : st) : bool := final s && (total ending (jobs s) =? 0) && (total closing (jobs s) =? 0).
Record tinv (s : st) (tr : list event) : Prop := {
  t_queue : sent tr = began tr ++ queue s;
  t_res : length (results tr) + total incall (jobs s) = length (began tr);
  t_early : rcount s <> 0 -> began tr = [];
  t_ids : attached tr = seq 0 (next s);
  t_down : down s = if gone s then None else last (attached tr);
  t_del : match last (attached tr) with
          | None => delivered tr = []
          | Some d => Forall (fun p => fst p = d) (delivered tr) /\ results tr = map snd (delivered tr) ++ flight (jobs s)
          end;
  t_dropped : length (dropped tr) = one (scount s =? 0);
  t_closed : closed tr = if gone s then attached tr else removelast (attached tr);
  t_alone : attached tr = [] -> began tr = [] \/ (length (began tr) = 1 /\ running s = true /\ final s = false /\ total restart (jobs s) = 0)
}.
Lemma init_tinv : tinv init [].
Proof. split; cbn; try done. by left. Qed.
Lemma flight_cons p l : flight (p :: l) = on_way p ++ flight l.
Proof. done. Qed.
Lemma flight_delete k p l : l !! k = Some p -> on_way p = [] -> flight (delete k l) = flight l.
Proof.
  revert k. induction l as [|x l IH]; intros [|k] H E; cbn in H; try done.
  - injection H as ->. change (delete 0 (p :: l)) with l. by rewrite flight_cons, E.
  - change (delete (S k) (x :: l)) with (x :: delete k l). rewrite !flight_cons. f_equal. by apply IH.
Qed.
Lemma flight_none l : total early l = 0 -> total sending l = 0 -> flight l = [].
Proof. induction l as [|p l IH]; [done|]. cbn [total]. intros A B. rewrite flight_cons, IH by lia. destruct p; cbn in *; done || lia. Qed.
Lemma flight_one k p l : l !! k = Some p -> total early l + total sending l <= 1 -> 0 < early p + sending p -> flight l = on_way p /\ flight (delete k l) = [].
Proof.
  revert k. induction l as [|x l IH]; intros [|k] H E P; cbn in H; try done; cbn [total] in E.
  - injection H as ->. change (delete 0 (p :: l)) with l. rewrite flight_cons, (flight_none l) by lia. by rewrite app_nil_r.
  - change (delete (S k) (x :: l)) with (x :: delete k l). pose proof (total_in early k p l H). pose proof (total_in sending k p l H). rewrite !flight_cons.
    destruct (IH k H) as [-> ->]; [lia|done|]. destruct x; cbn in *; try lia; done.
Qed.
Lemma flight_snoc l p : flight (l ++ [p]) = flight l ++ on_way p.
Proof. unfold flight. rewrite flat_map_app. cbn. by rewrite app_nil_r. Qed.
(** one job at most is on the way to the end of a broadcast *)
Lemma single s : inv s -> total early (jobs s) + total sending (jobs s) <= 1.
Proof. intros [[I|I] _ _ _ _]; [unfold idle in I; lia|]. destruct I as (_ & _ & _ & B). cases B; lia. Qed.
Ltac proj tr := unfold sent, began, results, delivered, attached, closed, dropped; rewrite ?flat_map_app; cbn [flat_map app]; rewrite ?app_nil_r;
  fold (sent tr) (began tr) (results tr) (delivered tr) (attached tr) (closed tr) (dropped tr).

Lemma gone_final s : final s = false -> gone s = false.
Proof. unfold gone. by intros ->. Qed.
(** a step that nobody observes, of a process that is not closed *)
Lemma quiet s s' tr : tinv s tr -> final s = false -> final s' = false -> queue s' = queue s -> rcount s' = rcount s -> next s' = next s ->
  down s' = down s -> scount s' = scount s -> total incall (jobs s') = total incall (jobs s) -> flight (jobs s') = flight (jobs s) ->
  (attached tr = [] -> began tr <> [] -> total restart (jobs s) = 0 -> running s = true -> running s' = true /\ total restart (jobs s') = 0) -> tinv s' tr.
Proof.
  intros [T1 T2 T3 T4 T5 T6 T7 T8 T9] F F' Q R N D S C L A. rewrite (gone_final s F) in *. split; rewrite ?(gone_final s' F'); try congruence.
  - rewrite R. done.
  - rewrite L. done.
  - intros E. destruct (T9 E) as [|(X1 & X2 & X3 & X4)]; [by left|]. right. destruct A as [Y1 Y2]; try done. intros Z. by rewrite Z in X1.
Qed.
Lemma restart_le l : total restart l <= total early l + total ending l.
Proof. induction l as [|p l IH]; cbn; [lia|]. destruct p; cbn in *; lia. Qed.
Lemma last_removelast {A} (l : list A) d : last l = Some d -> l = removelast l ++ [d].
Proof.
  induction l as [|x l IH]; [done|]. destruct l as [|y l]; [by intros [= ->]|]. intros H. change (removelast (x :: y :: l)) with (x :: removelast (y :: l)).
  cbn [app]. f_equal. by apply IH.
Qed.
Lemma removelast_snoc {A} (l : list A) d : removelast (l ++ [d]) = l.
Proof. apply removelast_last. Qed.
Lemma one_zero b : one b = 0 -> b = false.
Proof. by destruct b. Qed.
Lemma job_tinv s k p s' ev tr : inv s -> tinv s tr -> jobs s !! k = Some p -> job_step p (set_jobs (delete k (jobs s)) s) = Some (s', ev) -> tinv s' (tr ++ ev).
Proof.
  intros I T H J. pose proof (single s I) as Si. pose proof (i_phase s I) as Ph.
  pose proof (total_delete incall k _ _ H) as X1. pose proof (total_delete restart k _ _ H) as X2. counts k H.
  assert (p <> JFinal -> busy s) as B.
  { intros N. destruct Ph as [(R & A1 & A2 & A3 & A4 & A5 & A6 & A7 & A8 & A9)|]; [|done]. destruct p; norm; try lia; done. }
  assert (due s <= 1) as Du by (unfold due; destruct (down s); lia).
  destruct p; cbn [job_step] in J; norm; cbn [incall restart] in *; try done; try specialize (B ltac:(done)).
  - destruct B as (R & Z & F & B). cases B. apply one_zero in B7. pose proof (gone_final s B7) as G.
    pose proof (flight_one k JRun _ H ltac:(lia) ltac:(cbn; lia)) as [L1 L2]. cbn in L1.
    destruct T as [T1 T2 T3 T4 T5 T6 T7 T8 T9]. rewrite G in *. destruct (queue s) as [|v q] eqn:Q; injection J as <- <-.
    + assert (gone (add_job JDone (set_close false (closeq s) (set_jobs (delete k (jobs s)) s))) = false) as G'.
      { unfold gone. norm. rewrite total_add. cbn [ending]. by rewrite andb_false_r. }
      rewrite app_nil_r. split; rewrite ?G'; norm; rewrite ?total_add, ?flight_snoc; cbn [incall on_way restart app]; rewrite ?app_nil_r, ?Q; try done; try lia.
      * by rewrite L2, <- L1.
      * intros E. destruct (T9 E) as [|(Y1 & Y2 & Y3 & Y4)]; [by left|]. lia.
    + assert (gone (add_job (JCall v) (set_queue q (set_jobs (delete k (jobs s)) s))) = false) as G' by (by apply gone_final).
      split; rewrite ?G'; norm; rewrite ?total_add, ?flight_snoc; cbn [incall on_way restart app]; rewrite ?app_nil_r; proj tr; try done; try lia.
      * rewrite <- app_assoc. done.
      * rewrite app_length. cbn. lia.
      * fold (attached tr) (delivered tr) (results tr) in *. by rewrite L2, <- L1.
      * intros E. destruct (T9 E) as [Y|(Y1 & Y2 & Y3 & Y4)]; [|lia]. right. rewrite Y. split; [done|]. split; [done|]. split; [done|]. cbn [restart Nat.add]. pose proof (restart_le (delete k (jobs s))). lia.
  - destruct B as (R & Z & F & B). cases B. apply one_zero in B7. injection J as <- <-. rewrite app_nil_r.
    pose proof (flight_one k (JBcast o) _ H ltac:(lia) ltac:(cbn; lia)) as [L1 L2].
    apply (quiet s); norm; rewrite ?total_add, ?flight_snoc, ?L1, ?L2; cbn; try done; try lia; intros; first [contradiction|split; [done|lia]].
  - destruct B as (R & Z & F & B). cases B. apply one_zero in B7. injection J as <- <-. rewrite app_nil_r.
    pose proof (flight_one k (JSusp o) _ H ltac:(lia) ltac:(cbn; lia)) as [L1 L2].
    apply (quiet s); norm; rewrite ?total_add, ?flight_snoc, ?L1, ?L2; cbn; try done; try lia; intros; first [contradiction|split; [done|lia]].
  - destruct B as (R & Z & F & B). cases B. apply one_zero in B7. pose proof (gone_final s B7) as G.
    pose proof (flight_one k (JSend o) _ H ltac:(lia) ltac:(cbn; lia)) as [L1 L2]. cbn in L1.
    destruct T as [T1 T2 T3 T4 T5 T6 T7 T8 T9]. rewrite G in *. destruct (down s) as [d|] eqn:D; injection J as <- <-.
    + assert (gone (add_job JSelf (set_owed (owed s ++ [d]) (set_jobs (delete k (jobs s)) s))) = false) as G' by (by apply gone_final).
      split; rewrite ?G'; norm; rewrite ?total_add, ?flight_snoc; cbn [incall on_way restart app]; rewrite ?app_nil_r; proj tr; try done; try lia; try congruence.
      * fold (attached tr) (delivered tr) (results tr) in *. rewrite <- T5 in *. rewrite L2, map_app. cbn. rewrite app_nil_r. destruct T6 as [T6 T6']. split.
        -- apply Forall_app. split; [done|]. by constructor.
        -- by rewrite T6', L1.
      * intros E. fold (attached tr) in *. rewrite E in T5. done.
    + assert (gone (add_job JSelf (set_jobs (delete k (jobs s)) s)) = false) as G' by (by apply gone_final).
      split; rewrite ?G'; norm; rewrite ?total_add, ?flight_snoc; cbn [incall on_way restart app]; rewrite ?app_nil_r; try done; try lia; try congruence.
      * by rewrite <- T5 in *.
      * intros E. destruct (T9 E) as [|(Y1 & Y2 & Y3 & Y4)]; [by left|]. right. split_and!; try done. lia.
  - destruct B as (R & Z & F & B). cases B. apply one_zero in B7. rewrite B7 in J. injection J as <- <-. rewrite app_nil_r.
    apply (quiet s); norm; rewrite ?total_add, ?flight_snoc, ?(flight_delete k JSelf) by done; cbn; rewrite ?app_nil_r; try done; try lia; intros; first [contradiction|split; [done|lia]].
  - destruct B as (R & Z & F & B). cases B. apply one_zero in B7. injection J as <- <-. rewrite app_nil_r. unfold clear2. norm.
    pose proof (flight_delete k JSelf2 _ H ltac:(done)) as L.
    destruct (pred (susp s)) as [|n] eqn:S; [|apply (quiet s); norm; rewrite ?L; try done; try lia; intros; split; [done|lia]].
    assert (attached tr <> []) as At. { intros E. pose proof (t_down s tr T) as D. rewrite (gone_final s B7), E in D. cbn in D. unfold due in B5. rewrite D in B5. lia. }
    destruct (negb (is_nil (queue s)) || closeq s); apply (quiet s); norm; rewrite ?total_add, ?flight_snoc, ?L; cbn; rewrite ?app_nil_r; try done; try lia; intros; first [contradiction|split; [done|lia]].
  - destruct B as (R & Z & F & B). cases B. injection J as <- <-. rewrite app_nil_r. destruct T as [T1 T2 T3 T4 T5 T6 T7 T8 T9].
    pose proof (flight_delete k JDone _ H ltac:(done)) as L.
    assert (gone s = false) as G. { unfold gone. rewrite B2. by rewrite andb_false_r. }
    rewrite G in *.
    assert (attached tr = [] -> began tr = []) as T9'. { intros E. destruct (T9 E) as [|(Y1 & Y2 & Y3 & Y4)]; [done|lia]. }
    destruct (final s) eqn:Fi.
    + destruct (i_final s I Fi) as [Q Cl]. rewrite Q, Cl. cbn [is_nil negb orb run_if]. norm. rewrite Fi.
      assert (gone (add_job JFinal (set_running false (set_jobs (delete k (jobs s)) s))) = false) as G'.
      { unfold gone. norm. rewrite !total_add. cbn [closing]. by rewrite andb_false_r. }
      split; rewrite ?G'; norm; rewrite ?total_add, ?flight_snoc, ?L; cbn [incall on_way restart app]; rewrite ?app_nil_r; try done; try lia. by left; auto.
    + assert (forall b, tinv (run_if b (set_running b (set_jobs (delete k (jobs s)) s))) tr) as Y.
      { intros b. assert (gone (run_if b (set_running b (set_jobs (delete k (jobs s)) s))) = false) as G' by (apply gone_final; by destruct b).
        split; rewrite ?G'; destruct b; norm; rewrite ?total_add, ?flight_snoc, ?L; cbn [incall on_way restart app]; rewrite ?app_nil_r; try done; try lia; by left; auto. }
      destruct (negb (is_nil (queue s)) || closeq s); cbn [run_if]; norm; rewrite Fi; [apply (Y true)|apply (Y false)].
  - destruct Ph as [(R & A1 & A2 & A3 & A4 & A5 & A6 & A7 & A8 & A9)|(R & Z & F & B')]; [|lia].
    assert (final s = true) as Fi by (destruct (final s); [done|cbn in A8; lia]). rewrite Fi in A8. cbn in A8. injection J as <- <-.
    destruct T as [T1 T2 T3 T4 T5 T6 T7 T8 T9]. pose proof (flight_delete k JFinal _ H ltac:(done)) as L.
    assert (gone s = false) as G. { unfold gone. replace (total closing (jobs s)) with 1 by lia. by rewrite andb_false_r. }
    rewrite G in *.
    assert (attached tr = [] -> began tr = []) as T9'. { intros E. destruct (T9 E) as [|(Y1 & Y2 & Y3 & Y4)]; [done|by rewrite Fi in Y3]. }
    assert (gone (set_down None (next s) (set_jobs (delete k (jobs s)) s)) = true) as G'.
    { unfold gone. norm. rewrite Fi. replace (total ending (delete k (jobs s))) with 0 by lia. by replace (total closing (delete k (jobs s))) with 0 by lia. }
    assert (closed tr ++ match down s with Some d => [d] | None => [] end = attached tr) as Cl.
    { rewrite T8, T5. destruct (last (attached tr)) as [d|] eqn:E; [by rewrite <- last_removelast|]. apply last_None in E. by rewrite E. }
    split; rewrite ?G'; norm; rewrite ?L; destruct (down s) as [d|]; proj tr; try done; try lia; first [exact Cl|by rewrite app_nil_r in Cl|intros E; left; exact (T9' E)].
  - destruct B as (R & Z & F & B). assert (final s = false) as Fi by (cases B; by apply one_zero). rewrite Fi in J. injection J as <- <-. rewrite app_nil_r.
    apply (quiet s); norm; rewrite ?total_add, ?flight_snoc, ?(flight_delete k JCts) by done; cbn; rewrite ?app_nil_r; try done; try lia; intros; first [contradiction|split; [done|lia]].
  - destruct B as (R & Z & F & B). assert (final s = false) as Fi by (cases B; by apply one_zero). injection J as <- <-. rewrite app_nil_r. unfold clear2. norm.
    pose proof (flight_delete k JCts2 _ H ltac:(done)) as L.
    destruct (pred (susp s)) as [|n] eqn:S; [|apply (quiet s); norm; rewrite ?L; try done; try lia; intros; split; [done|lia]].
    assert (attached tr <> []) as At. { intros E. pose proof (t_down s tr T) as D. rewrite (gone_final s Fi), E in D. cbn in D. unfold due in B. rewrite D in B. cases B; lia. }
    destruct (negb (is_nil (queue s)) || closeq s); apply (quiet s); norm; rewrite ?total_add, ?flight_snoc, ?L; cbn; rewrite ?app_nil_r; try done; try lia; intros; first [contradiction|split; [done|lia]].
Qed.
Lemma step_tinv s l s' ev tr : inv s -> tinv s tr -> step s l = Some (s', ev) -> tinv s' (tr ++ ev).
Proof.
  intros I T H. pose proof (i_close s I) as Ic. pose proof (i_phase s I) as Ph.
  destruct l as [v| | | | | |k|k|k|k o]; cbn [step] in H.
  - destruct (scount s =? 0) eqn:S; [done|]. cbn [one] in Ic. assert (final s = false) as Fi by (apply one_zero; lia). pose proof (gone_final s Fi) as G.
    injection H as <- <-. destruct T as [T1 T2 T3 T4 T5 T6 T7 T8 T9]. rewrite G in *.
    set (b := (rcount s =? 0) && negb (running s)).
    assert (gone (run_if b (set_running (running s || b) (set_queue (queue s ++ [v]) s))) = false) as G' by (apply gone_final; by destruct b).
    assert (b = true -> running s = false) as Rb by (unfold b; by destruct (rcount s =? 0), (running s)).
    split; rewrite ?G'; destruct b; norm; rewrite ?total_add, ?flight_snoc; cbn [incall on_way restart app]; rewrite ?app_nil_r; proj tr; try done; try lia; try congruence.
    + by rewrite T1, app_assoc.
    + by rewrite T1, app_assoc.
    + intros E. destruct (T9 E) as [|(Y1 & Y2 & Y3 & Y4)]; [by left|]. rewrite (Rb eq_refl) in Y2. done.
    + intros E. destruct (T9 E) as [|(Y1 & Y2 & Y3 & Y4)]; [by left|]. right. rewrite Y2. done.
  - destruct (scount s =? 0) eqn:S; [done|]. injection H as <- <-. rewrite app_nil_r. destruct T as [T1 T2 T3 T4 T5 T6 T7 T8 T9]. split; norm; try done. by rewrite S in T7.
  - destruct (scount s) as [|[|n]] eqn:S; [done| |]; injection H as <- <-; destruct T as [T1 T2 T3 T4 T5 T6 T7 T8 T9]; rewrite S in T7; cbn in T7.
    + split; norm; proj tr; try done. rewrite app_length. cbn. lia.
    + rewrite app_nil_r. split; norm; done.
  - destruct (rcount s) as [|[|n]] eqn:S; [done| |]; injection H as <- <-; rewrite app_nil_r; destruct T as [T1 T2 T3 T4 T5 T6 T7 T8 T9]; split; norm; try done.
    intros _. apply T3. lia.
  - destruct (rcount s =? 0) eqn:S; [done|]. apply Nat.eqb_neq in S. injection H as <- <-. rewrite app_nil_r. destruct T as [T1 T2 T3 T4 T5 T6 T7 T8 T9]. split; norm; try done. auto.
  - destruct (rcount s =? 0) eqn:S; [done|]. apply Nat.eqb_neq in S. injection H as <- <-. destruct T as [T1 T2 T3 T4 T5 T6 T7 T8 T9].
    pose proof (i_early s I S) as Fi. pose proof (gone_final s Fi) as G. rewrite G in *. specialize (T3 S).
    assert (results tr = []) as Re by (apply nil_length_inv; rewrite T3 in T2; cbn in T2; lia).
    assert (delivered tr = []) as De. { destruct (last (attached tr)); [|done]. destruct T6 as [_ T6]. rewrite Re in T6. by destruct (delivered tr). }
    assert (flight (jobs s) = []) as Fl.
    { destruct Ph as [(R & A1 & A2 & A3 & A4 & A5 & A6 & A7 & A8 & A9)|(R & Z & F & B')]; [|done]. by apply flight_none. }
    assert (gone (set_down (Some (next s)) (Datatypes.S (next s)) s) = false) as G' by by apply gone_final.
    assert (forall x, attached (tr ++ x) = attached tr ++ attached x) as At by (intros; apply flat_map_app).
    set (ev := match down s with Some d => [Closed d; Attached (next s)] | None => [Attached (next s)] end).
    assert (attached (tr ++ ev) = attached tr ++ [next s]) as A1 by (rewrite At; unfold ev; by destruct (down s)).
    assert (sent (tr ++ ev) = sent tr /\ began (tr ++ ev) = began tr /\ results (tr ++ ev) = results tr /\ delivered (tr ++ ev) = delivered tr /\ dropped (tr ++ ev) = dropped tr) as (E1 & E2 & E3 & E4 & E5).
    { unfold ev. destruct (down s); proj tr; done. }
    split; rewrite ?G', ?A1, ?E1, ?E2, ?E3, ?E4, ?E5; norm; try done.
    + rewrite T4. by rewrite seq_S.
    + by rewrite last_snoc.
    + rewrite last_snoc, De, Re, Fl. done.
    + rewrite removelast_snoc. unfold ev. rewrite T5. destruct (last (attached tr)) as [d|] eqn:E; proj tr; rewrite T8.
      * by rewrite <- last_removelast.
      * apply last_None in E. by rewrite E.
    + intros E. by destruct (attached tr).
  - destruct (owed s !! k) as [d|] eqn:O; [|done]. injection H as <- <-. rewrite app_nil_r.
    destruct Ph as [(R & A1 & A2 & A3 & A4 & A5 & A6 & A7 & A8 & A9)|(R & Z & F & B)]; [by rewrite A6 in O|].
    assert (0 < length (owed s)) by (apply lookup_lt_Some in O; lia).
    assert (final s = false) as Fi by (cases B; by apply one_zero).
    apply (quiet s); norm; rewrite ?total_add, ?flight_snoc; cbn; rewrite ?app_nil_r; try done.
  - destruct (pends s !! k) as [p|] eqn:P; [|done]. injection H as <- <-. rewrite app_nil_r. destruct T as [T1 T2 T3 T4 T5 T6 T7 T8 T9].
    match goal with |- tinv (run_if ?b (set_running _ ?x)) tr => set (d := b); set (y := x) end.
    assert (d = true -> running s = false) as D.
    { unfold d. destruct p; norm; [by destruct (rcount s =? 0), (running s)|]. destruct (running s); [by rewrite andb_false_r|done]. }
    assert (queue y = queue s /\ running y = running s /\ rcount y = rcount s /\ next y = next s /\ down y = down s /\ scount y = scount s /\ jobs y = jobs s /\ final y = final s) as (Y1 & Y2 & Y3 & Y4 & Y5 & Y6 & Y7 & Y8).
    { unfold y. destruct p; done. }
    assert (gone (run_if d (set_running (running y || d) y)) = gone s) as G.
    { unfold gone. destruct d; norm; rewrite ?Y7, ?Y8, ?total_add; done. }
    split; rewrite ?G; destruct d; norm; rewrite ?Y1, ?Y2, ?Y3, ?Y4, ?Y5, ?Y6, ?Y7, ?Y8, ?total_add, ?flight_snoc; cbn [incall on_way restart app]; rewrite ?app_nil_r; try done; try lia.
    + intros E. destruct (T9 E) as [|(X1 & X2 & X3 & X4)]; [by left|]. rewrite (D eq_refl) in X2. done.
    + intros E. destruct (T9 E) as [|(X1 & X2 & X3 & X4)]; [by left|]. right. by rewrite X2.
  - destruct (jobs s !! k) as [p|] eqn:J; [|done]. by eapply job_tinv.
  - destruct (jobs s !! k) as [[| v| | | | | | | | | ]|] eqn:J; try done. injection H as <- <-.
    pose proof (total_delete incall k _ _ J) as X1. pose proof (total_delete restart k _ _ J) as X2. counts k J. norm. cbn [incall restart] in *.
    destruct Ph as [(R & A1 & A2 & A3 & A4 & A5 & A6 & A7 & A8 & A9)|(R & Z & F & B)]; [lia|]. cases B. apply one_zero in B7. pose proof (gone_final s B7) as G.
    pose proof (flight_one k (JCall v) _ J ltac:(lia) ltac:(cbn; lia)) as [L1 L2]. cbn in L1.
    destruct T as [T1 T2 T3 T4 T5 T6 T7 T8 T9]. rewrite G in *.
    assert (gone (add_job (JBcast o) (set_jobs (delete k (jobs s)) s)) = false) as G' by by apply gone_final.
    split; rewrite ?G'; norm; rewrite ?total_add, ?flight_snoc; cbn [incall on_way restart app]; rewrite ?app_nil_r; proj tr; try done; try lia.
    + rewrite app_length. cbn. lia.
    + rewrite L2. destruct (last (attached tr)); [|done]. destruct T6 as [T6 T6']. split; [done|]. rewrite T6', L1. by rewrite app_nil_r.
    + intros E. destruct (T9 E) as [|(Y1 & Y2 & Y3 & Y4)]; [by left|]. right. split_and!; try done. lia.
Qed.
Lemma run_tinv s ls s' tr tr0 : inv s -> tinv s tr0 -> run s ls = Some (s', tr) -> tinv s' (tr0 ++ tr).
Proof.
  revert s s' tr tr0. induction ls as [|l ls IH]; intros s s' tr tr0 I S R; cbn [run] in R; [injection R as <- <-; by rewrite app_nil_r|].
  destruct (step s l) as [[s1 ev]|] eqn:E; [|done]. destruct (run s1 ls) as [[s2 tr2]|] eqn:E2; [|done].
  injection R as <- <-. rewrite app_assoc. eapply IH; [| |done]; [by eapply step_inv|by eapply step_tinv].
Qed.
Lemma reach ls s tr : run init ls = Some (s, tr) -> inv s /\ tinv s tr.
Proof. intros R. split; [by apply (run_inv init ls s tr init_inv)|]. exact (run_tinv init ls s tr [] init_inv init_tinv R). Qed.
