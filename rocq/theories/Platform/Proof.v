(** Proofs about Platform. *)
From Coq Require Import List Bool ZArith Lia.
From stdpp Require Import list sets.
From Verif.Platform Require Import Model Spec.

(** ** time *)
Section time.
Open Scope Z_scope.
Lemma clock_split t : 0 <= t -> ((t / 86400 * 24 + t mod 86400 / 3600) * 60 + t mod 3600 / 60) * 60 + t mod 60 = t.
Proof. intros H. Z.div_mod_to_equations. lia. Qed.
Lemma filetime_in limit now d : 0 <= when_ now d -> when_ now d < (limit + 1) * 10000000 ->
  to_filetime limit now d = when_ now d / 10000 * 10000 + epoch.
Proof.
  intros H L. unfold to_filetime. set (w := when_ now d) in *. unfold time_t_, millis.
  rewrite !Z.quot_div_nonneg by lia. rewrite Z.rem_mod_nonneg; [|apply Z.div_pos; lia|lia]. unfold gmtime.
  assert (0 <= w / 10000000) by (apply Z.div_pos; lia).
  assert (w / 10000000 <= limit) by (apply Z.lt_succ_r, Z.div_lt_upper_bound; lia).
  rewrite (proj2 (Z.leb_le 0 _)) by done. rewrite (proj2 (Z.leb_le _ limit)) by done. simpl.
  unfold system_to_file. simpl. rewrite clock_split by done.
  assert (w / 10000 mod 1000 = w / 10000 - w / 10000000 * 1000) as ->; [|lia].
  replace (w / 10000000) with (w / 10000 / 1000) by (rewrite Z.div_div by lia; done). 
  pose proof (Z.div_mod (w / 10000) 1000). lia.
Qed.
Lemma early now d limit t : 0 <= now -> 0 <= d -> when_ now d < (limit + 1) * 10000000 -> may_begin limit now d t -> now * 100 + d - t * 100 < 1000000.
Proof.
  intros Hn Hd L [_ B]. assert (0 <= when_ now d) by (unfold when_; rewrite Z.quot_div_nonneg by lia; pose proof (Z.div_pos d 100); lia).
  rewrite filetime_in in B by done. assert (when_ now d / 10000 * 10000 <= t) by lia.
  pose proof (Z.div_mod (when_ now d) 10000). pose proof (Z.mod_pos_bound (when_ now d) 10000).
  unfold when_ in *. rewrite Z.quot_div_nonneg in * by lia. pose proof (Z.div_mod d 100). pose proof (Z.mod_pos_bound d 100). lia.
Qed.
Lemma exact_ now d limit t : 0 <= now -> 0 <= d -> when_ now d < (limit + 1) * 10000000 -> (1000000 | now * 100 + d) -> may_begin limit now d t -> now * 100 + d <= t * 100.
Proof.
  intros Hn Hd L [k D] [_ B]. assert (0 <= when_ now d) by (unfold when_; rewrite Z.quot_div_nonneg by lia; pose proof (Z.div_pos d 100); lia).
  rewrite filetime_in in B by done.
  assert (E : when_ now d = k * 10000).
  { unfold when_ in *. rewrite Z.quot_div_nonneg in * by lia. pose proof (Z.div_mod d 100). pose proof (Z.mod_pos_bound d 100). lia. }
  rewrite E, Z.div_mul in B by lia. lia.
Qed.
Lemma prompt now d limit t : 0 <= now -> 0 <= d -> now * 100 + d <= t * 100 -> may_begin limit now d t.
Proof.
  intros Hn Hd T. assert (Hw : 0 <= when_ now d /\ when_ now d <= t /\ now <= t).
  { unfold when_. rewrite Z.quot_div_nonneg by lia. pose proof (Z.div_mod d 100). pose proof (Z.mod_pos_bound d 100). pose proof (Z.div_pos d 100). lia. }
  split; [lia|]. destruct (Z.lt_ge_cases (when_ now d) ((limit + 1) * 10000000)) as [L|L].
  - rewrite filetime_in by lia. pose proof (Z.div_mod (when_ now d) 10000). pose proof (Z.mod_pos_bound (when_ now d) 10000). lia.
  - unfold to_filetime, gmtime, time_t_. rewrite Z.quot_div_nonneg by lia.
    assert (limit < when_ now d / 10000000) by (apply Z.lt_le_trans with (limit + 1); [lia|]; apply Z.div_le_lower_bound; lia).
    rewrite (proj2 (Z.leb_gt _ limit)) by done. rewrite andb_false_r. unfold epoch. lia.
Qed.
Lemma far now d limit : 0 <= now -> (limit + 1) * 10000000 <= when_ now d -> 0 <= when_ now d -> may_begin limit now d now.
Proof.
  intros Hn L Hw. split; [lia|]. unfold to_filetime, gmtime, time_t_. rewrite Z.quot_div_nonneg by lia.
  assert (limit < when_ now d / 10000000) by (apply Z.lt_le_trans with (limit + 1); [lia|]; apply Z.div_le_lower_bound; lia).
  rewrite (proj2 (Z.leb_gt _ limit)) by done. rewrite andb_false_r. unfold epoch. lia.
Qed.
Lemma in_order limit now d now' d' t : 0 <= now -> 0 <= d -> now <= now' -> now * 100 + d <= now' * 100 + d' -> 0 <= d' ->
  when_ now' d' < (limit + 1) * 10000000 -> may_begin limit now' d' t -> may_begin limit now d t.
Proof.
  intros Hn Hd Hn' Hle Hd' L [B1 B2].
  assert (H : 0 <= when_ now d <= when_ now' d').
  { unfold when_. rewrite !Z.quot_div_nonneg by lia. pose proof (Z.div_pos d 100).
    split; [lia|]. pose proof (Z.div_mod d 100). pose proof (Z.mod_pos_bound d 100). pose proof (Z.div_mod d' 100). pose proof (Z.mod_pos_bound d' 100). lia. }
  split; [lia|]. rewrite filetime_in in B2 |- * by lia.
  assert (when_ now d / 10000 <= when_ now' d' / 10000) by (apply Z.div_le_mono; lia). lia.
Qed.
End time.

(** ** ownership *)
(** all that happens to the function of a call, by the phase it is in *)
Definition hist (a : api) (sh : bool) (n : nat) (p : option phase) : list ev :=
  match p with
  | None => []
  | Some p =>
    let made := match a with WinPool | WinTimer | QtMain => [Make n] | _ => [] end in
    match p with
    | Pending => New n :: made
    | Ran => New n :: made ++ match a with WinPool | QtMain => [Exec n; Close n; Del n] | WinTimer => [Exec n; Del n] ++ (if sh then [Close n] else []) | _ => [Exec n; Del n] end
    | Dropped => [New n; Del n]
    | Refused => match a with WinTimer => [New n; Throw n] | _ => [New n; Del n; Throw n] end
    | Lost => [New n; Make n; Close n]
    end
  end.
Definition fit (a : api) (sh : bool) (p : phase) : Prop :=
  match p with
  | Pending => a = WinTimer -> sh = false
  | Ran => True
  | Dropped => a = GcdTimer
  | Refused => a = WinPool \/ a = WinTimer
  | Lost => a = WinTimer /\ sh = true
  end.
Record inv (a : api) (s : st) (t : list ev) : Prop := Inv {
  i_hist n : of_call n t = hist a (shut s) n (phases s !! n);
  i_fit n p : phases s !! n = Some p -> fit a (shut s) p;
  i_shut : shut s = true -> a = GcdTimer \/ a = WinTimer \/ a = WinPool }.

Lemma of_app n t e : of_call n (t ++ e) = of_call n t ++ of_call n e.
Proof. apply filter_app. Qed.
Lemma of_same n e : Forall (fun x => about x = n) e -> of_call n e = e.
Proof. induction 1 as [|x e H F IH]; [done|]. unfold of_call. rewrite filter_cons, decide_True by done. f_equal. exact IH. Qed.
Lemma of_other n m e : n <> m -> Forall (fun x => about x = m) e -> of_call n e = [].
Proof. intros N0; induction 1 as [|x e H F IH]; [done|]. unfold of_call. rewrite filter_cons, decide_False by congruence. exact IH. Qed.
Lemma call_about a n ok p e : call a n ok = Some (p, e) -> Forall (fun x => about x = n) e.
Proof. destruct a, ok; intros [= <- <-]; repeat constructor. Qed.
Lemma fire_about a c n p e : fire a c n = (p, e) -> Forall (fun x => about x = n) e.
Proof. destruct a; [..|]; try (by intros [= <- <-]; repeat constructor). destruct c; intros [= <- <-]; repeat constructor. Qed.
Lemma release_of n l k : of_call n (concat (imap (fun i => release (k + i)) l)) =
  if decide (k <= n) then match l !! (n - k) with Some p => release n p | None => [] end else [].
Proof.
  revert k. induction l as [|p l IH]; intros k; simpl.
  - destruct (decide (k <= n)); [|done]; by destruct (n - k).
  - rewrite of_app. rewrite (imap_ext _ (fun i => release (S k + i))).
    2:{ intros i x _. simpl. by rewrite Nat.add_succ_r. }
    rewrite IH, Nat.add_0_r. destruct (decide (n = k)) as [->|N].
    + rewrite of_same by (destruct p; repeat constructor). rewrite decide_False by lia. rewrite decide_True by lia. by rewrite Nat.sub_diag, app_nil_r.
    + rewrite (of_other n k) by (done || destruct p; repeat constructor). simpl. destruct (decide (k <= n)) as [L|L].
      * rewrite decide_True by lia. by replace (n - k) with (S (n - S k)) by lia.
      * by rewrite decide_False by lia.
Qed.
Lemma inv_step a s t l s' e : inv a s t -> step a s l = Some (s', e) -> inv a s' (t ++ e).
Proof.
  intros [H F X]. destruct l as [ok|n|]; simpl.
  - destruct (shut s) eqn:SH; [done|]. destruct (call a _ ok) as [[p e']|] eqn:C; [|done]. intros [= <- <-].
    pose proof (call_about _ _ _ _ _ C) as AB. split; simpl; [|intros n q E|done].
    + intros n. rewrite of_app, H. destruct (decide (n = length (phases s))) as [->|N].
      * rewrite of_same by done. rewrite lookup_ge_None_2 by lia. rewrite lookup_app_r, Nat.sub_diag by lia. simpl.
        destruct a, ok; simpl in C; simplify_eq; done.
      * rewrite (of_other _ _ e' N AB), app_nil_r. destruct (decide (n < length (phases s))); [by rewrite lookup_app_l|].
        rewrite !lookup_ge_None_2; [done|rewrite app_length; simpl; lia|lia].
    + apply lookup_app_Some in E as [E|[_ E]]; [eauto|]. apply list_lookup_singleton_Some in E as [_ <-].
      destruct a, ok; simpl in C; simplify_eq; simpl; auto.
  - destruct (phases s !! n) as [[]|] eqn:E; try done. destruct (fire a (shut s) n) as [p e'] eqn:C. intros [= <- <-].
    pose proof (fire_about _ _ _ _ _ C) as AB. pose proof (lookup_lt_Some _ _ _ E) as LT. split; simpl; [|intros m q Em|done].
    + intros m. rewrite of_app, H. destruct (decide (m = n)) as [->|N].
      * rewrite of_same by done. rewrite E, list_lookup_insert by done. pose proof (F n _ E) as FE.
        destruct a; try (injection C as <- <-; done); simpl in *.
        -- by destruct (shut s); injection C as <- <-.
        -- injection C as <- <-. by rewrite FE.
      * rewrite (of_other _ _ e' N AB), app_nil_r. by rewrite list_lookup_insert_ne.
    + destruct (decide (m = n)) as [->|N]; [|rewrite list_lookup_insert_ne in Em by done; eauto].
      rewrite list_lookup_insert in Em by done. injection Em as <-. destruct a; try (injection C as <- <-; done).
      destruct (shut s); injection C as <- <-; done.
  - destruct (shut s) eqn:SH; [done|]. destruct a; try done.
    + intros [= <- <-]. rewrite app_nil_r. split; simpl; [|intros n p E|auto].
      * intros n. rewrite H. by destruct (phases s !! n) as [[]|].
      * specialize (F n p E). by destruct p; simpl in *; destruct_and?.
    + destruct (existsb is_pending (phases s)); [done|]. intros [= <- <-]. rewrite app_nil_r. split; simpl; [|intros n p E|auto].
      * intros n. rewrite H. by destruct (phases s !! n) as [[]|].
      * specialize (F n p E). by destruct p; simpl in *; destruct_and?.
    + intros [= <- <-]. split; simpl; [|intros n p E|auto].
      * intros n. rewrite of_app, H. pose proof (release_of n (phases s) 0) as R. simpl in R.
        rewrite (imap_ext _ release) in R by done. rewrite R, Nat.sub_0_r, list_lookup_fmap.
        destruct (phases s !! n) as [p|] eqn:E; simpl; [|done]. specialize (F n p E). destruct p; simpl in *; try done; try by destruct F.
      * rewrite list_lookup_fmap in E. destruct (phases s !! n) as [q|] eqn:Eq; [|done]. injection E as <-.
        specialize (F n q Eq). destruct q; simpl in *; try done; auto; try by destruct F.
Qed.
Lemma inv_runs a s t : runs a s t -> inv a s t.
Proof.
  induction 1 as [|s t l s' e R IH E]; [|by eapply inv_step]. split; simpl; [|done|done]. intros n. by destruct n.
Qed.

Lemma histories a s t n : runs a s t -> a <> WinTimer ->
  let h := of_call n t in h = [] \/ (kept n h /\ phases s !! n = Some Pending) \/ clean n h \/ unused n h.
Proof.
  intros R N. apply inv_runs in R as [H F _]. rewrite H. destruct (phases s !! n) as [p|] eqn:E; [|by left]. specialize (F n p E). right.
  unfold kept, clean, unused. destruct p; simpl in *.
  - left. split; [|done]. destruct a; auto.
  - right. left. destruct a; auto; done.
  - right. right. auto.
  - right. right. destruct F as [->| ->]; auto; done.
  - by destruct F.
Qed.
Lemma pending_fires a s t n : runs a s t -> phases s !! n = Some Pending -> exists s' e, step a s (Fire n) = Some (s', e) /\ (Exec n ∈ e \/ (a = GcdTimer /\ shut s = true)) /\ Del n ∈ e.
Proof.
  intros _ E. simpl. rewrite E. destruct (fire a (shut s) n) as [p e] eqn:C. eexists _, e. split; [done|].
  destruct a; try (injection C as <- <-; split; [left|]; set_solver). simpl in C. destruct (shut s); injection C as <- <-; split; auto; try (left); set_solver.
Qed.
Lemma rest a s t n : runs a s t -> a <> WinTimer -> (forall m, step a s (Fire m) = None) -> New n ∈ t -> clean n (of_call n t) \/ unused n (of_call n t).
Proof.
  intros R N Q I. destruct (histories a s t n R N) as [H|[[_ H]|H]]; [| |done].
  - assert (New n ∈ of_call n t) as W by (by apply elem_of_list_filter). rewrite H in W. by apply elem_of_nil in W.
  - destruct (pending_fires a s t n R H) as (s' & e & E & _). by rewrite Q in E.
Qed.
Lemma timer_hist s t n : runs WinTimer s t -> Make n ∈ t -> shut s = false -> Close n ∉ t.
Proof.
  intros R M SH C. apply inv_runs in R as [H F _]. assert (Close n ∈ of_call n t) as W by (by apply elem_of_list_filter).
  rewrite H in W. destruct (phases s !! n) as [p|] eqn:E; [|by apply elem_of_nil in W]. specialize (F n p E).
  destruct p; simpl in *; rewrite ?SH in *; try set_solver.
Qed.
Lemma timer_ends s t n : runs WinTimer s t -> Make n ∈ t -> Exec n ∉ t -> shut s = true -> of_call n t = [New n; Make n; Close n] /\ step WinTimer s (Fire n) = None.
Proof.
  intros R M X SH. apply inv_runs in R as [H F _]. assert (Make n ∈ of_call n t) as W by (by apply elem_of_list_filter).
  rewrite H in W. destruct (phases s !! n) as [p|] eqn:E; [|by apply elem_of_nil in W]. specialize (F n p E).
  destruct p; simpl in *; rewrite ?SH, ?E in *.
  - by specialize (F eq_refl).
  - destruct X. assert (Exec n ∈ of_call n t) as Y; [|by apply elem_of_list_filter in Y as [_ ?]]. rewrite H, E. simpl. set_solver.
  - done.
  - set_solver.
  - by rewrite H, E.
Qed.
Lemma timer_refused s t n : runs WinTimer s t -> Throw n ∈ t -> Del n ∉ t /\ step WinTimer s (Fire n) = None.
Proof.
  intros R M. apply inv_runs in R as [H F _]. assert (Throw n ∈ of_call n t) as W by (by apply elem_of_list_filter).
  rewrite H in W. destruct (phases s !! n) as [p|] eqn:E; [|by apply elem_of_nil in W]. specialize (F n p E).
  destruct p; simpl in W; try (destruct (shut s)); try (exfalso; set_solver).
  - split; [|simpl; by rewrite E]. intros D. assert (Del n ∈ of_call n t) as Y by (by apply elem_of_list_filter). rewrite H, E in Y. simpl in Y. set_solver.
  - split; [|simpl; by rewrite E]. intros D. assert (Del n ∈ of_call n t) as Y by (by apply elem_of_list_filter). rewrite H, E in Y. simpl in Y. set_solver.
Qed.

(** the same in nanoseconds *)
Section ns.
Open Scope Z_scope.
Lemma when_ns now d : 0 <= d -> when_ now d = (now * 100 + d) / 100.
Proof. intros H. unfold when_. rewrite Z.quot_div_nonneg by lia. by rewrite Z.div_add_l by lia. Qed.
Lemma in_range limit now d : 0 <= d -> now * 100 + d < (limit + 1) * 1000000000 -> when_ now d < (limit + 1) * 10000000.
Proof. intros H L. rewrite when_ns by done. apply Z.div_lt_upper_bound; lia. Qed.
Lemma early_ns limit now d t : 0 <= now -> 0 <= d -> now * 100 + d < (limit + 1) * 1000000000 -> may_begin limit now d t -> now * 100 + d - t * 100 < 1000000.
Proof. eauto using early, in_range. Qed.
Lemma exact_ns limit now d t : 0 <= now -> 0 <= d -> now * 100 + d < (limit + 1) * 1000000000 -> (1000000 | now * 100 + d) -> may_begin limit now d t -> now * 100 + d <= t * 100.
Proof. eauto using exact_, in_range. Qed.
Lemma far_ns limit now d : 0 <= now -> 0 <= d -> 0 <= limit -> (limit + 1) * 1000000000 <= now * 100 + d -> may_begin limit now d now.
Proof.
  intros Hn Hd Hl L. assert (W : (limit + 1) * 10000000 <= when_ now d) by (rewrite when_ns by done; apply Z.div_le_lower_bound; lia).
  apply far; lia.
Qed.
Lemma order_ns limit now d now' d' t : 0 <= now -> 0 <= d -> 0 <= d' -> now <= now' -> now * 100 + d <= now' * 100 + d' ->
  now' * 100 + d' < (limit + 1) * 1000000000 -> may_begin limit now' d' t -> may_begin limit now d t.
Proof. intros. eapply in_order; eauto using in_range. Qed.
End ns.
