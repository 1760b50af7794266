(** Invariants of the serial queue: its references, its tasks. *)
From Coq Require Import List Bool Arith Lia Permutation.
From stdpp Require Import list.
From Verif.SerialLife Require Import Model Spec.

Definition one (b : bool) : nat := if b then 1 else 0.
Fixpoint total {A} (f : A -> nat) (l : list A) : nat := match l with [] => 0 | a :: l => f a + total f l end.
Lemma total_app {A} (f : A -> nat) l l' : total f (l ++ l') = total f l + total f l'.
Proof. induction l; cbn; lia. Qed.
Lemma total_delete {A} (f : A -> nat) i a l : l !! i = Some a -> total f l = f a + total f (delete i l).
Proof.
  revert i. induction l as [|x l IH]; intros [|i] H; cbn in H; try done; [by injection H as ->|].
  change (delete (S i) (x :: l)) with (x :: delete i l). cbn. rewrite (IH i H). lia.
Qed.
Lemma total_insert {A} (f : A -> nat) i a b l : l !! i = Some a -> total f (<[i := b]> l) + f a = total f l + f b.
Proof. revert i. induction l as [|x l IH]; intros [|i] H; cbn in H; try done; cbn; [injection H as ->; lia|]. pose proof (IH i H). unfold insert in *. lia. Qed.

Definition active (p : pc) : nat := match p with Leave _ => 0 | _ => 1 end.
Definition needs (p : pc) : nat := match p with Begun | Resubmit _ => 1 | _ => 0 end.
Definition opt (o : option task) : list task := match o with Some t => [t] | None => [] end.
Definition held (p : pc) : list task :=
  match p with Begun => [] | Local l => l | Run t l | Kill t l => t :: l | After t => [t] | Resubmit o | Leave o => opt o end.
Definition locals (p : pc) : list nat := match p with Local l | Run _ l | Kill _ l => map fst l | _ => [] end.
Definition exec (p : pc) : list nat := match p with Run t _ => [fst t] | _ => [] end.
Definition cur (p : pc) : list nat := match p with Run t _ | Kill t _ => [fst t] | _ => [] end.
Definition carried (l : list task) : nat := total (fun t => one (snd t)) l.
Definition weight (p : pc) : nat := 1 + carried (held p).
Definition ids (ws : list pc) : list nat := flat_map (fun p => map fst (held p)) ws.
Definition fits (m : mode) (p : pc) : Prop :=
  match m, p with
  | single, (Local _ | Kill _ _) => False
  | single, Run _ l => l = []
  | all, (After _ | Leave (Some _) | Resubmit (Some _)) => False
  | _, _ => True
  end.
Record inv (m : mode) (s : st) (tr : list event) : Prop := {
  v_bad : bad s = false;
  v_ref : refs s = handles s + calling s + jobs s + total weight (workers s) + carried (queue s);
  v_free : freed s = (refs s =? 0);
  v_token : calling s + jobs s + total active (workers s) + length (drops tr) = one (running s);
  v_need : 0 < calling s + jobs s + total needs (workers s) -> queue s <> [];
  v_idle : running s = false -> queue s = [];
  v_fifo : starts tr ++ flat_map locals (workers s) ++ map fst (queue s) = seq 0 (next s);
  v_ends : starts tr = ends tr ++ flat_map exec (workers s);
  v_enq : enqs tr = seq 0 (next s);
  v_dead : dead tr ++ ids (workers s) ++ (if freed s then [] else map fst (queue s)) ≡ₚ seq 0 (next s);
  v_fr : length (frees tr) = one (freed s);
  v_fits : Forall (fits m) (workers s);
  v_cur : m = all -> starts tr ++ (if freed s then map fst (queue s) else []) = dead tr ++ flat_map cur (workers s)
}.
Ltac norm := cbn [next queue running handles refs calling jobs workers freed bad set_q set_next set_h set_r set_c set_ws wrong retain put fst snd one] in *.
Lemma init_inv m : inv m init [].
Proof. split; cbn; try done; try lia. Qed.

Lemma dead_map l : dead (burn l) = map fst l.
Proof. induction l as [|t l IH]; cbn; [done|]. by f_equal. Qed.
Lemma others_map l : starts (burn l) = [] /\ ends (burn l) = [] /\
  enqs (burn l) = [] /\ drops (burn l) = [] /\
  frees (burn l) = [tt].
Proof. induction l as [|t l IH]; cbn; [done|]. done. Qed.
Lemma one_eq (n m : nat) b : n = one b -> n = m -> m = one b.
Proof. congruence. Qed.
Lemma app_parts tr ev : enqs (tr ++ ev) = enqs tr ++ enqs ev /\ starts (tr ++ ev) = starts tr ++ starts ev /\ ends (tr ++ ev) = ends tr ++ ends ev /\
  dead (tr ++ ev) = dead tr ++ dead ev /\ drops (tr ++ ev) = drops tr ++ drops ev /\ frees (tr ++ ev) = frees tr ++ frees ev.
Proof. split_and!; apply flat_map_app. Qed.
Ltac parts := repeat match goal with |- context [?f (?tr ++ ?ev)] =>
  match f with
  | enqs => rewrite (proj1 (app_parts tr ev))
  | starts => rewrite (proj1 (proj2 (app_parts tr ev)))
  | ends => rewrite (proj1 (proj2 (proj2 (app_parts tr ev))))
  | dead => rewrite (proj1 (proj2 (proj2 (proj2 (app_parts tr ev)))))
  | drops => rewrite (proj1 (proj2 (proj2 (proj2 (proj2 (app_parts tr ev))))))
  | frees => rewrite (proj2 (proj2 (proj2 (proj2 (proj2 (app_parts tr ev))))))
  end end.
(** *** the invariant of an instance that exists, with [n] references too many *)
Record pre (n : nat) (m : mode) (s : st) (tr : list event) : Prop := {
  p_ref : refs s = n + (handles s + calling s + jobs s + total weight (workers s) + carried (queue s));
  p_free : freed s = false;
  p_bad : bad s = false;
  p_token : calling s + jobs s + total active (workers s) + length (drops tr) = one (running s);
  p_need : 0 < calling s + jobs s + total needs (workers s) -> queue s <> [];
  p_idle : running s = false -> queue s = [];
  p_fifo : starts tr ++ flat_map locals (workers s) ++ map fst (queue s) = seq 0 (next s);
  p_ends : starts tr = ends tr ++ flat_map exec (workers s);
  p_enq : enqs tr = seq 0 (next s);
  p_dead : dead tr ++ ids (workers s) ++ map fst (queue s) ≡ₚ seq 0 (next s);
  p_fr : frees tr = [];
  p_fits : Forall (fits m) (workers s);
  p_cur : m = all -> starts tr = dead tr ++ flat_map cur (workers s)
}.
Lemma release_inv m s tr : pre 1 m s tr -> inv m (fst (release s)) (tr ++ snd (release s)).
Proof.
  intros [P1 P2 P3 P4 P5 P6 P7 P8 P9 P10 P11 P12 P13]. unfold release. destruct (refs s) as [|[|n]] eqn:R; [lia| |]; cbn [fst snd].
  - destruct (others_map (queue s)) as (O1 & O2 & O3 & O4 & O5). pose proof (dead_map (queue s)) as O6.
    remember (burn (queue s)) as ev eqn:Ev. clear Ev.
    assert (workers s = []) as W by (destruct (workers s) as [|p ws]; [done|cbn in P1; lia]).
    split; norm; parts; rewrite ?O1, ?O2, ?O3, ?O4, ?O5, ?O6, ?app_nil_r; try done; try lia.
    + rewrite W in *. cbn in *. by rewrite app_nil_r.
    + rewrite P11. done.
    + intros E. rewrite (P13 E), W. cbn. by rewrite !app_nil_r.
  - split; norm; rewrite ?app_nil_r, ?P2; try done; try lia.
    + by rewrite P11.
    + intros E. rewrite app_nil_r. auto.
Qed.
Lemma open m s tr : inv m s tr -> 0 < refs s -> pre 0 m s tr.
Proof.
  intros [P1 P2 P3 P4 P5 P6 P7 P8 P9 P10 P11 P12 P13] R.
  assert (freed s = false) as F by (rewrite P3; apply Nat.eqb_neq; lia). rewrite F in *.
  split; try done.
  - by apply nil_length_inv.
  - intros E. specialize (P13 E). by rewrite app_nil_r in P13.
Qed.
Lemma shut m s tr : pre 0 m s tr -> 0 < refs s -> inv m s tr.
Proof.
  intros [P1 P2 P3 P4 P5 P6 P7 P8 P9 P10 P11 P12 P13] R.
  split; rewrite ?P2; try done.
  - symmetry. apply Nat.eqb_neq. lia.
  - by rewrite P11.
  - intros E. rewrite app_nil_r. auto.
Qed.
(** *** the parts of the state that belong to one job *)
Lemma at_place {A} k (p : A) l : l !! k = Some p -> exists a b, l = a ++ p :: b /\ length a = k /\ delete k l = a ++ b /\ forall q, <[k := q]> l = a ++ q :: b.
Proof.
  intros H. exists (take k l), (drop (S k) l). pose proof (lookup_lt_Some _ _ _ H). split; [symmetry; by apply take_drop_middle|].
  split; [rewrite take_length; lia|]. split; [apply delete_take_drop|]. intros q. rewrite insert_take_drop by done. done.
Qed.
Lemma quiet {B} (f : pc -> list B) l : (forall o, f (Leave o) = []) -> total active l = 0 -> flat_map f l = [].
Proof. intros H. induction l as [|p l IH]; cbn; [done|]. intros E. destruct p; cbn in E; try lia. rewrite H. cbn. apply IH. lia. Qed.
Lemma alone {B} (f : pc -> list B) a p b : (forall o, f (Leave o) = []) -> total active (a ++ p :: b) <= 1 -> active p = 1 -> flat_map f (a ++ p :: b) = f p.
Proof.
  intros H T P. rewrite total_app in T. cbn in T. rewrite flat_map_app. cbn. rewrite (quiet f a), (quiet f b) by (done || lia). by rewrite app_nil_r.
Qed.
Lemma carried_cons t l : carried (t :: l) = one (snd t) + carried l.
Proof. done. Qed.
Lemma carried_nil : carried [] = 0.
Proof. done. Qed.
Global Arguments carried : simpl never.
Lemma weight_eq p : weight p = 1 + carried (held p).
Proof. done. Qed.
Global Arguments weight : simpl never.
Lemma carried_app a b : carried (a ++ b) = carried a + carried b.
Proof. apply total_app. Qed.
Lemma one_le b : one b <= 1.
Proof. destruct b; cbn; lia. Qed.
Lemma touch_ok s : freed s = false -> touch s = s.
Proof. unfold touch. by intros ->. Qed.
Ltac flats := repeat match goal with
  | |- context [flat_map ?f (?a ++ ?p :: ?b)] => rewrite (alone f a p b) by (first [done|lia])
  end.
Lemma weight_pos l : l <> [] -> 0 < total weight l.
Proof. destruct l; [done|]. cbn. rewrite weight_eq. lia. Qed.
Lemma kill_inv m s tr t : pre (one (snd t)) m s (tr ++ [Destroyed (fst t)]) -> workers s <> [] -> inv m (fst (kill t s)) (tr ++ snd (kill t s)).
Proof.
  intros P W. unfold kill. destruct (snd t); cbn [one] in P.
  - pose proof (release_inv _ _ _ P) as R. destruct (release s) as [s' ev]. cbn [fst snd] in *. by rewrite <- app_assoc in R.
  - cbn [fst snd]. apply shut; [done|]. rewrite (p_ref _ _ _ _ P). pose proof (weight_pos _ W). lia.
Qed.
Ltac sides := norm; try done; try lia.
Lemma perm_swap3 {A} (d x a h b q : list A) : d ++ (a ++ (x ++ h) ++ b) ++ q ≡ₚ (d ++ x) ++ (a ++ h ++ b) ++ q.
Proof. rewrite <- !app_assoc. f_equiv. rewrite (Permutation_app_comm a). rewrite <- !app_assoc. f_equiv. rewrite (Permutation_app_comm a). by rewrite <- !app_assoc. Qed.
Lemma ids_app a p b : ids (a ++ p :: b) = ids a ++ map fst (held p) ++ ids b.
Proof. apply flat_map_app. Qed.
Lemma needs_le l : total needs l <= total active l.
Proof. induction l as [|[] l IH]; cbn; lia. Qed.
Lemma work_inv m s tr k p : inv m s tr -> workers s !! k = Some p -> inv m (fst (work m s k p)) (tr ++ snd (work m s k p)).
Proof.
  intros I K. assert (workers s <> []) as W by (intros E; by rewrite E in K).
  assert (0 < refs s) as R by (rewrite (v_ref _ _ _ I); pose proof (weight_pos _ W); lia).
  pose proof (open m s tr I R) as P. clear I.
  destruct (at_place k p _ K) as (a & b & E & La & D & In). clear K La.
  destruct P as [P1 P2 P3 P4 P5 P6 P7 P8 P9 P10 P11 P12 P13]. pose proof (one_le (running s)) as Ol.
  assert (forall q, total active (a ++ q :: b) = total active a + active q + total active b) as TA by (intros; rewrite total_app; cbn; lia).
  assert (forall q, total needs (a ++ q :: b) = total needs a + needs q + total needs b) as TN by (intros; rewrite total_app; cbn; lia).
  assert (forall q, total weight (a ++ q :: b) = total weight a + weight q + total weight b) as TW by (intros; rewrite total_app; cbn; lia).
  assert (forall q, fits m q -> Forall (fits m) (a ++ q :: b)) as FF.
  { intros q Q. rewrite E in P12. apply Forall_app in P12 as [F1 F2]. apply Forall_app. split; [done|]. inversion F2. by constructor. }
  assert (fits m p) as Fp by (rewrite E in P12; apply Forall_app in P12 as [_ F2]; by inversion F2). clear P12.
  assert (forall q, flat_map locals (a ++ q :: b) = flat_map locals a ++ locals q ++ flat_map locals b) as FL by (intros; apply flat_map_app).
  assert (forall q, flat_map exec (a ++ q :: b) = flat_map exec a ++ exec q ++ flat_map exec b) as FE by (intros; apply flat_map_app).
  assert (forall q, flat_map cur (a ++ q :: b) = flat_map cur a ++ cur q ++ flat_map cur b) as FC by (intros; apply flat_map_app).
  pose proof (needs_le a) as NA. pose proof (needs_le b) as NB.
  rewrite E in P1, P4, P5, P7, P8, P10, P13. rewrite TW in P1. rewrite TA in P4. rewrite TN in P5. rewrite FL in P7. rewrite FE in P8. rewrite ids_app in P10. rewrite FC in P13.
  assert (active p = 1 -> flat_map locals a = [] /\ flat_map locals b = [] /\ flat_map exec a = [] /\ flat_map exec b = [] /\ flat_map cur a = [] /\ flat_map cur b = []) as Q.
  { intros A. split_and!; apply quiet; (done || lia). }
  Ltac enter := norm; parts; repeat match goal with H : forall q, <[_ := q]> _ = _ |- _ => rewrite !H; clear H end;
    repeat match goal with H : forall q : pc, _ = _ |- _ => rewrite !H; clear H end; rewrite ?ids_app.
  Ltac calm Q := destruct (Q eq_refl) as (Q1 & Q2 & Q3 & Q4 & Q5 & Q6); rewrite Q1, Q2, Q3, Q4, Q5, Q6 in *; clear Q Q1 Q2 Q3 Q4 Q5 Q6.
  Ltac sums := cbn in *; rewrite ?weight_eq in *; cbn [held opt] in *; rewrite ?carried_cons, ?carried_nil in *; rewrite ?app_nil_r in *; try done; try lia; try (intros; lia); try (intros X; rewrite X in *; cbn in *; lia).
  destruct p as [|[|t l]|t l|t l|t|o|o]; cbn [work]; rewrite ?touch_ok by done.
  - (* Begun *)
    assert (queue s <> []) as Qn by (apply P5; cbn; lia). 
    destruct m; [destruct (queue s) as [|t q] eqn:Eq; [done|]|]; cbn [fst snd]; (apply shut; [|norm; lia]).
    + split; enter; calm Q; sums.
      * rewrite <- P7. by rewrite <- app_assoc.
      * congruence.
      * rewrite <- P10. f_equiv. rewrite <- !app_assoc. f_equiv. cbn. by rewrite Permutation_middle.
      * by apply FF.
    + split; enter; calm Q; sums.
      * rewrite <- P10. f_equiv. rewrite <- !app_assoc. f_equiv. cbn. apply Permutation_app_comm.
      * by apply FF.
  - (* Local [] *) cbn [fst snd]. rewrite app_nil_r. assert (m = all) as -> by by destruct m. unfold at_end. destruct (queue s) as [|t q] eqn:Eq; (apply shut; [|norm; lia]).
    + split; enter; calm Q; sums. all: try rewrite Eq; sums. by apply FF.
    + split; enter; calm Q; sums. all: try rewrite Eq; sums. by apply FF.
  - (* Local (t :: l) *) cbn [fst snd]. assert (m = all) as -> by by destruct m. apply shut; [|norm; lia]. split; enter; calm Q; sums.
    + rewrite <- P7. by rewrite <- app_assoc.
    + congruence.
    + by apply FF.
    + intros _. rewrite P13 by done. done.
  - (* Run *) cbn [fst snd]. destruct m; (apply shut; [|norm; lia]); (split; enter; calm Q; sums).
    + rewrite Fp in P1. sums.
    + by rewrite Fp in P7.
    + by rewrite Fp in P10.
    + by apply FF.
    + by apply FF.
  - (* Kill *) assert (m = all) as -> by by destruct m. apply kill_inv; [|norm; rewrite In; by destruct a]. split; enter; calm Q; sums.
    + by rewrite <- P10, <- perm_swap3.
    + by apply FF.
  - (* After *) cbn [fst snd]. rewrite app_nil_r. assert (m = single) as -> by by destruct m. unfold at_end. destruct (queue s) as [|t' q] eqn:Eq; (apply shut; [|norm; lia]).
    + split; enter; calm Q; sums. all: try rewrite Eq; sums. by apply FF.
    + split; enter; calm Q; sums. all: try rewrite Eq; sums. by apply FF.
  - (* Resubmit *) cbn [fst snd]. rewrite app_nil_r. apply shut; [|norm; lia]. split; enter; calm Q; sums.
    + intros _. apply P5. lia.
    + apply FF. by destruct m, o.
  - (* Leave *) clear Q. destruct o as [t|].
    + assert (m = single) as -> by by destruct m. apply kill_inv; [|norm; rewrite In; by destruct a]. split; enter; sums.
      * rewrite <- P10. symmetry. exact (perm_swap3 (dead tr) [_] (ids a) [] (ids b) _).
      * by apply FF.
    + apply release_inv. rewrite D. split; norm; rewrite ?total_app, ?flat_map_app; sums.
      * intros X. apply P5. lia.
      * unfold ids. rewrite flat_map_app. done.
      * specialize (FF (Leave None) ltac:(by destruct m)). apply Forall_app in FF as [F1 F2]. inversion F2. by apply Forall_app.
Qed.
Lemma can_call_refs m s tr : inv m s tr -> can_call s = true -> 0 < refs s.
Proof.
  intros I C. rewrite (v_ref _ _ _ I). unfold can_call in C. apply orb_prop in C as [C|C]; [apply Nat.ltb_lt in C; lia|].
  assert (workers s <> []) as W by by destruct (workers s). pose proof (weight_pos _ W). lia.
Qed.
Lemma step_inv m s l s' ev tr : inv m s tr -> step m s l = Some (s', ev) -> inv m s' (tr ++ ev).
Proof.
  intros I H. destruct l as [c| | | | | |k]; cbn [step] in H.
  - destruct (can_call s) eqn:C; cbn [negb] in H; [|done]. pose proof (can_call_refs _ _ _ I C) as R. destruct (open m s tr I R) as [P1 P2 P3 P4 P5 P6 P7 P8 P9 P10 P11 P12 P13].
    rewrite touch_ok in H by done. injection H as <- <-. apply shut; [|destruct c; norm; destruct (running s); norm; lia].
    assert (forall t, queue s ++ [t] <> []) as N by (intros t X; by apply app_nil in X as [_ X]).
    split; norm; destruct c; norm; destruct (running s) eqn:Ru; norm; parts; rewrite ?map_app, ?carried_app, ?carried_cons, ?carried_nil, ?seq_S; cbn in *; rewrite ?app_nil_r; try done; try lia; auto.
    all: try (rewrite <- P7; by rewrite <- !app_assoc).
    all: try (by rewrite P9).
    all: try (change (@nil (nat * bool)) with (@nil task); rewrite carried_nil; lia).
    all: try (rewrite <- P10; by rewrite <- !app_assoc).
  - destruct (can_call s) eqn:C; cbn [negb] in H; [|done]. pose proof (can_call_refs _ _ _ I C) as R. destruct (open m s tr I R) as [P1 P2 P3 P4 P5 P6 P7 P8 P9 P10 P11 P12 P13].
    injection H as <- <-. rewrite app_nil_r. apply shut; [|norm; lia]. split; norm; try done; lia.
  - destruct (handles s) as [|h] eqn:E; [done|]. assert (0 < refs s) as R by (rewrite (v_ref _ _ _ I); lia).
    destruct (open m s tr I R) as [P1 P2 P3 P4 P5 P6 P7 P8 P9 P10 P11 P12 P13].
    assert (release (set_h h s) = (s', ev)) as X by congruence. clear H. pose proof (release_inv m (set_h h s) tr) as Y. rewrite X in Y. apply Y. split; norm; try done; lia.
  - destruct (calling s) as [|c] eqn:E; [done|]. assert (0 < refs s) as R by (rewrite (v_ref _ _ _ I); lia).
    destruct (open m s tr I R) as [P1 P2 P3 P4 P5 P6 P7 P8 P9 P10 P11 P12 P13]. rewrite touch_ok in H by done.
    assert (release (set_c c (S (jobs s)) (retain s)) = (s', ev)) as X by congruence. clear H.
    pose proof (release_inv m (set_c c (S (jobs s)) (retain s)) tr) as Y. rewrite X in Y. apply Y. split; norm; try done; try lia. intros _. apply P5. lia.
  - destruct (jobs s) as [|j] eqn:E; [done|]. assert (0 < refs s) as R by (rewrite (v_ref _ _ _ I); lia).
    destruct (open m s tr I R) as [P1 P2 P3 P4 P5 P6 P7 P8 P9 P10 P11 P12 P13]. injection H as <- <-. rewrite app_nil_r. apply shut; [|norm; lia].
    split; norm; unfold ids; rewrite ?total_app, ?flat_map_app; cbn; rewrite ?weight_eq; cbn [held]; rewrite ?carried_nil, ?app_nil_r; try done; try lia.
    + intros _. apply P5. lia.
    + apply Forall_app. split; [done|]. constructor; [|done]. by destruct m.
  - destruct (jobs s) as [|j] eqn:E; [done|]. assert (0 < refs s) as R by (rewrite (v_ref _ _ _ I); lia).
    destruct (open m s tr I R) as [P1 P2 P3 P4 P5 P6 P7 P8 P9 P10 P11 P12 P13].
    destruct (release (set_c (calling s) j s)) as [s1 e1] eqn:X. injection H as <- <-.
    pose proof (release_inv m (set_c (calling s) j s) (tr ++ [JobDropped])) as Y. rewrite X in Y. cbn [fst snd] in Y. rewrite <- app_assoc in Y. apply Y.
    split; norm; parts; cbn; rewrite ?app_nil_r; try done; try lia.
    + rewrite app_length. cbn. lia.
    + intros _. apply P5. lia.
  - destruct (workers s !! k) as [p|] eqn:K; [|done]. assert (work m s k p = (s', ev)) as X by congruence.
    pose proof (work_inv m s tr k p I K) as Y. by rewrite X in Y.
Qed.
Lemma run_inv m s ls s' tr tr0 : inv m s tr0 -> run m s ls = Some (s', tr) -> inv m s' (tr0 ++ tr).
Proof.
  revert s s' tr tr0. induction ls as [|l ls IH]; intros s s' tr tr0 I R; cbn [run] in R; [injection R as <- <-; by rewrite app_nil_r|].
  destruct (step m s l) as [[s1 ev]|] eqn:E; [|done]. destruct (run m s1 ls) as [[s2 tr2]|] eqn:E2; [|done].
  injection R as <- <-. rewrite app_assoc. eapply IH; [|done]. by eapply step_inv.
Qed.
Lemma reach m ls s tr : run m init ls = Some (s, tr) -> inv m s tr.
Proof. exact (run_inv m init ls s tr [] (init_inv m)). Qed.
