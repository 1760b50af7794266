(** Proofs about Attach. *)
From Coq Require Import List Bool Arith Lia.
From stdpp Require Import list.
From Verif.Attach Require Import Model Spec.

Lemma read_app r t e : read r (t ++ e) = match read r t with Some r => read r e | None => None end.
Proof. revert r. induction t as [|x t IH]; intros r; simpl; [done|]. destruct (read1 r x); auto. Qed.
(** what the state says about the trace *)
Definition inv (s : st) (t : list ev) : Prop :=
  match job s with
  | Idle => read ([], None) t = Some (data s, None)
  | Counted n => n <= length (data s) /\ read ([], None) t = Some (data s, Some (firstn n (data s)))
  | Test n i v => i <= n /\ n <= length (data s) /\ v <= ver s /\ read ([], None) t = Some (data s, Some (skipn i (firstn n (data s))))
  | Incr n i v => i < n /\ n <= length (data s) /\ v <= ver s /\ read ([], None) t = Some (data s, Some (skipn (S i) (firstn n (data s))))
  | Dead => Ub ∈ t
  end.
Lemma inv_step s t l s' e : inv s t -> step s l = Some (s', e) -> inv s' (t ++ e).
Proof.
  intros I. destruct s as [d v j]. destruct l as [x| | | |]; simpl.
  - intros [= <- <-]. unfold inv in *. simpl in *. destruct j as [|n|n i w|n i w|]; destruct_and?.
    + rewrite read_app, I. done.
    + rewrite read_app, H0. rewrite app_length, take_app_le by done. simpl. split; [lia|done].
    + rewrite read_app, H3. rewrite app_length, take_app_le by done. simpl. split_and!; [lia..|done].
    + rewrite read_app, H3. rewrite app_length, take_app_le by done. simpl. split_and!; [lia..|done].
    + apply elem_of_app. by left.
  - destruct j; try done. intros [= <- <-]. unfold inv in *. simpl in *. split; [done|]. rewrite read_app, I. simpl. by rewrite firstn_all.
  - destruct j as [|n| | |]; try done. intros [= <- <-]. unfold inv in *. simpl in *. destruct I as [L I]. split_and!; [lia..|].
    rewrite read_app, I. done.
  - destruct j as [| |n i w| |]; try done. unfold inv in *. simpl in *. destruct I as (L1 & L2 & L3 & I).
    destruct (Nat.eqb_spec i n) as [->|N].
    + intros [= <- <-]. rewrite read_app, I. rewrite skipn_all2 by (rewrite firstn_length; lia). done.
    + destruct (Nat.eqb_spec w v) as [->|W]; [|intros [= <- <-]; apply elem_of_app; right; by left].
      destruct (d !! i) as [x|] eqn:E; [|intros [= <- <-]; apply elem_of_app; right; by left].
      intros [= <- <-]. cbn [job data ver]. split; [lia|]. split; [lia|]. split; [lia|]. rewrite read_app, I.
      rewrite (drop_S (firstn n d) x i) by (rewrite lookup_take; [done|lia]). simpl. by rewrite decide_True.
  - destruct j as [| | |n i w|]; try done. unfold inv in *. simpl in *. destruct I as (L1 & L2 & L3 & I).
    destruct (Nat.eqb_spec w v) as [->|W]; intros [= <- <-].
    + rewrite app_nil_r. done.
    + apply elem_of_app. right. by left.
Qed.
Lemma inv_runs s t : runs s t -> inv s t.
Proof. induction 1; [done|eauto using inv_step]. Qed.
Lemma delivered s t : runs s t -> Ub ∉ t -> delivers t.
Proof. intros R N. apply inv_runs in R. unfold inv, delivers in *. destruct (job s); destruct_and?; eauto; done. Qed.

(** ** loops that nobody disturbs *)
Lemma calm_app b t e : calm b (t ++ e) = true -> calm b t = true.
Proof.
  revert b. induction t as [|x t IH]; intros b; [done|]. destruct x; simpl; eauto.
  intros [-> H]%andb_true_iff. simpl. eauto.
Qed.
Fixpoint loops (b : bool) (t : list ev) : bool :=
  match t with [] => b | First :: t => loops true t | Ended :: t => loops false t | _ :: t => loops b t end.
Lemma loops_app b t e : loops b (t ++ e) = loops (loops b t) e.
Proof. revert b. induction t as [|[] t IH]; intros b; simpl; auto. Qed.
Lemma calm_last b t x : calm b (t ++ [Attached x]) = true -> loops b t = false.
Proof.
  revert b. induction t as [|[] t IH]; intros b; simpl; auto.
  - destruct b; [done|done].
  - intros [_ H]%andb_true_iff. auto.
Qed.
Definition cinv (s : st) (t : list ev) : Prop :=
  Ub ∉ t /\ match job s with Idle | Counted _ => loops false t = false | Test _ _ v | Incr _ _ v => loops false t = true /\ v = ver s | Dead => False end.
Lemma cinv_runs s t : runs s t -> calm false t = true -> cinv s t.
Proof.
  induction 1 as [|s t l s' e R IH E]; intros C; [by split; [apply not_elem_of_nil|]|].
  specialize (IH (calm_app _ _ _ C)). destruct IH as [U IH]. pose proof (inv_runs s t R) as I.
  destruct s as [d v j]. unfold inv in I. simpl in *.
  assert (K : forall e, Ub ∉ e -> Ub ∉ t ++ e) by (intros e' N [?|?]%elem_of_app; done).
  destruct l as [x| | | |]; simpl in E.
  - injection E as <- <-. apply calm_last in C. split; [apply K; intros [[=]|[]%elem_of_nil]%elem_of_cons|]. simpl. rewrite loops_app. simpl.
    destruct j; simpl in *; try done; rewrite C in IH; by destruct IH.
  - destruct j; try done. injection E as <- <-. split; [apply K; intros [[=]|[]%elem_of_nil]%elem_of_cons|]. simpl. by rewrite loops_app.
  - destruct j; try done. injection E as <- <-. split; [apply K; intros [[=]|[]%elem_of_nil]%elem_of_cons|]. simpl. by rewrite loops_app.
  - destruct j as [| |n i w| |]; try done. destruct IH as [IH ->]. destruct I as (L1 & L2 & L3 & I).
    destruct (Nat.eqb_spec i n) as [->|N].
    + injection E as <- <-. split; [apply K; intros [[=]|[]%elem_of_nil]%elem_of_cons|]. simpl. by rewrite loops_app.
    + simpl in E. rewrite Nat.eqb_refl in E. destruct (lookup_lt_is_Some_2 d i) as [x Ex]; [lia|]. rewrite Ex in E. injection E as <- <-.
      split; [apply K; intros [[=]|[]%elem_of_nil]%elem_of_cons|]. simpl. by rewrite loops_app.
  - destruct j as [| | |n i w|]; try done. destruct IH as [IH ->]. simpl in E. rewrite Nat.eqb_refl in E. injection E as <- <-.
    rewrite app_nil_r. by split.
Qed.
Lemma calm_fine s t : runs s t -> calm false t = true -> Ub ∉ t.
Proof. intros R C. by destruct (cinv_runs s t R C). Qed.

(** ** loops that somebody disturbs *)
Lemma disturbed s t x : runs s t -> busy s -> exists s1, step s (LAttach x) = Some (s1, [Attached x]) /\
  forall l s2 e, step s1 l = Some (s2, e) -> (forall y, l <> LAttach y) -> e = [Ub].
Proof.
  intros R B. apply inv_runs in R. destruct s as [d v j]. unfold busy, inv in *. simpl in *. eexists. split; [done|].
  intros l s2 e E N. destruct j as [| |n i w|n i w|]; try done; destruct R as (L1 & L2 & L3 & _); destruct l as [y| | | |]; simpl in E; try done; try (by destruct (N y)).
  - rewrite (proj2 (Nat.eqb_neq i n)) in E by done. rewrite (proj2 (Nat.eqb_neq w (S v))) in E by lia. by injection E as <- <-.
  - rewrite (proj2 (Nat.eqb_neq w (S v))) in E by lia. by injection E as <- <-.
Qed.
