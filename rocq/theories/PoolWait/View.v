(** How the parts of the state change. *)
From Coq Require Import List Bool Arith Lia.
From stdpp Require Import list.
From Verif.PoolWait Require Import Model.

Global Instance who_dec : EqDecision who.
Proof. solve_decision. Defined.
Definition is_run (p : pos) : bool := match p with Run _ _ => true | _ => false end.
Definition act_of (p : pos) : option act := match p with Run _ a => Some a | _ => None end.

Lemma get_T k s : get (T k) s = thr s !! k ≫= act_of.
Proof. simpl. destruct (thr s !! k) as [[]|]; reflexivity. Qed.
Lemma put_proj w a s : qs (put w a s) = qs s /\ flag (put w a s) = flag s /\ fin (put w a s) = fin s /\ idx (put w a s) = idx s /\
  next (put w a s) = next s /\ length (thr (put w a s)) = length (thr s).
Proof. destruct w as [k|k]; simpl; [destruct (thr s !! k) as [[]|]|]; simpl; rewrite ?insert_length; auto 10. Qed.
Lemma get_put w w' a s a0 : get w s = Some a0 -> get w' (put w a s) = if decide (w = w') then Some a else get w' s.
Proof.
  destruct w as [k|k]; simpl.
  - destruct (thr s !! k) as [[]|] eqn:E; try discriminate. intros _. destruct w' as [k'|k']; simpl.
    + destruct (decide (k = k')) as [->|Hn].
      * rewrite decide_True by reflexivity. rewrite list_lookup_insert by (eapply lookup_lt_Some; eassumption). reflexivity.
      * rewrite decide_False by congruence. rewrite list_lookup_insert_ne by exact Hn. reflexivity.
    + reflexivity.
  - intros E. destruct w' as [k'|k']; simpl; [reflexivity|].
    destruct (decide (k = k')) as [->|Hn].
    + rewrite decide_True by reflexivity. apply list_lookup_insert. eapply lookup_lt_Some; eassumption.
    + rewrite decide_False by congruence. apply list_lookup_insert_ne. exact Hn.
Qed.
Lemma thr_put w a s a0 k p : get w s = Some a0 -> is_run p = false -> thr (put w a s) !! k = Some p <-> thr s !! k = Some p.
Proof.
  destruct w as [j|j]; simpl; [|tauto]. destruct (thr s !! j) as [[]|] eqn:E; try discriminate. intros _ Hp. simpl.
  destruct (decide (j = k)) as [->|Hn].
  - rewrite list_lookup_insert by (eapply lookup_lt_Some; eassumption). rewrite E. split; intros [= <-]; discriminate Hp.
  - rewrite list_lookup_insert_ne by exact Hn. tauto.
Qed.
(** the tasks that run are the same *)
Lemma run_put w a s a0 k t : get w s = Some a0 -> (exists b, thr (put w a s) !! k = Some (Run t b)) <-> (exists b, thr s !! k = Some (Run t b)).
Proof.
  destruct w as [j|j]; simpl; [|tauto]. destruct (thr s !! j) as [[]|] eqn:E; try discriminate. intros _. simpl.
  destruct (decide (j = k)) as [->|Hn].
  - rewrite list_lookup_insert by (eapply lookup_lt_Some; eassumption). rewrite E. split; intros [b [= -> ?]]; eauto.
  - rewrite list_lookup_insert_ne by exact Hn. tauto.
Qed.
Lemma task_put w a s a0 w' : get w s = Some a0 -> task w' (put w a s) = task w' s.
Proof.
  destruct w as [j|j]; simpl; [|destruct w'; reflexivity]. destruct (thr s !! j) as [[]|] eqn:E; try discriminate. intros _. simpl.
  destruct w' as [k|]; [|reflexivity]. simpl. destruct (decide (j = k)) as [->|Hn].
  - rewrite list_lookup_insert by (eapply lookup_lt_Some; eassumption). rewrite E. reflexivity.
  - rewrite list_lookup_insert_ne by exact Hn. reflexivity.
Qed.

Lemma get_set_pos w k p s : k < length (thr s) -> get w (set_pos k p s) = if decide (w = T k) then act_of p else get w s.
Proof.
  intros Hk. destruct w as [j|j]; [|reflexivity]. destruct (decide (T j = T k)) as [[= ->]|Hn].
  - rewrite get_T. simpl. rewrite list_lookup_insert by exact Hk. reflexivity.
  - simpl. rewrite list_lookup_insert_ne by congruence. reflexivity.
Qed.

Lemma notify_proj j s : qs (notify j s) = qs s /\ flag (notify j s) = flag s /\ fin (notify j s) = fin s /\ idx (notify j s) = idx s /\
  next (notify j s) = next s /\ cl (notify j s) = cl s /\ length (thr (notify j s)) = length (thr s).
Proof. unfold notify. destruct (thr s !! j) as [[]|]; simpl; rewrite ?insert_length; auto 10. Qed.
Lemma get_notify j w s : get w (notify j s) = get w s.
Proof.
  unfold notify. destruct (thr s !! j) as [[]|] eqn:E; try reflexivity. rewrite get_set_pos by (eapply lookup_lt_Some; eassumption).
  destruct (decide (w = T j)) as [->|]; [|reflexivity]. rewrite get_T, E. reflexivity.
Qed.
Lemma thr_notify_ne j s k p : (forall b, p <> Wait b) -> thr (notify j s) !! k = Some p <-> thr s !! k = Some p.
Proof.
  intros Hp. unfold notify. destruct (thr s !! j) as [[]|] eqn:E; try tauto. simpl. destruct (decide (j = k)) as [->|Hn].
  - rewrite list_lookup_insert by (eapply lookup_lt_Some; eassumption). rewrite E. split; intros [= <-]; exfalso; eapply Hp; reflexivity.
  - rewrite list_lookup_insert_ne by exact Hn. tauto.
Qed.
Lemma thr_notify_wait j s k : (exists b, thr (notify j s) !! k = Some (Wait b)) <-> (exists b, thr s !! k = Some (Wait b)).
Proof.
  unfold notify. destruct (thr s !! j) as [[]|] eqn:E; try tauto. simpl. destruct (decide (j = k)) as [->|Hn].
  - rewrite list_lookup_insert by (eapply lookup_lt_Some; eassumption). rewrite E. split; eauto.
  - rewrite list_lookup_insert_ne by exact Hn. tauto.
Qed.
Lemma thr_notify_false j s k : thr (notify j s) !! k = Some (Wait false) -> thr s !! k = Some (Wait false) /\ k <> j.
Proof.
  unfold notify. destruct (decide (j = k)) as [->|Hn].
  - destruct (thr s !! k) as [[]|] eqn:E; simpl; try (rewrite E; discriminate).
    rewrite list_lookup_insert by (eapply lookup_lt_Some; eassumption). discriminate.
  - destruct (thr s !! j) as [[]|] eqn:E; simpl; rewrite ?list_lookup_insert_ne by exact Hn; auto.
Qed.
Lemma task_notify j s w : task w (notify j s) = task w s.
Proof.
  destruct w as [k|]; [|reflexivity]. unfold notify. destruct (thr s !! j) as [[]|] eqn:E; try reflexivity. simpl.
  destruct (decide (j = k)) as [->|Hn].
  - rewrite list_lookup_insert by (eapply lookup_lt_Some; eassumption). rewrite E. reflexivity.
  - rewrite list_lookup_insert_ne by exact Hn. reflexivity.
Qed.

Lemma push_proj j t s : flag (push j t s) = flag s /\ fin (push j t s) = fin s /\ idx (push j t s) = idx s /\ next (push j t s) = next s /\
  cl (push j t s) = cl s /\ thr (push j t s) = thr s /\ length (qs (push j t s)) = length (qs s).
Proof. unfold push. destruct (qs s !! j); simpl; rewrite ?insert_length; auto 10. Qed.
Lemma get_ext w s s' : thr s' = thr s -> cl s' = cl s -> get w s' = get w s.
Proof. intros Ht Hc. destruct w; simpl; rewrite ?Ht, ?Hc; reflexivity. Qed.
Lemma task_ext w s s' : thr s' = thr s -> task w s' = task w s.
Proof. intros Ht. destruct w; simpl; rewrite ?Ht; reflexivity. Qed.
