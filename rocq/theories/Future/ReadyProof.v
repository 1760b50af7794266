From Coq Require Import List Bool Lia.
From stdpp Require Import list.
From Verif.Future Require Import Model Ready ReadySpec.

Lemma look_app {A} (l k : list A) n : (l ++ k) !! (length l + n) = k !! n.
Proof. rewrite lookup_app_r by lia. f_equal. lia. Qed.
Lemma rem_app r k i s : rs s = r ++ k -> rem (length r + i) s = St (cs s) (r ++ (take i k ++ drop (S i) k)) (nk s).
Proof.
  intros E. unfold rem. rewrite E. f_equal. clear E. induction r as [|x r IH]; [done|]. simpl. f_equal. exact IH.
Qed.
Lemma set_app r k i x s : rs s = r ++ k -> set (length r + i) x s = St (cs s) (r ++ <[i := x]> k) (nk s).
Proof. intros E. unfold set. rewrite E. by rewrite insert_app_r. Qed.
Lemma get_last cs0 x r k : get_cell (St (cs0 ++ [x]) r k) (length cs0) = x.
Proof. unfold get_cell. simpl. rewrite list_lookup_middle by done. by destruct x. Qed.
Lemma put_last cs0 x y r k : put (length cs0) y (St (cs0 ++ [x]) r k) = St (cs0 ++ [Some y]) r k.
Proof.
  unfold put. simpl. f_equal. replace (length cs0) with (length cs0 + 0) at 1 by lia. by rewrite insert_app_r.
Qed.
Global Arguments rem : simpl never.
Global Arguments set : simpl never.
Global Arguments get_cell : simpl never.
Global Arguments put : simpl never.

Definition one (n : nat) (o : option outcome) f := Some (Cell o false [] f None n).

Ltac look := cbn [step rs]; rewrite look_app; cbn [lookup list_lookup act_on].
Ltac fin := unfold add, one; cbn [cs rs nk]; by rewrite <- ?app_assoc.

Lemma ready_run v s : run s (make_ready v s) =
    Some (St (cs s ++ [one 1 (Some (Val v)) None]) (rs s ++ [Fut (length (cs s))]) (nk s),
          [New (length (cs s)) User; Called (length (cs s)) None; Returned (length (cs s)) (RVal v); Resolved (length (cs s)) (Val v)]).
Proof.
  destruct s as [c r k]. unfold make_ready. cbn [rs cs nk].
  remember (length c) as n eqn:Hn.
  replace (S (S (length r))) with (length r + 2) by lia. replace (S (length r)) with (length r + 1) by lia.
  assert (S1 : step (St c r k) (LPackage []) = Some (St (c ++ [one 1 None (Some (User, []))]) (r ++ [Fut n; Tok n]) k, [New n User])) by (by subst n).
  assert (S2 : step (St (c ++ [one 1 None (Some (User, []))]) (r ++ [Fut n; Tok n]) k) (L (length r + 1) AInvoke)
             = Some (St (c ++ [one 2 None (Some (User, []))]) (r ++ [Fut n; Frame n Enter]) k, [])).
  { look. unfold invoke. erewrite (rem_app r) by done. cbn [cs nk take drop app]. subst n. rewrite get_last. cbn [one]. rewrite put_last. fin. }
  assert (S3 : step (St (c ++ [one 2 None (Some (User, []))]) (r ++ [Fut n; Frame n Enter]) k) (L (length r + 1) AStep)
             = Some (St (c ++ [one 2 None (Some (User, []))]) (r ++ [Fut n; Frame n Body]) k, [Called n None])).
  { look. unfold frame. subst n. rewrite get_last. cbn [one fn]. erewrite (set_app r) by done. fin. }
  assert (S4 : step (St (c ++ [one 2 None (Some (User, []))]) (r ++ [Fut n; Frame n Body]) k) (L (length r + 1) (AVal v))
             = Some (St (c ++ [one 3 (Some (Val v)) (Some (User, []))]) (r ++ [Fut n; Frame n Fin; Hand (Some n) []]) k, [Returned n (RVal v); Resolved n (Val v)])).
  { look. unfold frame. subst n. rewrite get_last. cbn [one]. erewrite (set_app r) by done. unfold resolve. cbn [cs nk].
    rewrite get_last. cbn [one out thens]. rewrite put_last. fin. }
  assert (S5 : step (St (c ++ [one 3 (Some (Val v)) (Some (User, []))]) (r ++ [Fut n; Frame n Fin; Hand (Some n) []]) k) (L (length r + 1) AStep)
             = Some (St (c ++ [one 3 (Some (Val v)) None]) (r ++ [Fut n; Drop n; Hand (Some n) []]) k, [])).
  { look. unfold frame. subst n. rewrite get_last. cbn [one fn]. erewrite (set_app r) by done. cbn [cs nk]. rewrite put_last.
    unfold add. cbn. by rewrite app_nil_r. }
  assert (S6 : step (St (c ++ [one 3 (Some (Val v)) None]) (r ++ [Fut n; Drop n; Hand (Some n) []]) k) (L (length r + 2) AStep)
             = Some (St (c ++ [one 3 (Some (Val v)) None]) (r ++ [Fut n; Drop n; Drop n]) k, [])).
  { look. by erewrite (set_app r) by done. }
  assert (S7 : step (St (c ++ [one 3 (Some (Val v)) None]) (r ++ [Fut n; Drop n; Drop n]) k) (L (length r + 1) AStep)
             = Some (St (c ++ [one 2 (Some (Val v)) None]) (r ++ [Fut n; Drop n]) k, [])).
  { look. subst n. rewrite get_last. cbn [one strong Nat.eqb]. rewrite put_last. by erewrite (rem_app r) by done. }
  assert (S8 : step (St (c ++ [one 2 (Some (Val v)) None]) (r ++ [Fut n; Drop n]) k) (L (length r + 1) AStep)
             = Some (St (c ++ [one 1 (Some (Val v)) None]) (r ++ [Fut n]) k, [])).
  { look. subst n. rewrite get_last. cbn [one strong Nat.eqb]. rewrite put_last. by erewrite (rem_app r) by done. }
  cbn [run]. by rewrite S1, S2, S3, S4, S5, S6, S7, S8.
Qed.

Lemma exceptional_run e s : run s (make_exceptional e s) =
    Some (St (cs s ++ [one 1 (Some (Exc (Err e))) None]) (rs s ++ [Fut (length (cs s))]) (nk s),
          [New (length (cs s)) User; Abandoned (length (cs s)); Resolved (length (cs s)) (Exc (Err e))]).
Proof.
  destruct s as [c r k]. unfold make_exceptional. cbn [rs cs nk].
  remember (length c) as n eqn:Hn. replace (S (length r)) with (length r + 1) by lia.
  assert (S1 : step (St c r k) (LPackage []) = Some (St (c ++ [one 1 None (Some (User, []))]) (r ++ [Fut n; Tok n]) k, [New n User])) by (by subst n).
  assert (S2 : step (St (c ++ [one 1 None (Some (User, []))]) (r ++ [Fut n; Tok n]) k) (L (length r + 1) (AExc e))
             = Some (St (c ++ [one 2 (Some (Exc (Err e))) None]) (r ++ [Fut n; Hand (Some n) []]) k, [Abandoned n; Resolved n (Exc (Err e))])).
  { look. unfold abandon. erewrite (rem_app r) by done. cbn [cs nk take drop app]. subst n. rewrite get_last. cbn [one]. rewrite put_last.
    unfold resolve. rewrite get_last. cbn [one out thens set_fn]. rewrite put_last. unfold add. cbn. by rewrite <- !app_assoc. }
  assert (S3 : step (St (c ++ [one 2 (Some (Exc (Err e))) None]) (r ++ [Fut n; Hand (Some n) []]) k) (L (length r + 1) AStep)
             = Some (St (c ++ [one 2 (Some (Exc (Err e))) None]) (r ++ [Fut n; Drop n]) k, [])).
  { look. by erewrite (set_app r) by done. }
  assert (S4 : step (St (c ++ [one 2 (Some (Exc (Err e))) None]) (r ++ [Fut n; Drop n]) k) (L (length r + 1) AStep)
             = Some (St (c ++ [one 1 (Some (Exc (Err e))) None]) (r ++ [Fut n]) k, [])).
  { look. subst n. rewrite get_last. cbn [one strong Nat.eqb]. rewrite put_last. by erewrite (rem_app r) by done. }
  cbn [run]. by rewrite S1, S2, S3, S4.
Qed.

Lemma makes_one s o : makes s (St (cs s ++ [one 1 (Some o) None]) (rs s ++ [Fut (length (cs s))]) (nk s)) (length (cs s)) o.
Proof.
  unfold makes. cbn [cs rs]. split_and!.
  - by apply lookup_ge_None.
  - intros d Hd. destruct (decide (d < length (cs s))) as [L|L]; [by apply lookup_app_l|].
    rewrite !lookup_ge_None_2; [done| |rewrite app_length; simpl]; lia.
  - done.
  - intros mv. cbn [step rs]. rewrite list_lookup_middle by done. cbn [act_on]. rewrite get_last. cbn [one out got_moved].
    destruct o; eexists; done.
Qed.
Lemma hands_one c0 o r k : hands_over (St (c0 ++ [one 1 (Some o) None]) (r ++ [Fut (length c0)]) k) (length c0).
Proof.
  exists (St (c0 ++ [one 2 (Some o) None; one 1 None (Some (Then (length c0), []))])
             (r ++ [Fut (length c0); Fut (S (length c0)); Hand None []; Job (S (length c0))]) k), (S (length c0)), (length r + 2).
  eexists. split; [|split].
  - assert (S1 : step (St (c0 ++ [one 1 (Some o) None]) (r ++ [Fut (length c0)]) k) (LThen (length c0) []) =
      Some (St (c0 ++ [one 2 (Some o) None; one 1 None (Some (Then (length c0), []))])
               (r ++ [Fut (length c0); Fut (S (length c0)); Hand None [KTask (S (length c0))]]) k, [New (S (length c0)) (Then (length c0))])).
    { cbn [step]. assert (H : holds (St (c0 ++ [one 1 (Some o) None]) (r ++ [Fut (length c0)]) k) (length c0) = true).
      { unfold holds. cbn [rs]. rewrite existsb_app. simpl. rewrite Nat.eqb_refl. by rewrite orb_true_r. }
      rewrite H. cbn [forallb andb incrs foldr]. unfold incr. rewrite get_last. cbn [one]. rewrite put_last. unfold fresh. cbn [cs rs nk].
      unfold attach, add. cbn [cs rs nk]. rewrite <- app_assoc. cbn [app].
      unfold get_cell. cbn [cs]. rewrite list_lookup_middle by done. cbn [out set_strong]. rewrite <- !app_assoc. cbn [app].
      replace (length (c0 ++ [one 1 (Some o) None])) with (S (length c0)); [done|]. rewrite app_length. simpl. lia. }
    cbn [run]. rewrite S1. cbn [step rs]. rewrite look_app. cbn [lookup list_lookup act_on]. erewrite (set_app r) by done.
    unfold add. cbn [cs rs nk]. rewrite <- app_assoc. reflexivity.
  - cbn [cs]. apply lookup_ge_None_2. rewrite app_length. simpl. lia.
  - done.
Qed.

Lemma ready_ok v s : exists s' tr c, run s (make_ready v s) = Some (s', tr) /\ makes s s' c (Val v) /\
  Resolved c (Val v) ∈ tr /\ (forall d, Handed d ∉ tr) /\ (forall d o, Called d o ∈ tr -> d = c) /\ hands_over s' c.
Proof.
  eexists _, _, (length (cs s)). split; [apply ready_run|]. split; [apply makes_one|]. split_and!.
  - by repeat constructor.
  - intros d. rewrite elem_of_list_In. simpl. intuition congruence.
  - intros d o. rewrite elem_of_list_In. simpl. intuition congruence.
  - apply hands_one.
Qed.
Lemma exceptional_ok e s : exists s' tr c, run s (make_exceptional e s) = Some (s', tr) /\ makes s s' c (Exc (Err e)) /\
  Resolved c (Exc (Err e)) ∈ tr /\ (forall d, Handed d ∉ tr) /\ (forall d o, Called d o ∉ tr) /\ hands_over s' c.
Proof.
  eexists _, _, (length (cs s)). split; [apply exceptional_run|]. split; [apply makes_one|]. split_and!.
  - by repeat constructor.
  - intros d. rewrite elem_of_list_In. simpl. intuition congruence.
  - intros d o. rewrite elem_of_list_In. simpl. intuition congruence.
  - apply hands_one.
Qed.
