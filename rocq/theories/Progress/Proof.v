From stdpp Require Import gmap.
From Coq Require Import ZArith Lia.
From Verif.Progress Require Import Model.
Open Scope Z_scope.

(** The number of live functions that hold a link. *)
Definition linked (m : gmap nat bool) : nat := size (filter (fun x => x.2 = true) m).

Lemma wrap_add a b : wrap (wrap a + b) = wrap (a + b).
Proof. apply Zplus_mod_idemp_l. Qed.
Lemma wrap_sub a b : wrap (wrap a - b) = wrap (a - b).
Proof. apply Zminus_mod_idemp_l. Qed.

Definition b2n (b : bool) : nat := if b then 1 else 0.
Lemma linked_insert m i b : m !! i = None -> linked (<[i := b]> m) = (linked m + b2n b)%nat.
Proof.
  intros H. unfold linked. destruct b; simpl.
  - rewrite map_filter_insert_True by auto. rewrite map_size_insert_None; [lia|].
    apply map_filter_lookup_None. auto.
  - rewrite map_filter_insert_False by discriminate. rewrite delete_notin by auto. lia.
Qed.
Lemma linked_delete m i b : m !! i = Some b -> linked m = (linked (delete i m) + b2n b)%nat.
Proof.
  intros H. rewrite <- (insert_delete m i b H) at 1. apply linked_insert, lookup_delete.
Qed.

Lemma linked_put m i b b' : m !! i = Some b -> (linked (<[i := b']> m) + b2n b = linked m + b2n b')%nat.
Proof.
  intros H. rewrite <- insert_delete_insert, linked_insert by apply lookup_delete. rewrite (linked_delete m i b H). lia.
Qed.

(** ** what a history did, read off its log *)
(** the functions that counted at the time: invocations that returned through a linked object while
    the tracker existed *)
Fixpoint returns (s : state) (os : list op) : nat :=
  match os with
  | [] => 0
  | o :: os =>
    match step s o with
    | None => 0
    | Some s' => (match o with Invoke i => match clients s !! i with Some b => b2n (b && alive s) | None => 0 end | _ => 0 end
                  + returns s' os)%nat
    end
  end.
Definition no_assign (o : op) : Prop := match o with CopyAssign _ _ | MoveAssign _ _ => False | _ => True end.

Lemma completed_spec os : forall s s', run s os = Some s' -> done_tasks s = wrap (done_tasks s) ->
  completed s' = wrap (done_tasks s + Z.of_nat (returns s os)).
Proof.
  induction os as [|o os IH]; intros s s' E W; simpl in E.
  - injection E as <-. simpl. rewrite Z.add_0_r. auto.
  - cbn [returns]. destruct (step s o) as [s1|] eqn:E1; [|discriminate].
    assert (H : done_tasks s1 = wrap (done_tasks s + Z.of_nat (match o with Invoke i => match clients s !! i with Some b => b2n (b && alive s) | None => 0 end | _ => 0 end))).
    { destruct o as [i|i j|i j|i j|i j|i|i|i|]; simpl in E1;
        repeat match type of E1 with
        | match ?x with _ => _ end = _ => destruct x eqn:?; try discriminate
        | (if ?x then _ else _) = _ => destruct x; try discriminate
        end; injection E1 as <-; unfold add_task, drop_task, task_done, put; simpl;
        try (destruct (_ && _)); simpl; rewrite ?Z.add_0_r; auto.
      - destruct (alive s); simpl; rewrite ?Z.add_0_r; auto. }
    rewrite (IH s1 s' E).
    + rewrite H, wrap_add. f_equal. lia.
    + rewrite H. unfold wrap. rewrite Z.mod_mod by lia. auto.
Qed.

Definition sinv (s : state) : Prop := alive s = true -> task_number s = wrap (Z.of_nat (linked (clients s))).

Lemma step_inv s o s' : no_assign o -> step s o = Some s' -> sinv s -> sinv s'.
Proof.
  intros Hn E I. unfold sinv in *. destruct o as [i|i j|i j|i j|i j|i|i|i|]; simpl in Hn; try tauto; simpl in E.
  - destruct (clients s !! i) eqn:Ei; [discriminate|]. destruct (alive s) eqn:Ea; [|discriminate]. injection E as <-.
    unfold add_task. simpl. rewrite Ea. simpl. intros _. rewrite I by auto. rewrite linked_insert by auto.
    rewrite wrap_add. f_equal. simpl. lia.
  - destruct (clients s !! i) eqn:Ei; [discriminate|]. destruct (clients s !! j) as [b|] eqn:Ej; [|discriminate].
    injection E as <-. unfold add_task. simpl. destruct b, (alive s) eqn:Ea; simpl; try (intros; congruence); intros _; rewrite I by auto;
      rewrite linked_insert by auto; rewrite ?wrap_add; f_equal; simpl; lia.
  - destruct (clients s !! i) eqn:Ei; [discriminate|]. destruct (clients s !! j) as [b|] eqn:Ej; [|discriminate].
    injection E as <-. simpl. intros Ha. rewrite I by auto. f_equal. f_equal.
    assert (i <> j) by congruence.
    pose proof (linked_put (<[i:=b]> (clients s)) j b false) as H1. rewrite (linked_insert (clients s) i b) in H1 by auto.
    rewrite lookup_insert_ne in H1 by auto. specialize (H1 Ej). simpl in H1. lia.
  - destruct (clients s !! i) as [b|] eqn:Ei; [|discriminate]. injection E as <-. unfold task_done.
    destruct (b && alive s); auto.
  - destruct (clients s !! i) as [b|] eqn:Ei; [|discriminate]. injection E as <-. auto.
  - destruct (clients s !! i) as [b|] eqn:Ei; [|discriminate]. injection E as <-.
    pose proof (linked_delete _ _ _ Ei) as Hl. unfold drop_task.
    destruct b, (alive s) eqn:Ea; simpl; try (intros; congruence); intros _; rewrite I by auto; rewrite ?wrap_sub; f_equal; simpl in Hl; lia.
  - destruct (alive s); [|discriminate]. injection E as <-. discriminate.
Qed.

Lemma steps_spec os : forall s s', Forall no_assign os -> run s os = Some s' -> sinv s -> sinv s'.
Proof.
  induction os as [|o os IH]; intros s s' F E I; simpl in E; [injection E as <-; auto|].
  inversion F; subst. destruct (step s o) eqn:E1; [|discriminate]. eapply IH; eauto. eapply step_inv; eauto.
Qed.

Lemma steps_final os s : Forall no_assign os -> run init os = Some s -> alive s = true ->
  steps s = Z.of_nat (linked (clients s)) mod 2 ^ 64.
Proof. intros F E. apply (steps_spec os init s); auto. intros _. vm_compute. auto. Qed.

Lemma completed_final os s : run init os = Some s -> completed s = Z.of_nat (returns init os) mod 2 ^ 64.
Proof. intros E. rewrite (completed_spec os init s E); auto. Qed.

(** ** with assignment: the link that an assignment overwrites is never given back *)
(** the assignments over a function that was linked, while the tracker existed *)
Fixpoint lost (s : state) (os : list op) : nat :=
  match os with
  | [] => 0
  | o :: os =>
    match step s o with
    | None => 0
    | Some s' =>
      (match o with
       | CopyAssign i _ => match clients s !! i with Some b => b2n (b && alive s) | None => 0 end
       | MoveAssign i j => if decide (i = j) then 0 else match clients s !! i with Some b => b2n (b && alive s) | None => 0 end
       | _ => 0
       end + lost s' os)%nat
    end
  end.
Definition xinv (k : nat) (s : state) : Prop := alive s = true -> task_number s = wrap (Z.of_nat (linked (clients s) + k)).

Lemma wrap_nat_add a (b : Z) c : Z.of_nat a + b = Z.of_nat c -> wrap (wrap (Z.of_nat a) + b) = wrap (Z.of_nat c).
Proof. intros <-. apply wrap_add. Qed.

Lemma step_exact k s o s' : step s o = Some s' -> xinv k s ->
  xinv (k + match o with
       | CopyAssign i _ => match clients s !! i with Some b => b2n (b && alive s) | None => 0 end
       | MoveAssign i j => if decide (i = j) then 0 else match clients s !! i with Some b => b2n (b && alive s) | None => 0 end
       | _ => 0
       end) s'.
Proof.
  intros E I. unfold xinv in *. destruct o as [i|i j|i j|i j|i j|i|i|i|]; simpl in E.
  - destruct (clients s !! i) eqn:Ei; [discriminate|]. destruct (alive s) eqn:Ea; [|discriminate]. injection E as <-.
    unfold add_task. simpl. rewrite Ea. simpl. intros _. rewrite I by auto. rewrite linked_insert by auto.
    apply wrap_nat_add. simpl. lia.
  - destruct (clients s !! i) eqn:Ei; [discriminate|]. destruct (clients s !! j) as [b|] eqn:Ej; [|discriminate].
    injection E as <-. unfold add_task. simpl. destruct b, (alive s) eqn:Ea; simpl; try (intros; congruence); intros _; rewrite I by auto;
      rewrite linked_insert by auto; rewrite ?wrap_add; f_equal; simpl; lia.
  - destruct (clients s !! i) eqn:Ei; [discriminate|]. destruct (clients s !! j) as [b|] eqn:Ej; [|discriminate].
    injection E as <-. simpl. intros Ha. rewrite I by auto. f_equal. f_equal.
    assert (i <> j) by congruence.
    pose proof (linked_put (<[i:=b]> (clients s)) j b false) as H1. rewrite (linked_insert (clients s) i b) in H1 by auto.
    rewrite lookup_insert_ne in H1 by auto. specialize (H1 Ej). simpl in H1. lia.
  - destruct (clients s !! i) as [b|] eqn:Ei; [|discriminate]. destruct (clients s !! j) as [b'|] eqn:Ej; [|discriminate].
    injection E as <-. pose proof (linked_put (clients s) i b b' Ei) as H1. unfold add_task. simpl.
    destruct (alive s) eqn:Ea; [|destruct b'; simpl; intros; congruence].
    destruct b'; simpl; intros _; rewrite I by auto; rewrite ?wrap_add; f_equal; destruct b; simpl in *; lia.
  - destruct (clients s !! i) as [b|] eqn:Ei; [|discriminate]. destruct (clients s !! j) as [b'|] eqn:Ej; [|discriminate].
    destruct (decide (i = j)) as [->|Hij].
    + injection E as <-. intros Ha. rewrite I by auto. f_equal. lia.
    + injection E as <-. simpl. intros Ha. rewrite I by auto. rewrite Ha, andb_true_r. f_equal.
      pose proof (linked_put (clients s) i b b' Ei) as H1.
      pose proof (linked_put (<[i := b']> (clients s)) j b' false) as H2. rewrite lookup_insert_ne in H2 by auto.
      specialize (H2 Ej). simpl in H2. lia.
  - destruct (clients s !! i) as [b|] eqn:Ei; [|discriminate]. injection E as <-. unfold task_done. rewrite Nat.add_0_r.
    destruct (b && alive s); auto.
  - destruct (clients s !! i) as [b|] eqn:Ei; [|discriminate]. injection E as <-. rewrite Nat.add_0_r. auto.
  - destruct (clients s !! i) as [b|] eqn:Ei; [|discriminate]. injection E as <-.
    pose proof (linked_delete _ _ _ Ei) as Hl. unfold drop_task.
    destruct b, (alive s) eqn:Ea; simpl; try (intros; congruence); intros _; rewrite I by auto; rewrite ?wrap_sub; f_equal; simpl in Hl; lia.
  - destruct (alive s); [|discriminate]. injection E as <-. discriminate.
Qed.

Lemma exact_spec os : forall k s s', run s os = Some s' -> xinv k s -> xinv (k + lost s os) s'.
Proof.
  induction os as [|o os IH]; intros k s s' E I; simpl in E; cbn [lost].
  - injection E as <-. by rewrite Nat.add_0_r.
  - destruct (step s o) as [s1|] eqn:E1; [|discriminate]. rewrite Nat.add_assoc. eapply IH; [exact E|].
    by apply step_exact.
Qed.
Lemma exact_final os s : run init os = Some s -> alive s = true ->
  steps s = Z.of_nat (linked (clients s) + lost init os) mod 2 ^ 64.
Proof. intros E. apply (exact_spec os 0 init s E). intros _. vm_compute. auto. Qed.
