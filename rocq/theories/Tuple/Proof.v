From stdpp Require Import list.
From Coq Require Import Lia.
From Verif.Tuple Require Import Model.

Section tuple.
Context {A : Type}.
Implicit Types (t : list A).

Lemma find_impl_spec op b : forall (a : list A),
  exists i, tuple_find_impl (length a) (length b) (a ++ b) op = Some (length a + i) /\ i <= length b /\
    (forall j x, j < i -> b !! j = Some x -> op x = false) /\
    (forall x, b !! i = Some x -> op x = true).
Proof.
  induction b as [|x b IH]; intros a; simpl.
  - exists 0. rewrite Nat.add_0_r. split; auto. split; auto. split; [intros; lia|]. intros x E. rewrite lookup_nil in E. discriminate.
  - rewrite list_lookup_middle by auto. destruct (op x) eqn:E.
    + exists 0. rewrite Nat.add_0_r. split; auto. split; [lia|]. split; [intros; lia|]. simpl. intros y Ey. congruence.
    + destruct (IH (a ++ [x])) as (i & Ei & Hi & H1 & H2). rewrite app_length, <- app_assoc in Ei. simpl in Ei.
      exists (S i). rewrite Ei. split; [f_equal; lia|]. split; [lia|]. split; auto.
      intros [|j] y Hj; simpl; [congruence|]. apply H1. lia.
Qed.

Lemma tuple_find_spec t op : exists i, tuple_find t op = Some i /\
  (forall j x, j < i -> t !! j = Some x -> op x = false) /\
  (forall x, t !! i = Some x -> op x = true) /\
  (length t <= i <-> forall x, x ∈ t -> op x = false).
Proof.
  unfold tuple_find. destruct (length t =? 0) eqn:El.
  - apply Nat.eqb_eq, nil_length_inv in El as ->. exists 1. split; auto. split; [intros j x _; rewrite lookup_nil; discriminate|].
    split; [intros x; rewrite lookup_nil; discriminate|]. split; [intros _ x Hx; inversion Hx|simpl; lia].
  - destruct (find_impl_spec op t []) as (i & Ei & Hi & H1 & H2). simpl in Ei. exists i. split; auto. split; auto. split; auto.
    split.
    + intros H x Hx. apply elem_of_list_lookup in Hx as [j Ej]. apply (H1 j); auto. apply lookup_lt_Some in Ej. lia.
    + intros H. destruct (decide (length t <= i)); auto. destruct (lookup_lt_is_Some_2 t i) as [x Ex]; [lia|].
      pose proof (H2 x Ex) as E. rewrite (H x) in E; [discriminate|]. apply elem_of_list_lookup. eauto.
Qed.

Lemma get_i_impl_spec {B} (f : A -> B) d index b : forall (a : list A), length a <= index ->
  get_i_impl (length a) (length b) (a ++ b) index f d = Some (from_option f d ((a ++ b) !! index)).
Proof.
  induction b as [|x b IH]; intros a Ha; simpl.
  - rewrite app_nil_r, lookup_ge_None_2 by auto. auto.
  - destruct (index =? length a) eqn:E.
    + apply Nat.eqb_eq in E as ->. rewrite list_lookup_middle by auto. auto.
    + apply Nat.eqb_neq in E. specialize (IH (a ++ [x])). rewrite app_length, <- app_assoc in IH. simpl in IH. apply IH. lia.
Qed.

Lemma get_i_spec {B} t index (f : A -> B) d : get_i t index f d = Some (from_option f d (t !! index)).
Proof. apply (get_i_impl_spec f d index t []). simpl. lia. Qed.

Lemma void_i_impl_spec (f : A -> A) index b : forall (a : list A), length a <= index ->
  void_i_impl (length a) (length b) (a ++ b) index f = Some (alter f index (a ++ b)).
Proof.
  induction b as [|x b IH]; intros a Ha; simpl.
  - rewrite app_nil_r. f_equal. symmetry. apply list_eq. intros j. destruct (decide (j = index)) as [->|Hj].
    + rewrite list_lookup_alter, lookup_ge_None_2 by auto. auto.
    + apply list_lookup_alter_ne. auto.
  - destruct (index =? length a) eqn:E.
    + apply Nat.eqb_eq in E as ->. rewrite list_lookup_middle by auto. simpl. f_equal.
      symmetry. rewrite <- (Nat.add_0_r (length a)) at 1. rewrite alter_app_r.
      rewrite <- (Nat.add_0_r (length a)), insert_app_r. auto.
    + apply Nat.eqb_neq in E. specialize (IH (a ++ [x])). rewrite app_length, <- app_assoc in IH. simpl in IH. apply IH. lia.
Qed.

Lemma void_i_spec t index (f : A -> A) : void_i t index f = Some (alter f index t).
Proof. apply (void_i_impl_spec f index t []). simpl. lia. Qed.

Lemma void_i_final t index (f : A -> A) : exists t', void_i t index f = Some t' /\ length t' = length t /\
  t' !! index = f <$> t !! index /\ forall j, j <> index -> t' !! j = t !! j.
Proof.
  rewrite void_i_spec. eexists. split; [reflexivity|]. split; [apply alter_length|]. split; [apply list_lookup_alter|].
  intros j Hj. apply list_lookup_alter_ne. auto.
Qed.

(** for_each visits the elements once each, in order. *)
Fixpoint visit {St} (op : A -> St -> A * St) t (s : St) : list A * St :=
  match t with
  | [] => ([], s)
  | x :: t => let '(y, s) := op x s in let '(t', s) := visit op t s in (y :: t', s)
  end.
Lemma for_each_impl_spec {St} (op : A -> St -> A * St) b : forall (a : list A) s,
  for_each_impl (length a) (length b) op (a ++ b) s = let '(b', s') := visit op b s in Some (a ++ b', s').
Proof.
  induction b as [|x b IH]; intros a s; simpl; auto.
  rewrite list_lookup_middle by auto. destruct (op x s) as [y s1].
  replace (<[length a:=y]> (a ++ x :: b)) with ((a ++ [y]) ++ b).
  - specialize (IH (a ++ [y]) s1). rewrite app_length in IH. simpl in IH. rewrite IH.
    destruct (visit op b s1). rewrite <- app_assoc. auto.
  - rewrite <- app_assoc, <- (Nat.add_0_r (length a)), insert_app_r. auto.
Qed.
Lemma for_each_spec {St} (op : A -> St -> A * St) t s : tuple_for_each op t s = Some (visit op t s).
Proof. pose proof (for_each_impl_spec op t [] s) as E. simpl in E. unfold tuple_for_each. rewrite E. destruct (visit op t s). auto. Qed.

Lemma apply_indexed_all t (s : list nat) : (forall i, i ∈ s -> i < length t) ->
  exists r, apply_indexed s t = Some r /\ Forall2 (fun i x => t !! i = Some x) s r.
Proof.
  intros Hs. unfold apply_indexed, apply_impl. destruct (mapM (fun i => t !! i) s) as [r|] eqn:E.
  - exists r. split; auto. apply mapM_Some. auto.
  - apply mapM_None, Exists_exists in E as (i & Hi & Ei). apply lookup_ge_None in Ei. specialize (Hs i Hi). lia.
Qed.

(** ** index_sequence_transform *)
Local Opaque Nat.div.
Lemma mapM_app (f : nat -> option (list nat)) (u v : list nat) : mapM f (u ++ v) = (x ← mapM f u; y ← mapM f v; Some (x ++ y)).
Proof.
  induction u as [|n u IH]; simpl; [destruct (mapM f v); auto|]. destruct (f n); simpl; auto. rewrite IH.
  destruct (mapM f u); simpl; auto. destruct (mapM f v); auto.
Qed.
Lemma transform_spec fuel : forall (s : list nat) (f : nat -> option (list nat)) a m b, s = a ++ m ++ b -> length m < fuel ->
  index_sequence_transform fuel s f (length a) (length m) = concat (A:=nat) <$> mapM f m.
Proof.
  induction fuel as [|fuel IH]; intros s f a m b -> Hf; [lia|].
  destruct m as [|x [|y m]].
  - auto.
  - simpl. rewrite list_lookup_middle by auto. simpl. destruct (f x); simpl; auto. rewrite app_nil_r. auto.
  - remember (x :: y :: m) as w. assert (Hl : length w = S (S (length m))) by (subst; auto).
    simpl. rewrite Hl. rewrite <- Hl. clear x y Heqw.
    set (k := length w / 2).
    assert (Hk : 0 < k < length w).
    { unfold k. split; [apply Nat.div_str_pos; lia|apply Nat.div_lt; lia]. }
    clearbody k. assert (exists u v, w = u ++ v /\ length u = k) as (u & v & -> & <-).
    { exists (take k w), (drop k w). rewrite take_drop, take_length. split; auto. lia. }
    rewrite app_length in *. replace (length u + length v - length u) with (length v) by lia.
    rewrite (IH _ f a u (v ++ b)); [|rewrite <- app_assoc; auto|lia].
    rewrite mapM_app. destruct (mapM f u) as [r1|]; simpl; auto.
    rewrite <- app_length.
    rewrite (IH _ f (a ++ u) v b); [|rewrite <- !app_assoc; auto|lia].
    destruct (mapM f v) as [r2|]; simpl; auto. rewrite concat_app. auto.
Qed.

Lemma transform_all (s : list nat) (f : nat -> option (list nat)) fuel : length s < fuel ->
  index_sequence_transform fuel s f 0 (length s) = concat (A:=nat) <$> mapM f s.
Proof. intros H. apply (transform_spec fuel s f [] s []); auto. rewrite app_nil_r. auto. Qed.

(** Selecting the arguments that are not placeholders. *)
Lemma without_placeholders (ph : A -> bool) t fuel : length t < fuel ->
  exists s, index_sequence_transform fuel (seq 0 (length t)) (remove_placeholder ph t) 0 (length t) = Some s /\
    apply_indexed s t = Some (filter (fun x => ph x = false) t).
Proof.
  intros Hf. pose proof (transform_all (seq 0 (length t)) (remove_placeholder ph t) fuel) as Et.
  rewrite seq_length in Et. rewrite Et by auto. clear Et.
  enough (H : forall b (a : list A), t = a ++ b -> exists r, mapM (remove_placeholder ph t) (seq (length a) (length b)) = Some r /\
    apply_indexed (concat r) t = Some (filter (fun x => ph x = false) b)).
  { destruct (H t [] eq_refl) as (r & Er & E). simpl in Er. exists (concat r). rewrite Er. auto. }
  unfold apply_indexed, apply_impl.
  induction b as [|x b IH]; intros a Ea; [exists []; auto|].
  destruct (IH (a ++ [x])) as (r & Er & E); [rewrite <- app_assoc; auto|].
  rewrite app_length in Er. simpl in Er. rewrite Nat.add_1_r in Er.
  assert (Ex : t !! length a = Some x) by (rewrite Ea; apply list_lookup_middle; auto).
  assert (Hr : remove_placeholder ph t (length a) = Some (if ph x then [] else [length a])).
  { unfold remove_placeholder. rewrite Ex. auto. }
  simpl. rewrite Hr. simpl. rewrite Er. simpl. eexists. split; [reflexivity|].
  simpl. rewrite filter_cons. destruct (ph x) eqn:Ep.
  - rewrite decide_False by discriminate. simpl. auto.
  - rewrite decide_True by auto. simpl. rewrite Ex. simpl. rewrite E. auto.
Qed.

End tuple.

(** ** all_true *)
Lemma all_true_iff v : all_true v = true <-> Forall (fun b => b = true) v.
Proof.
  unfold all_true. rewrite bool_decide_eq_true. induction v as [|b v IH]; simpl; [split; [constructor|done]|].
  rewrite Forall_cons. split.
  - intros E. injection E as <- E. split; [done|]. by apply IH.
  - intros [-> H]. f_equal. by apply IH.
Qed.
