(** C54: tuple and index-sequence algorithms. *)
From stdpp Require Import list.
From Verif.Tuple Require Import Model Proof.

Theorem C54_tuple_find {A} (t : list A) op : exists i, tuple_find t op = Some i /\
  (forall j x, j < i -> t !! j = Some x -> op x = false) /\
  (forall x, t !! i = Some x -> op x = true) /\
  (length t <= i <-> forall x, x ∈ t -> op x = false).
Proof. exact (tuple_find_spec t op). Qed.

Theorem C54_get_i {A B} (t : list A) index (f : A -> B) d : get_i t index f d = Some (from_option f d (t !! index)).
Proof. exact (get_i_spec t index f d). Qed.

Theorem C54_void_i {A} (t : list A) index (f : A -> A) : exists t', void_i t index f = Some t' /\ length t' = length t /\
  t' !! index = f <$> t !! index /\ forall j, j <> index -> t' !! j = t !! j.
Proof. exact (void_i_final t index f). Qed.

(** Each element once, first to last, the state threaded through. *)
Theorem C54_tuple_for_each {A St} (op : A -> St -> A * St) (t : list A) s :
  tuple_for_each op t s = Some (visit op t s).
Proof. exact (for_each_spec op t s). Qed.

Theorem C54_apply_indexed {A} (t : list A) (s : list nat) : (forall i, i ∈ s -> i < length t) ->
  exists r, apply_indexed s t = Some r /\ Forall2 (fun i x => t !! i = Some x) s r.
Proof. exact (apply_indexed_all t s). Qed.

Theorem C54_index_sequence_transform (s : list nat) (f : nat -> option (list nat)) fuel : length s < fuel ->
  index_sequence_transform fuel s f 0 (length s) = concat (A:=nat) <$> mapM f s.
Proof. exact (transform_all s f fuel). Qed.

(** remove_placeholder with index_sequence_transform and apply_indexed (as when_all uses them) passes
    exactly the elements that are not placeholders, in order. *)
Theorem C54_remove_placeholder {A} (ph : A -> bool) (t : list A) fuel : length t < fuel ->
  exists s, index_sequence_transform fuel (seq 0 (length t)) (remove_placeholder ph t) 0 (length t) = Some s /\
    apply_indexed s t = Some (filter (fun x => ph x = false) t).
Proof. exact (without_placeholders ph t fuel). Qed.

(** apply_ignore_placeholders passes placeholders on like any other element. *)
Theorem C54_apply_ignore_placeholders_refuted : exists (ph : option nat -> bool) (t r : list (option nat)),
  apply_ignore_placeholders t = Some r /\ r <> filter (fun x => ph x = false) t.
Proof. exists (fun x => match x with None => true | _ => false end), [Some 1; None; Some 2], [Some 1; None; Some 2]. split; [reflexivity|discriminate]. Qed.

(** all_true is true if and only if all are. *)
Theorem C54_all_true (v : list bool) : all_true v = true <-> Forall (fun b => b = true) v.
Proof. exact (all_true_iff v). Qed.
Example C54_all_true_ex : all_true [true; true] = true /\ all_true [true; false; true] = false. Proof. split; reflexivity. Qed.

Example C54_find_ex : tuple_find [3; 5; 8; 9] Nat.even = Some 2. Proof. reflexivity. Qed.
Example C54_void_ex : void_i [3; 5; 8] 1 S = Some [3; 6; 8]. Proof. reflexivity. Qed.
Example C54_transform_ex : index_sequence_transform 9 [4; 0; 2; 7; 1] (fun n => Some (if Nat.even n then [n; n] else [])) 0 5
  = Some [4; 4; 0; 0; 2; 2]. Proof. reflexivity. Qed.
Example C54_placeholder_ex := C54_remove_placeholder Nat.even [1; 2; 3; 4; 5] 6 (le_n _).
Example C54_indexed_ex : apply_indexed [2; 0] [7; 8; 9] = Some [9; 7]. Proof. reflexivity. Qed.

Print Assumptions C54_tuple_find.
Print Assumptions C54_get_i.
Print Assumptions C54_void_i.
Print Assumptions C54_tuple_for_each.
Print Assumptions C54_apply_indexed.
Print Assumptions C54_index_sequence_transform.
Print Assumptions C54_remove_placeholder.
Print Assumptions C54_apply_ignore_placeholders_refuted.
Print Assumptions C54_all_true.
