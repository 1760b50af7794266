(** The leak, concretely; instances of the hypotheses. *)
From stdpp Require Import gmap list.
From Coq Require Import ZArith Lia.
From Verif.Forest Require Import Model Spec Rep World WorldSpec ProofWorld ProofRefute Example Throw ThrowSpec ThrowProof.

Lemma leak_witness : exists al (w : world nat) x f h' n m, good_alloc al /\ reach al w /\ w_objs w !! x = Some f /\
  copy_forest_t (wfuel w) al n (w_heap w) f = Ok (h', None) /\ w_heap w !! m = None /\ is_Some (h' !! m).
Proof.
  destruct (copy_forest_t (wfuel (es_w 7)) bump 1 (w_heap (es_w 7)) (FObj 5 0)) as [[h' r]| |] eqn:E;
    [|vm_compute in E; discriminate..].
  exists bump, (es_w 7), 2, (FObj 5 0), h', 1, 7. split; [apply bump_good|]. split; [apply es_reach|].
  split; [vm_compute; reflexivity|]. vm_compute in E. injection E as <- <-.
  split; [vm_compute; reflexivity|]. split; [vm_compute; reflexivity|]. vm_compute. eauto.
Qed.

Lemma thr_disj : fdisj (FObj 0 1) [Node 1 7 []] (FObj 5 0) [Node 3 8 []; Node 4 9 []].
Proof. intros n H1 H2. apply elem_of_list_In in H1, H2. vm_compute in H1, H2. intuition congruence. Qed.
Lemma thr_rep0 : Rep (w_heap (es_w 7)) (FObj 0 1) [Node 1 7 []].
Proof. apply rep_check_ok. reflexivity. Qed.
Lemma thr_rep2 : Rep (w_heap (es_w 7)) (FObj 5 0) [Node 3 8 []; Node 4 9 []].
Proof. apply rep_check_ok. reflexivity. Qed.
