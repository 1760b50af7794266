(** When nothing is running: every future is ready, and what nobody refers to is gone. *)
From Coq Require Import List Bool Lia ZArith.
From stdpp Require Import list relations.
From Verif.Lib Require Import Perm.
From Verif.Future Require Import Model Spec Step Lin LinInv Loc LocInv Hist Count Trace Moved Order Detach.

Lemma serial_cycle (n : nat) (P : nat -> Prop) (R : nat -> nat -> Prop) x0 :
  (forall x, P x -> x < n /\ exists y, P y /\ R x y) -> P x0 -> exists x, tc R x x.
Proof.
  intros H H0. assert (forall k, (exists x, tc R x x) \/ exists h l, length (h :: l) = S k /\ P h /\ NoDup (h :: l) /\
    (forall y, y ∈ h :: l -> y < n) /\ forall y, y ∈ l -> tc R y h) as HK.
  { induction k as [|k [IH|(h & l & L & Ph & N & B & C)]]; [|by left|].
    - right. exists x0, []. split_and!; [done|done|apply NoDup_singleton| |by intros ? ?%elem_of_nil].
      intros y ->%elem_of_list_singleton. by apply H.
    - destruct (H _ Ph) as (_ & y & Py & Ry). destruct (decide (y ∈ h :: l)) as [Hy|Hy].
      + left. exists y. apply elem_of_cons in Hy as [->|Hy]; [by apply tc_once|]. eapply tc_r; [by apply C|done].
      + right. exists y, (h :: l). split_and!; [simpl in *; lia|done|by apply NoDup_cons| |].
        * intros w [->|Hw]%elem_of_cons; [by apply H|by apply B].
        * intros w [->|Hw]%elem_of_cons; [by apply tc_once|]. eapply tc_r; [by apply C|done]. }
  destruct (HK n) as [?|(h & l & L & _ & N & B & _)]; [done|]. exfalso.
  assert (length (h :: l) <= length (seq 0 n)).
  { apply submseteq_length, NoDup_submseteq; [done|]. intros y Hy%B. apply elem_of_seq. lia. }
  rewrite seq_length in *. lia.
Qed.

Lemma new_ante tr s c x k l a : reach tr s -> get_cell s c = Some x -> fn x = Some (k, l) -> ante k = Some a -> waits tr c a.
Proof.
  intros R Hx Hf Ha. pose proof (hf_new _ _ (reach_hfn _ _ R) _ _ _ _ Hx Hf) as Hn. left.
  destruct k as [|q|q|[t|] q]; simpl in *; simplify_eq; try (by eexists; eauto). destruct Hn as (t & Hn). by eexists; eauto.
Qed.
Lemma lost_zero tr c : none_lost tr -> ev e_lost tr c = 0%Z.
Proof.
  intros H. unfold ev, z. destruct (decide (c ∈ tr ≫= e_lost)) as [(v & Hv & Hin)%elem_of_list_bind|N].
  - destruct v; simpl in Hv; try by apply elem_of_nil in Hv. by apply H in Hin.
  - rewrite cnt_in in N. lia.
Qed.
Lemma fn_waits tr s h y f : reach tr s -> only_futures s -> none_lost tr -> get_cell s h = Some y -> fn y = Some f ->
  exists a z, get_cell s a = Some z /\ out z = None /\ ante f.1 = Some a.
Proof.
  intros R Q L Hy Hf. destruct (reach_inv _ _ R) as [I V]. destruct (i_fn _ _ I h) as [H _]. specialize (H (ex_intro _ _ Hy)).
  rewrite lost_zero in H by done. destruct (meas_pos (F4r h) (F4c h) s) as [(r & Hr & HF)|(a & z & Hz & HF)]; [fold (M4 h); lia| |].
  - destruct (Q _ Hr) as (c & ->). unfold F4r in HF. simpl in HF. done.
  - unfold F4c in HF. destruct (decide (h ∈ c_pre z)) as [Hp|Hp].
    + apply in_ktask in Hp. destruct (v_ktask _ V _ _ _ _ Hz Hp Hy) as (k & l & Hf' & Ha). simplify_eq. exists a, z. split_and!; [done| |done].
      eapply (v_then _ V); [exact Hz|]. intros E. rewrite E in Hp. by apply elem_of_nil in Hp.
    + exfalso. assert (cnt h (c_pre z) = 0) as Hp0 by (rewrite cnt_in in Hp; lia). unfold is, Lin.z in HF. rewrite Hp0 in HF. destruct (Nat.eqb_spec h a) as [->|N]; [|simpl in HF; lia].
      simplify_eq. rewrite Hf in HF. simpl in HF. lia.
Qed.
Lemma unresolved_next tr s c x : reach tr s -> only_futures s -> none_lost tr -> get_cell s c = Some x -> out x = None ->
  exists a y, get_cell s a = Some y /\ out y = None /\ waits tr c a.
Proof.
  intros R Q L Hx Ho. destruct (reach_inv _ _ R) as [I V]. destruct (i_tok _ _ I c) as [H _]. specialize (H (ex_intro _ _ Hx)).
  rewrite lost_zero in H by done. destruct (meas_pos (F3r c) (F3c c) s) as [(r & Hr & HF)|(a & z & Hz & HF)]; [fold (M3 c); lia| |].
  - destruct (Q _ Hr) as (d & ->). unfold F3r in HF. simpl in HF. done.
  - unfold F3c in HF. destruct (decide (c ∈ c_pre z)) as [Hp|Hp]; [|destruct (decide (c ∈ c_prom z)) as [Hq|Hq]].
    + apply in_ktask in Hp. destruct (v_ktask _ V _ _ _ _ Hz Hp Hx) as (k & l & Hf' & Ha). exists a, z. split_and!; [done| |by eapply new_ante].
      eapply (v_then _ V); [exact Hz|]. intros E. rewrite E in Hp. by apply elem_of_nil in Hp.
    + unfold c_prom in Hq. destruct (fn z) as [[[| | |[t|] q] l]|] eqn:Hf; simpl in Hq; try by apply elem_of_nil in Hq.
      apply elem_of_list_singleton in Hq as <-. destruct (hf_fwd _ _ (reach_hfn _ _ R) _ _ _ _ _ Hz Hf) as (Hr & _).
      destruct (fn_waits _ _ _ _ _ R Q L Hz Hf) as (b & w & Hw & Hwo & [= <-]). exists q, w. split_and!; [done|done|by right].
    + exfalso. assert (cnt c (c_pre z) = 0) as Hp0 by (rewrite cnt_in in Hp; lia). assert (cnt c (c_prom z) = 0) as Hq0 by (rewrite cnt_in in Hq; lia). unfold is, Lin.z in HF. rewrite Hp0, Hq0 in HF. destruct (Nat.eqb_spec c a) as [->|N]; [|simpl in HF; lia].
      simplify_eq. rewrite Ho in HF. simpl in HF. lia.
Qed.
Lemma quiet_resolved tr s : reach tr s -> only_futures s -> none_lost tr -> no_cycle tr ->
  forall c x, get_cell s c = Some x -> exists o, out x = Some o.
Proof.
  intros R Q L A c x Hx. destruct (out x) as [o|] eqn:Ho; [eauto|]. exfalso.
  destruct (serial_cycle (length (cs s)) (fun c => exists x, get_cell s c = Some x /\ out x = None) (waits tr) c) as (d & Hd); [|eauto|by apply A in Hd].
  intros d (y & Hy & Hyo). split; [by eapply get_lt|]. destruct (unresolved_next _ _ _ _ R Q L Hy Hyo) as (a & z & ? & ? & ?). eauto 10.
Qed.

(** ** Reference counts *)
(** who refers to [c] *)
Definition referred (s : st) (c : nat) : Prop :=
  (exists r, r ∈ rs s /\ c ∈ r_strong r) \/ (exists d y, get_cell s d = Some y /\ c ∈ c_strong y).
Lemma alive_referred tr s c : reach tr s -> alive s c <-> referred s c.
Proof.
  intros R. destruct (reach_inv _ _ R) as [I V]. pose proof (i_ref _ _ I c) as H. rewrite M1_split in H. split.
  - intros (x & Hx). pose proof (i_pos _ _ I _ _ Hx). unfold sv in H. rewrite Hx in H.
    destruct (meas_pos (F1r c) (R1c c) s) as [(r & Hr & HF)|(d & y & Hy & HF)]; [fold (R1 c); unfold z in *; lia| |].
    + left. exists r. split; [done|]. apply cnt_in. unfold F1r, z in HF. lia.
    + right. exists d, y. split; [done|]. apply cnt_in. unfold R1c, z in HF. lia.
  - intros [(r & Hr & Hc)|(d & y & Hy & Hc)]; [by eapply ref_alive; eauto using i_ref|].
    unfold alive. destruct (get_cell s c) as [x|] eqn:Hx; [eauto|]. exfalso. unfold sv in H. rewrite Hx in H.
    pose proof (meas_ge_c _ _ (F1r_nn c) (R1c_nn c) _ _ _ Hy) as G. fold (R1 c) in G. apply cnt_pos in Hc. unfold R1c in G. lia.
Qed.
Lemma hold_new s l s' e dd y1 hh : no_ub s -> futs s -> tstep s l s' e -> get_cell s' dd = Some y1 -> hold y1 = Some hh ->
  (exists y0, get_cell s dd = Some y0 /\ hold y0 = Some hh) \/ dd < hh.
Proof.
  intros U F T HH. revert HH. tprep T; intros HH; csn HH; tkg; simpl; intros Hh; simplify_eq; eauto.
  all: right; by eapply get_lt.
Qed.
Lemma quiet_fn tr s h y : reach tr s -> only_futures s -> none_lost tr -> no_cycle tr -> get_cell s h = Some y -> fn y = None.
Proof.
  intros R Q L A Hy. destruct (fn y) as [f|] eqn:Hf; [|done]. destruct (fn_waits _ _ _ _ _ R Q L Hy Hf) as (a & z & Hz & Ho & _).
  destruct (quiet_resolved _ _ R Q L A _ _ Hz). congruence.
Qed.
Lemma reach_hold tr s : reach tr s -> forall d y h, get_cell s d = Some y -> hold y = Some h -> d < h.
Proof.
  induction 1 as [|tr s l s' e R IH T]; intros d y h Hy Hh; [by rewrite get_init in Hy|].
  destruct (reach_u _ _ R) as [U F]. destruct (hold_new _ _ _ _ _ _ _ U F T Hy Hh) as [(y0 & ? & ?)|]; [by eapply IH|done].
Qed.
Lemma quiet_empty tr s : reach tr s -> rs s = [] -> none_lost tr -> no_cycle tr -> forall c, ~ alive s c.
Proof.
  intros R Q L A c. assert (only_futures s) as QF by (intros r; rewrite Q; by intros ?%elem_of_nil).
  induction c as [c IH] using lt_wf_ind. intros Ha. apply (alive_referred _ _ _ R) in Ha as [(r & Hr & _)|(d & y & Hy & Hc)].
  - rewrite Q in Hr. by apply elem_of_nil in Hr.
  - destruct (reach_inv _ _ R) as [I V]. unfold c_strong in Hc. rewrite (quiet_fn _ _ _ _ R QF L A Hy) in Hc. simpl in Hc.
    destruct (quiet_resolved _ _ R QF L A _ _ Hy) as (o & Ho).
    destruct (thens y) as [|k ks] eqn:Ht; [|rewrite (v_then _ V _ _ Hy) in Ho; [done|by rewrite Ht]].
    destruct (hold y) as [h|] eqn:Hh; simpl in Hc; [|by apply elem_of_nil in Hc].
    apply elem_of_list_singleton in Hc as ->. eapply (IH d); [by eapply reach_hold|by eexists].
Qed.
Lemma lost_never tr s c o : reach tr s -> Lost c ∈ tr -> Resolved c o ∉ tr.
Proof.
  intros R HL HR. pose proof (ret_once _ _ c R) as H.
  destruct (reach_cause _ _ R _ _ HR) as [(a & e & Hs & _)|[(Ha & _)|[(r & arg & Hr & _)|(t & q & Hs & _)]]].
  - pose proof (once_eq _ _ _ _ _ H HL Hs ltac:(by left) ltac:(by left)). done.
  - pose proof (once_eq _ _ _ _ _ H HL Ha ltac:(by left) ltac:(by left)). done.
  - pose proof (once_eq _ _ _ _ _ H HL Hr ltac:(by left) ltac:(by left)). done.
  - pose proof (once_eq _ _ _ _ _ H HL Hs ltac:(by left) ltac:(by left)). done.
Qed.
