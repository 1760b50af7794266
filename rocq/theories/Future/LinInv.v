(** The linear invariants are preserved. *)
From Coq Require Import List Bool Lia ZArith.
From stdpp Require Import list.
From Verif.Lib Require Import Perm.
From Verif.Future Require Import Model Spec Step Lin.
Local Open Scope Z_scope.

Definition R1c x (c : nat) y := z (cnt x (c_strong y)).
Definition R1 x := meas (F1r x) (R1c x).
Definition sv (s : st) (x : nat) : Z := match get_cell s x with Some y => z (strong y) | None => 0 end.
Lemma mc_split x k l :
  mc (F1c x) k l = mc (R1c x) k l - (if (x <? k)%nat then 0 else match l !! (x - k)%nat with Some (Some y) => z (strong y) | _ => 0 end).
Proof.
  revert k. induction l as [|o l IH]; intros k; cbn [mc].
  - rewrite lookup_nil. destruct (_ <? _)%nat; lia.
  - rewrite IH. destruct (Nat.ltb_spec x k), (Nat.ltb_spec x (S k)); try lia.
    + destruct o; simpl; [|lia]. unfold F1c, R1c, is. destruct (Nat.eqb_spec x k); lia.
    + assert (x = k) as -> by lia. rewrite Nat.sub_diag. destruct o; simpl; [|lia]. unfold F1c, R1c, is. rewrite Nat.eqb_refl. lia.
    + replace (x - k)%nat with (S (x - S k)) by lia. simpl. destruct o; simpl; [|lia]. unfold F1c, R1c, is. destruct (Nat.eqb_spec x k); lia.
Qed.
Lemma M1_split x s : M1 x s = R1 x s - sv s x.
Proof.
  unfold M1, R1, meas. rewrite mc_split. simpl. rewrite Nat.sub_0_r. unfold sv, get_cell. destruct (cs s !! x) as [[]|]; lia.
Qed.

Definition refs_ok (s : st) : Prop := forall x, M1 x s = 0.
Lemma F1r_nn x r : 0 <= F1r x r. Proof. unfold F1r, z. lia. Qed.
Lemma R1c_nn x c y : 0 <= R1c x c y. Proof. unfold R1c, z. lia. Qed.
Lemma FPr_nn x r : 0 <= FPr x r. Proof. unfold FPr, z. lia. Qed.
Lemma FPc_nn x c y : 0 <= FPc x c y. Proof. unfold FPc, z. lia. Qed.
Lemma is_nn x c v : 0 <= v -> 0 <= is x c v. Proof. unfold is. destruct (_ =? _)%nat; lia. Qed.
Lemma F3r_nn x r : 0 <= F3r x r. Proof. unfold F3r, z. lia. Qed.
Lemma F3c_nn x c y : 0 <= F3c x c y. Proof. unfold F3c, z, is. destruct (out y), (_ =? _)%nat; lia. Qed.
Lemma F4r_nn x r : 0 <= F4r x r. Proof. unfold F4r, z. lia. Qed.
Lemma F4c_nn x c y : 0 <= F4c x c y. Proof. unfold F4c, z, is. destruct (fn y), (_ =? _)%nat; lia. Qed.
Global Hint Resolve F1r_nn R1c_nn FPr_nn FPc_nn F3r_nn F3c_nn F4r_nn F4c_nn : nn.

Lemma cnt_pos x l : x ∈ l -> 1 <= z (cnt x l).
Proof. intros H%cnt_in. unfold z. lia. Qed.
Lemma ref_alive s r c : refs_ok s -> r ∈ rs s -> c ∈ r_strong r -> alive s c.
Proof.
  intros H Hr Hc. specialize (H c). rewrite M1_split in H. pose proof (meas_ge_r _ _ (F1r_nn c) (R1c_nn c) _ _ Hr) as G.
  apply cnt_pos in Hc. unfold F1r at 1 in G. fold (R1 c) in G. unfold sv in H. unfold alive. destruct (get_cell s c); [eauto|lia].
Qed.
Lemma cref_alive s d x c : refs_ok s -> get_cell s d = Some x -> c ∈ c_strong x -> alive s c.
Proof.
  intros H Hr Hc. specialize (H c). rewrite M1_split in H. pose proof (meas_ge_c _ _ (F1r_nn c) (R1c_nn c) _ _ _ Hr) as G.
  apply cnt_pos in Hc. unfold R1c at 1 in G. fold (R1 c) in G. unfold sv in H. unfold alive. destruct (get_cell s c); [eauto|lia].
Qed.
Lemma alive_strong s c x : refs_ok s -> get_cell s c = Some x -> (0 < strong x)%nat ->
  (exists r, r ∈ rs s /\ c ∈ r_strong r) \/ (exists d y, get_cell s d = Some y /\ c ∈ c_strong y).
Proof.
  intros H E P. specialize (H c). rewrite M1_split in H. unfold sv in H. rewrite E in H. unfold z in H.
  destruct (meas_pos (F1r c) (R1c c) s) as [(r & ? & ?)|(d & y & ? & ?)]; [unfold R1 in H; lia|left|right].
  - exists r. split; [done|]. apply cnt_in. unfold F1r, z in *. lia.
  - exists d, y. split; [done|]. apply cnt_in. unfold R1c, z in *. lia.
Qed.

Ltac mc1 :=
  first
    [ rewrite meas_add | rewrite meas_nk | rewrite meas_fresh
    | erewrite meas_resolve by eassumption
    | erewrite meas_set by (rewrite ?rs_take, ?rs_incr, ?rs_incrs; eassumption)
    | erewrite meas_rem by (rewrite ?rs_take, ?rs_incr, ?rs_incrs; eassumption)
    | erewrite meas_put by eassumption
    | erewrite meas_free by eassumption
    | rewrite meas_take by done ].
Ltac zs :=
  rewrite ?bind_app, ?bind_cons, ?app_nil_r, ?z_app, ?z_cons, ?z_self, ?z_nil, ?is_add.

Lemma z_S n : z (S n) = z n + 1.
Proof. unfold z. lia. Qed.
Lemma is_S x c n : is x c (z (S n)) = is x c (z n) + is x c 1.
Proof. by rewrite z_S, is_add. Qed.
Lemma is0 x c : is x c 0 = 0.
Proof. unfold is. by destruct (_ =? _)%nat. Qed.

Definition no_ub (s : st) : Prop := forall r a, r ∈ rs s -> ~ ub_cause s r a.

Lemma get_put_eq s c x y : get_cell s c = Some x -> get_cell (put c y s) c = Some y.
Proof. intros H. by rewrite (get_put _ _ _ _ _ H), Nat.eqb_refl. Qed.

Definition M5c x c y := z (cnt x (c_pre y)) + is x c (match hold y with Some _ => 1 | None => 0 end).
Definition M5r x r := z (cnt x (r_pre r)) + z (cnt x (match r with Frame c Body | Frame c Ret => [c] | _ => [] end)).
Definition fwdn (f : option (fkind * list nat)) : bool := match f with Some (Forward None _, _) => true | _ => false end.
Definition M6c x c y := z (cnt x (c_pre y)) + is x c (if fwdn (fn y) then 1 else 0).
Definition M6r x r := z (cnt x (r_pre r)).
Ltac tcases T :=
  destruct T as [caps c -> Hcaps|l k a caps d s' -> Ha Hcaps Hk Hat|i c Hi|i c y Hi|i c y Hi Hc|i c y Hi Hc|i c y Hi Hc Ho|i c o Hi Hc
    |i c y Hi Hc Ho|i c o Hi Hc|i c r Hr Hi Hc|i c r y Hr Hi Hc|i c Hi|i c r a Hr Hi Hc|i c r a y ex Hr Hi Hc Ho Hj1 Hj2 Hj3 Hj4|i c Hi
    |i c y l Hi Hc Hf|i c y q l o Hi Hc Hf Hq|i c y q l ex Hi Hc Hf Hq Ho|i c x0 q l y v Hi Hc Hf Hq Ho
    |i c x0 t q l y o Hi Hc Hf Hq Ho Ht|i c x0 t q l y o zc Hi Hc Hf Hq Ho Ht Hto|i c y a o r Hi Hc Ho Ha|i c y r h s' Hi Hc Hr -> Hat
    |i c Hi|i c y f q Hi Hc Hf Hq|i c y Hi Hc Ho|i c y Hi Hc|i c Hi|i Hi|i o d l Hi|i o c l Hi|i o k c l Hi|i c y Hi Hc Hs|i c y Hi Hc Hs
    |i c Hi Hc|i c y Hi Hc Ho|i k c o Hi Hc|i r a s' e Hi Hu].
Ltac cell_eq :=
  unfold F1r, F1c, FPr, FPc, F3r, F3c, F4r, F4c, M5r, M5c, M6r, M6c, c_strong, c_pre, c_prom, set_strong, set_thens, set_fn, set_hold, set_moved, set_out;
  cbn -[z cnt is]; zs; cbn -[z cnt is]; zs; rewrite ?is_S, ?is0.

Lemma M1_step s l s' e : refs_ok s -> no_ub s ->
  (forall c x, Frame c Body ∈ rs s -> get_cell s c = Some x -> hold x = None) -> tstep s l s' e -> refs_ok s'.
Proof.
  intros R U HH T x. pose proof (R x) as Rx.
  assert (forall c, Fut c ∈ rs s -> alive s c) as HF by (intros c H; eapply ref_alive; eauto; left).
  tcases T; try (assert (alive s c) as HA by (eapply (ref_alive _ _ c); [done|by eapply elem_of_list_lookup_2|simpl; by left])).
  - unfold M1. rewrite meas_add, meas_fresh. fold (M1 x). rewrite M1_incrs by auto. rewrite len_incrs, Rx. cell_eq. lia.
  - apply attach_cases in Hat as (y & Hy & Hat).
    assert (M1 x (add [Fut (length (cs s))] (fresh (k, caps) (incrs (a :: caps) s))) = 0) as G.
    { unfold M1. rewrite meas_add, meas_fresh. fold (M1 x). rewrite M1_incrs by (intros ? [->|]%elem_of_cons; auto).
      rewrite len_incrs, Rx. change (a :: caps) with ([a] ++ caps). destruct Hk as [[-> _]|[-> _]]; cell_eq; lia. }
    destruct Hat as [(Ho & ->)|(o & Ho & ->)].
    + unfold M1. erewrite meas_put by eassumption. fold (M1 x). rewrite G. cell_eq. lia.
    + unfold M1. rewrite meas_add. fold (M1 x). rewrite G. cell_eq. lia.
  - unfold M1. mc1. fold (M1 x). rewrite Rx. cell_eq. lia.
  - unfold M1. rewrite meas_add. fold (M1 x). rewrite M1_incr by done. rewrite Rx. cell_eq. lia.
  - done.
  - unfold M1. repeat mc1. fold (M1 x). rewrite Rx. cell_eq. lia.
  - unfold M1. repeat mc1. fold (M1 x). rewrite Rx. cell_eq. lia.
  - done.
  - unfold M1. repeat mc1. fold (M1 x). rewrite Rx. cell_eq. lia.
  - unfold M1. repeat mc1. fold (M1 x). rewrite Rx. cell_eq. lia.
  - unfold M1. repeat mc1. fold (M1 x). rewrite Rx. destruct Hr as [->| ->]; cell_eq; lia.
  - unfold M1. repeat mc1. fold (M1 x). rewrite Rx. destruct Hr as [->| ->]; cell_eq; lia.
  - unfold M1. repeat mc1. fold (M1 x). rewrite Rx. cell_eq. lia.
  - unfold M1. repeat mc1. fold (M1 x). rewrite Rx. destruct Hr as [->|[->| ->]]; cell_eq; lia.
  - pose proof (get_put_eq (rem i s) c y (set_fn None y) Hc). unfold M1. repeat mc1. fold (M1 x).
    rewrite Rx, fnd1. destruct Hr as [->|[->| ->]]; cell_eq; lia.
  - unfold M1. repeat mc1. fold (M1 x). rewrite Rx. cell_eq. lia.
  - unfold M1. repeat mc1. fold (M1 x). rewrite Rx. cell_eq. lia.
  - unfold M1. repeat mc1. fold (M1 x). rewrite Rx. cell_eq. lia.
  - unfold M1. repeat mc1. fold (M1 x). rewrite Rx. cell_eq. lia.
  - unfold M1. repeat mc1. fold (M1 x). rewrite Rx. cell_eq. lia.
  - destruct (get_take s q c x0 Hc) as (x1 & Hx1 & Hx1').
    unfold M1. repeat mc1. fold (M1 x). rewrite Rx.
    assert (F1c x c x1 = F1c x c x0) as -> by (destruct Hx1' as [->|(-> & _)]; done).
    cell_eq. rewrite Hf. unfold ofn, fn_refs. cbn -[z cnt is]. zs. lia.
  - destruct (get_take s q c x0 Hc) as (x1 & Hx1 & Hx1').
    unfold M1. repeat mc1. fold (M1 x). rewrite Rx.
    assert (F1c x c x1 = F1c x c x0) as -> by (destruct Hx1' as [->|(-> & _)]; done).
    cell_eq. rewrite Hf. unfold ofn, fn_refs. cbn -[z cnt is]. zs. lia.
  - unfold M1. repeat mc1. fold (M1 x). rewrite Rx. cell_eq. lia.
  - apply attach_cases in Hat as (w & Hw & Hat).
    assert (M1 x (fresh (Forward (Some c) r, []) (incr r (put c (set_hold (Some (length (cs s))) y) (set i (Frame c Fin) s)))) = is x (length (cs s)) 1
              - is x (length (cs s)) 1 - z (cnt x (olist (hold y)))) as G.
    { unfold M1. rewrite meas_fresh. fold (M1 x). rewrite M1_incr.
      2:{ apply HF in Hr as (u & Hu). exists (if (r =? c)%nat then set_hold (Some (length (cs s))) y else u).
          rewrite (get_put _ c y) by done. by destruct (r =? c)%nat. }
      rewrite len_incr, len_put. unfold M1. repeat mc1. fold (M1 x). rewrite Rx. cell_eq. lia. }
    assert (hold y = None) as Hh by (eapply HH; [by eapply elem_of_list_lookup_2|done]). rewrite Hh in G. cbn -[z cnt is] in G. rewrite z_nil in G.
    destruct Hat as [(Ho & ->)|(o & Ho & ->)].
    + unfold M1. erewrite meas_put by eassumption. fold (M1 x). rewrite G. cell_eq. lia.
    + unfold M1. rewrite meas_add. fold (M1 x). rewrite G. cell_eq. lia.
  - done.
  - unfold M1. rewrite meas_add. fold (M1 x). rewrite M1_incr.
    2:{ eapply cref_alive; [done|exact Hc|]. unfold c_strong. rewrite Hf. apply elem_of_app. left. simpl.
        unfold fn_avail in Hq. unfold fn_refs. apply elem_of_app in Hq as [Hq|Hq]; apply elem_of_app; [left|by right].
        destruct (f.1); simpl in Hq; rewrite ?elem_of_nil in Hq; done. }
    rewrite Rx. cell_eq. lia.
  - unfold M1. repeat mc1. fold (M1 x). rewrite Rx. cell_eq. lia.
  - unfold M1. repeat mc1. fold (M1 x). rewrite Rx, fnd1. cell_eq. lia.
  - unfold M1. repeat mc1. fold (M1 x). rewrite Rx. cell_eq. lia.
  - unfold M1. repeat mc1. fold (M1 x). rewrite Rx. cell_eq. lia.
  - unfold M1. repeat mc1. fold (M1 x). rewrite Rx. cell_eq. lia.
  - unfold M1. repeat mc1. fold (M1 x). rewrite Rx. cell_eq. lia.
  - unfold M1. repeat mc1. fold (M1 x). rewrite Rx. cell_eq. lia.
  - unfold M1. repeat mc1. fold (M1 x). rewrite Rx, !mr_app, fnd1, cd1. cell_eq. rewrite Hs. destruct (hold y); cell_eq; lia.
  - assert (strong y <> 0)%nat as Hn.
    { specialize (R c). rewrite M1_split in R. unfold sv in R. rewrite Hc in R. intros E. rewrite E in R.
      apply elem_of_list_lookup_2 in Hi. apply (meas_ge_r _ _ (F1r_nn c) (R1c_nn c)) in Hi. fold (R1 c) in Hi.
      unfold F1r in Hi. simpl in Hi. rewrite z_self in Hi. unfold is in Hi. rewrite Nat.eqb_refl in Hi. unfold z in *. lia. }
    unfold M1. repeat mc1. fold (M1 x). rewrite Rx. cell_eq. destruct (strong y) as [|n] eqn:En; [done|].
    simpl. rewrite is_S. lia.
  - unfold M1. repeat mc1. fold (M1 x). rewrite Rx. cell_eq. lia.
  - unfold M1. repeat mc1. fold (M1 x). rewrite Rx. cell_eq. lia.
  - unfold M1. repeat mc1. fold (M1 x). rewrite Rx. cell_eq. lia.
  - destruct (U r a); [by eapply elem_of_list_lookup_2|done].
Qed.

Definition new (s s' : st) (x : nat) : Z := if (length (cs s') =? length (cs s))%nat then 0 else is x (length (cs s)) 1.
Lemma len_free c s : length (cs (St (<[c := None]> (cs s)) (rs s) (nk s))) = length (cs s).
Proof. simpl. apply insert_length. Qed.
Ltac len_eq := rewrite ?len_take, ?len_incr, ?len_incrs, ?len_put, ?len_take, ?len_incr, ?len_incrs.
Ltac new0 :=
  match goal with |- context [new ?s ?s' ?x] =>
    replace (new s s' x) with 0 by
      (unfold new; replace (length (cs s')) with (length (cs s)) by (unfold resolve_to, add, set, rem, put; simpl; rewrite ?insert_length; len_eq; done);
       by rewrite Nat.eqb_refl) end.
Ltac new1 :=
  match goal with |- context [new ?s ?s' ?x] =>
    replace (new s s' x) with (is x (length (cs s)) 1) by
      (unfold new; replace (length (cs s')) with (S (length (cs s))) by
         (unfold resolve_to, add, set, rem, put, fresh; simpl; rewrite ?insert_length, ?app_length; simpl; len_eq; simpl; rewrite ?insert_length; lia);
       rewrite (proj2 (Nat.eqb_neq _ _)) by lia; done) end.

Ltac evs := rewrite ?ev_app, ?ev_cons, ?ev_nil; cbn -[z cnt is ev]; rewrite ?z_self, ?z_nil; rewrite ?ev_got by done.

Lemma MP_step s l s' e x : no_ub s -> tstep s l s' e -> MP x s' + ev e_done e x = MP x s + new s s' x.
Proof.
  intros U T. tcases T.
  Ltac go := unfold MP; repeat mc1; rewrite ?mr_app, ?fndP, ?cdP; new0; evs; cell_eq; lia.
  - new1. unfold MP. rewrite meas_add, meas_fresh. rewrite meas_incrs by done. evs. cell_eq. lia.
  - apply attach_cases in Hat as (y & Hy & Hat).
    assert (MP x (add [Fut (length (cs s))] (fresh (k, caps) (incrs (a :: caps) s))) = MP x s) as G.
    { unfold MP. rewrite meas_add, meas_fresh. rewrite meas_incrs by done. cell_eq. lia. }
    destruct Hat as [(Ho & ->)|(o & Ho & ->)]; new1.
    + unfold MP. erewrite meas_put by eassumption. fold (MP x). rewrite G. evs. cell_eq. lia.
    + unfold MP. rewrite meas_add. fold (MP x). rewrite G. evs. cell_eq. lia.
  - go.
  - unfold MP. rewrite meas_add. rewrite meas_incr by done. new0. evs. cell_eq. lia.
  - go.
  - go.
  - go.
  - go.
  - go.
  - go.
  - destruct Hr as [->| ->]; go.
  - destruct Hr as [->| ->]; go.
  - go.
  - destruct Hr as [->|[->| ->]]; go.
  - pose proof (get_put_eq (rem i s) c y (set_fn None y) Hc). destruct Hr as [->|[->| ->]]; go.
  - go.
  - go.
  - go.
  - go.
  - go.
  - destruct (get_take s q c x0 Hc) as (x1 & Hx1 & Hx1'). unfold MP; repeat mc1; new0; evs.
    assert (FPc x c x1 = FPc x c x0) as -> by (destruct Hx1' as [->|(-> & _)]; done). cell_eq. lia.
  - destruct (get_take s q c x0 Hc) as (x1 & Hx1 & Hx1'). unfold MP; repeat mc1; new0; evs.
    assert (FPc x c x1 = FPc x c x0) as -> by (destruct Hx1' as [->|(-> & _)]; done). cell_eq. lia.
  - go.
  - apply attach_cases in Hat as (w & Hw & Hat).
    assert (MP x (fresh (Forward (Some c) r, []) (incr r (put c (set_hold (Some (length (cs s))) y) (set i (Frame c Fin) s)))) = MP x s) as G.
    { unfold MP. rewrite meas_fresh. rewrite meas_incr by done. repeat mc1. cell_eq. lia. }
    destruct Hat as [(Ho & ->)|(o & Ho & ->)]; new1.
    + unfold MP. erewrite meas_put by eassumption. fold (MP x). rewrite G. evs. cell_eq. lia.
    + unfold MP. rewrite meas_add. fold (MP x). rewrite G. evs. cell_eq. lia.
  - go.
  - unfold MP. rewrite meas_add. rewrite meas_incr by done. new0. evs. cell_eq. lia.
  - go.
  - go.
  - go.
  - go.
  - go.
  - go.
  - go.
  - destruct (hold y); go.
  - go.
  - go.
  - go.
  - go.
  - destruct (U r a); [by eapply elem_of_list_lookup_2|done].
Qed.

(** The other measures are claimed for cells that live on, and for cells that do not exist yet. *)
Definition M6 x := meas (M6r x) (M6c x).
Lemma M6r_nn x r : 0 <= M6r x r. Proof. unfold M6r, z. lia. Qed.
Lemma M6c_nn x c y : 0 <= M6c x c y. Proof. unfold M6c, z, is. destruct (fwdn (fn y)), (_ =? _)%nat; lia. Qed.
Lemma fnd6 x f : mr (M6r x) (fn_drop f) = 0.
Proof. apply fndP. Qed.
Lemma cd6 x l : mr (M6r x) (cont_drop <$> l) = z (cnt x (l ≫= cont_pre)).
Proof. apply cdP. Qed.
Definition M5 x := meas (M5r x) (M5c x).
Lemma M5r_nn x r : 0 <= M5r x r. Proof. unfold M5r, z. lia. Qed.
Lemma M5c_nn x c y : 0 <= M5c x c y. Proof. unfold M5c, z, is. destruct (hold y), (_ =? _)%nat; lia. Qed.
Global Hint Resolve M5r_nn M5c_nn : nn.
Lemma fnd5 x f : mr (M5r x) (fn_drop f) = 0.
Proof.
  apply mr_zero. intros r. destruct f as [[k l]|]; simpl; [|by intros ?%elem_of_nil].
  rewrite elem_of_app. intros [(? & -> & _)%elem_of_list_fmap|H]; [done|].
  destruct k as [| | |[]]; simpl in H; rewrite ?elem_of_cons, ?elem_of_nil in H; try done. by destruct H as [->|[]].
Qed.
Lemma cd5 x l : mr (M5r x) (cont_drop <$> l) = z (cnt x (l ≫= cont_pre)).
Proof. induction l as [|k l IH]; [done|]. rewrite fmap_cons, bind_cons, z_app, <- IH. simpl. f_equal. unfold M5r. destruct k; simpl; rewrite ?z_nil; lia. Qed.

Definition old (s s' : st) (x : nat) : Prop :=
  alive s x /\ alive s' x \/ (length (cs s) <= x)%nat /\ M3 x s = 0 /\ M4 x s = 0.
Lemma old_tok s s' x c r : old s s' x -> r ∈ rs s -> c ∈ r_pre r \/ c ∈ r_prom r -> get_cell s c = None -> x <> c.
Proof.
  intros [[(y & H) _]|(_ & H & _)] Hr Hp E ->; [congruence|].
  apply (meas_ge_r _ _ (F3r_nn c) (F3c_nn c)) in Hr. unfold M3 in H. rewrite H in Hr. unfold F3r in Hr.
  destruct Hp as [Hp|Hp]; apply cnt_pos in Hp; unfold z in *; lia.
Qed.
Lemma is_ne x c v : x <> c -> is x c v = 0.
Proof. intros H. unfold is. by rewrite (proj2 (Nat.eqb_neq _ _) H). Qed.
Lemma old_ne s s' x c y : old s s' x -> get_cell s c = Some y -> get_cell s' c = None -> x <> c.
Proof. intros [[_ (w & H)]|(L & _)] Hc E ->; [congruence|]. apply get_lt in Hc. lia. Qed.
Ltac is_dead O Hi Hc := match goal with |- context [is ?x ?c _] => 
    assert (x <> c) as Hne by (eapply (old_tok _ _ _ _ _ O); [by eapply elem_of_list_lookup_2|..|exact Hc]; simpl; rewrite ?elem_of_cons; auto);
    rewrite ?(is_ne x c) by done end.

Lemma M3_step s l s' e x : no_ub s -> tstep s l s' e -> old s s' x -> M3 x s' + ev e_lost e x = M3 x s + new s s' x.
Proof.
  intros U T K. tcases T.
  Ltac go3' := unfold M3; repeat mc1; rewrite ?mr_app, ?fnd3, ?cd3; new0; evs; cell_eq;
    repeat match goal with H : out ?y = _ |- context [out ?y] => rewrite H | H : fn ?y = _ |- context [fn ?y] => rewrite H end; rewrite ?is0.
  Ltac go3 := go3'; lia.
  - new1. unfold M3. rewrite meas_add, meas_fresh. rewrite meas_incrs by done. evs. cell_eq. lia.
  - apply attach_cases in Hat as (y & Hy & Hat).
    assert (M3 x (add [Fut (length (cs s))] (fresh (k, caps) (incrs (a :: caps) s))) = M3 x s) as G.
    { unfold M3. rewrite meas_add, meas_fresh. rewrite meas_incrs by done. destruct Hk as [[-> _]|[-> _]]; cell_eq; lia. }
    destruct Hat as [(Ho & ->)|(o & Ho & ->)]; new1.
    + unfold M3. erewrite meas_put by eassumption. fold (M3 x). rewrite G. evs. cell_eq. lia.
    + unfold M3. rewrite meas_add. fold (M3 x). rewrite G. evs. cell_eq. lia.
  - go3.
  - unfold M3. rewrite meas_add. rewrite meas_incr by done. new0. evs. cell_eq. lia.
  - go3.
  - go3.
  - go3.
  - go3.
  - go3.
  - go3.
  - destruct Hr as [->| ->]; go3'; is_dead K Hi Hc; lia.
  - destruct Hr as [->| ->]; go3.
  - go3.
  - destruct Hr as [->|[->| ->]]; go3'; is_dead K Hi Hc; lia.
  - pose proof (get_put_eq (rem i s) c y (set_fn None y) Hc). destruct Hr as [->|[->| ->]]; go3.
  - go3.
  - go3.
  - go3.
  - go3.
  - go3.
  - destruct (get_take s q c x0 Hc) as (x1 & Hx1 & Hx1'). unfold M3; repeat mc1; new0; evs.
    assert (F3c x c x1 = F3c x c x0) as -> by (destruct Hx1' as [->|(-> & _)]; done).
    assert (x <> t) as Hne. { intros ->. destruct K as [[(y' & H) (w & H')]|(_ & H & _)]; [congruence|].
      pose proof (meas_ge_c _ _ (F3r_nn t) (F3c_nn t) _ _ _ Hc) as G. unfold M3 in H. rewrite H in G. unfold F3c, c_prom in G.
      rewrite Hf in G. simpl in G. rewrite z_self in G. unfold is, z in G. rewrite Nat.eqb_refl in G. destruct (_ =? _)%nat, (out x0); lia. }
    cell_eq. rewrite Hf. unfold ofp. cbn -[z cnt is]. zs. rewrite (is_ne x t) by done. lia.
  - destruct (get_take s q c x0 Hc) as (x1 & Hx1 & Hx1'). unfold M3; repeat mc1; new0; evs.
    assert (F3c x c x1 = F3c x c x0) as -> by (destruct Hx1' as [->|(-> & _)]; done).
    cell_eq. rewrite Hf, Hto. unfold ofp. cbn -[z cnt is]. zs. rewrite ?is0. lia.
  - go3.
  - apply attach_cases in Hat as (w & Hw & Hat).
    assert (M3 x (fresh (Forward (Some c) r, []) (incr r (put c (set_hold (Some (length (cs s))) y) (set i (Frame c Fin) s)))) = M3 x s) as G.
    { unfold M3. rewrite meas_fresh. rewrite meas_incr by done. repeat mc1. cell_eq. lia. }
    destruct Hat as [(Ho & ->)|(o & Ho & ->)]; new1.
    + unfold M3. erewrite meas_put by eassumption. fold (M3 x). rewrite G. evs. cell_eq. lia.
    + unfold M3. rewrite meas_add. fold (M3 x). rewrite G. evs. cell_eq. lia.
  - go3.
  - unfold M3. rewrite meas_add. rewrite meas_incr by done. new0. evs. cell_eq. lia.
  - go3.
  - go3.
  - go3.
  - go3.
  - go3.
  - go3.
  - go3.
  - assert (x <> c) as Hne. { eapply (old_ne _ _ _ _ _ K Hc). rewrite get_add, get_rem, get_free by (by eapply get_lt). by rewrite Nat.eqb_refl. }
    destruct (hold y); go3'; rewrite ?(is_ne x c) by done; lia.
  - go3.
  - go3'; is_dead K Hi Hc; lia.
  - go3.
  - go3.
  - destruct (U r a); [by eapply elem_of_list_lookup_2|done].
Qed.

Lemma M4_step s l s' e x : no_ub s ->
  (forall r c y, r ∈ rs s -> c ∈ r_pre r \/ c ∈ r_body r -> get_cell s c = Some y -> fn y <> None) -> tstep s l s' e -> old s s' x -> M4 x s' + ev e_lost e x = M4 x s + new s s' x.
Proof.
  intros U HN T K. tcases T.
  Ltac go4' := unfold M4; repeat mc1; rewrite ?mr_app, ?fnd4, ?cd4; new0; evs; cell_eq;
    repeat match goal with H : out ?y = _ |- context [out ?y] => rewrite H | H : fn ?y = _ |- context [fn ?y] => rewrite H end; rewrite ?is0.
  Ltac go4 := go4'; lia.
  - new1. unfold M4. rewrite meas_add, meas_fresh. rewrite meas_incrs by done. evs. cell_eq. lia.
  - apply attach_cases in Hat as (y & Hy & Hat).
    assert (M4 x (add [Fut (length (cs s))] (fresh (k, caps) (incrs (a :: caps) s))) = M4 x s) as G.
    { unfold M4. rewrite meas_add, meas_fresh. rewrite meas_incrs by done. destruct Hk as [[-> _]|[-> _]]; cell_eq; lia. }
    destruct Hat as [(Ho & ->)|(o & Ho & ->)]; new1.
    + unfold M4. erewrite meas_put by eassumption. fold (M4 x). rewrite G. evs. cell_eq. lia.
    + unfold M4. rewrite meas_add. fold (M4 x). rewrite G. evs. cell_eq. lia.
  - go4.
  - unfold M4. rewrite meas_add. rewrite meas_incr by done. new0. evs. cell_eq. lia.
  - go4.
  - go4.
  - go4.
  - go4.
  - go4.
  - go4.
  - destruct Hr as [->| ->]; go4'; is_dead K Hi Hc; lia.
  - destruct Hr as [->| ->]; go4.
  - go4.
  - destruct Hr as [->|[->| ->]]; go4'; is_dead K Hi Hc; lia.
  - assert (fn y <> None) as Hn.
    { eapply HN; [by eapply elem_of_list_lookup_2| |exact Hc]. destruct Hr as [->|[->| ->]]; simpl; rewrite elem_of_cons; auto. }
    pose proof (get_put_eq (rem i s) c y (set_fn None y) Hc). destruct (fn y) eqn:Ef; [|done].
    destruct Hr as [->|[->| ->]]; go4.
  - go4.
  - go4.
  - go4.
  - go4.
  - go4.
  - destruct (get_take s q c x0 Hc) as (x1 & Hx1 & Hx1'). unfold M4; repeat mc1; new0; evs.
    assert (F4c x c x1 = F4c x c x0) as -> by (destruct Hx1' as [->|(-> & _)]; done).
    cell_eq. rewrite Hf. cbn -[z cnt is]. zs. rewrite ?is0. lia.
  - destruct (get_take s q c x0 Hc) as (x1 & Hx1 & Hx1'). unfold M4; repeat mc1; new0; evs.
    assert (F4c x c x1 = F4c x c x0) as -> by (destruct Hx1' as [->|(-> & _)]; done).
    cell_eq. rewrite Hf. cbn -[z cnt is]. zs. rewrite ?is0. lia.
  - go4.
  - apply attach_cases in Hat as (w & Hw & Hat).
    assert (M4 x (fresh (Forward (Some c) r, []) (incr r (put c (set_hold (Some (length (cs s))) y) (set i (Frame c Fin) s)))) = M4 x s) as G.
    { unfold M4. rewrite meas_fresh. rewrite meas_incr by done. repeat mc1. cell_eq. lia. }
    destruct Hat as [(Ho & ->)|(o & Ho & ->)]; new1.
    + unfold M4. erewrite meas_put by eassumption. fold (M4 x). rewrite G. evs. cell_eq. lia.
    + unfold M4. rewrite meas_add. fold (M4 x). rewrite G. evs. cell_eq. lia.
  - go4.
  - unfold M4. rewrite meas_add. rewrite meas_incr by done. new0. evs. cell_eq. lia.
  - go4.
  - assert (fn y <> None) as Hn.
    { eapply HN; [by eapply elem_of_list_lookup_2| |exact Hc]. simpl; rewrite elem_of_cons; auto. }
    destruct (fn y) eqn:Ef; [|done]. go4.
  - go4.
  - go4.
  - go4.
  - go4.
  - go4.
  - assert (x <> c) as Hne. { eapply (old_ne _ _ _ _ _ K Hc). rewrite get_add, get_rem, get_free by (by eapply get_lt). by rewrite Nat.eqb_refl. }
    destruct (hold y); go4'; rewrite ?(is_ne x c) by done; lia.
  - go4.
  - go4.
  - go4.
  - go4.
  - destruct (U r a); [by eapply elem_of_list_lookup_2|done].
Qed.

Lemma M5_step s l s' e x : no_ub s -> tstep s l s' e -> old s s' x -> M5 x s' <= M5 x s + new s s' x.
Proof.
  intros U T K. tcases T.
  Ltac go5' := unfold M5; repeat mc1; rewrite ?mr_app, ?fnd5, ?cd5; new0; evs; cell_eq;
    repeat match goal with H : out ?y = _ |- context [out ?y] => rewrite H | H : fn ?y = _ |- context [fn ?y] => rewrite H end; rewrite ?is0.
  Ltac fin5 := unfold z, is; repeat match goal with |- context [hold ?y] => destruct (hold y) end; repeat destruct (_ =? _)%nat; lia.
  Ltac go5 := go5'; fin5.
  - new1. unfold M5. rewrite meas_add, meas_fresh. rewrite meas_incrs by done. evs. cell_eq. fin5.
  - apply attach_cases in Hat as (y & Hy & Hat).
    assert (M5 x (add [Fut (length (cs s))] (fresh (k, caps) (incrs (a :: caps) s))) = M5 x s) as G.
    { unfold M5. rewrite meas_add, meas_fresh. rewrite meas_incrs by done. destruct Hk as [[-> _]|[-> _]]; cell_eq; fin5. }
    destruct Hat as [(Ho & ->)|(o & Ho & ->)]; new1.
    + unfold M5. erewrite meas_put by eassumption. fold (M5 x). rewrite G. evs. cell_eq. fin5.
    + unfold M5. rewrite meas_add. fold (M5 x). rewrite G. evs. cell_eq. fin5.
  - go5.
  - unfold M5. rewrite meas_add. rewrite meas_incr by done. new0. evs. cell_eq. fin5.
  - go5.
  - go5.
  - go5.
  - go5.
  - go5.
  - go5.
  - destruct Hr as [->| ->]; go5'; fin5.
  - destruct Hr as [->| ->]; go5.
  - go5.
  - destruct Hr as [->|[->| ->]]; go5'; fin5.
  -     pose proof (get_put_eq (rem i s) c y (set_fn None y) Hc).
    destruct Hr as [->|[->| ->]]; go5.
  - go5.
  - go5.
  - go5.
  - go5.
  - go5.
  - destruct (get_take s q c x0 Hc) as (x1 & Hx1 & Hx1'). unfold M5; repeat mc1; new0; evs.
    assert (M5c x c x1 = M5c x c x0) as -> by (destruct Hx1' as [->|(-> & _)]; done).
    cell_eq. cbn -[z cnt is]. zs. rewrite ?is0. fin5.
  - destruct (get_take s q c x0 Hc) as (x1 & Hx1 & Hx1'). unfold M5; repeat mc1; new0; evs.
    assert (M5c x c x1 = M5c x c x0) as -> by (destruct Hx1' as [->|(-> & _)]; done).
    cell_eq. cbn -[z cnt is]. zs. rewrite ?is0. fin5.
  - go5.
  - apply attach_cases in Hat as (w & Hw & Hat).
    assert (M5 x (fresh (Forward (Some c) r, []) (incr r (put c (set_hold (Some (length (cs s))) y) (set i (Frame c Fin) s)))) <= M5 x s) as G.
    { unfold M5. rewrite meas_fresh. rewrite meas_incr by done. repeat mc1. cell_eq. fin5. }
    destruct Hat as [(Ho & ->)|(o & Ho & ->)]; new1.
    + unfold M5. erewrite meas_put by eassumption. fold (M5 x). revert G. generalize (M5 x (fresh (Forward (Some c) r, []) (incr r (put c (set_hold (Some (length (cs s))) y) (set i (Frame c Fin) s))))). intros ? G. revert G. generalize (M5 x s). intros. evs. cell_eq. fin5.
    + unfold M5. rewrite meas_add. fold (M5 x). revert G. generalize (M5 x (fresh (Forward (Some c) r, []) (incr r (put c (set_hold (Some (length (cs s))) y) (set i (Frame c Fin) s))))). intros ? G. revert G. generalize (M5 x s). intros. evs. cell_eq. fin5.
  - go5.
  - unfold M5. rewrite meas_add. rewrite meas_incr by done. new0. evs. cell_eq. fin5.
  - go5.
  -     go5.
  - go5.
  - go5.
  - go5.
  - go5.
  - go5.
  - assert (x <> c) as Hne. { eapply (old_ne _ _ _ _ _ K Hc). rewrite get_add, get_rem, get_free by (by eapply get_lt). by rewrite Nat.eqb_refl. }
    destruct (hold y) eqn:Eh; go5'; fin5.
  - go5.
  - go5.
  - go5.
  - go5.
  - destruct (U r a); [by eapply elem_of_list_lookup_2|done].
Qed.

Lemma M6_step s l s' e x : no_ub s -> tstep s l s' e -> old s s' x -> M6 x s' <= M6 x s + new s s' x.
Proof.
  intros U T K. tcases T.
  Ltac go6' := unfold M6; repeat mc1; rewrite ?mr_app, ?fnd6, ?cd6; new0; evs; cell_eq;
    repeat match goal with H : out ?y = _ |- context [out ?y] => rewrite H | H : fn ?y = _ |- context [fn ?y] => rewrite H end; rewrite ?is0.
  Ltac fin6 := unfold z, is; repeat match goal with |- context [fwdn ?y] => destruct (fwdn y) end; repeat destruct (_ =? _)%nat; lia.
  Ltac go6 := go6'; fin6.
  - new1. unfold M6. rewrite meas_add, meas_fresh. rewrite meas_incrs by done. evs. cell_eq. fin6.
  - apply attach_cases in Hat as (y & Hy & Hat).
    assert (M6 x (add [Fut (length (cs s))] (fresh (k, caps) (incrs (a :: caps) s))) = M6 x s) as G.
    { unfold M6. rewrite meas_add, meas_fresh. rewrite meas_incrs by done. destruct Hk as [[-> _]|[-> _]]; cell_eq; fin6. }
    destruct Hat as [(Ho & ->)|(o & Ho & ->)]; new1.
    + unfold M6. erewrite meas_put by eassumption. fold (M6 x). rewrite G. evs. cell_eq. fin6.
    + unfold M6. rewrite meas_add. fold (M6 x). rewrite G. evs. cell_eq. fin6.
  - go6.
  - unfold M6. rewrite meas_add. rewrite meas_incr by done. new0. evs. cell_eq. fin6.
  - go6.
  - go6.
  - go6.
  - go6.
  - go6.
  - go6.
  - destruct Hr as [->| ->]; go6'; fin6.
  - destruct Hr as [->| ->]; go6.
  - go6.
  - destruct Hr as [->|[->| ->]]; go6'; fin6.
  -     pose proof (get_put_eq (rem i s) c y (set_fn None y) Hc).
    destruct Hr as [->|[->| ->]]; go6.
  - go6.
  - go6.
  - go6.
  - go6.
  - go6.
  - destruct (get_take s q c x0 Hc) as (x1 & Hx1 & Hx1'). unfold M6; repeat mc1; new0; evs.
    assert (M6c x c x1 = M6c x c x0) as -> by (destruct Hx1' as [->|(-> & _)]; done).
    cell_eq. cbn -[z cnt is]. zs. rewrite ?is0. fin6.
  - destruct (get_take s q c x0 Hc) as (x1 & Hx1 & Hx1'). unfold M6; repeat mc1; new0; evs.
    assert (M6c x c x1 = M6c x c x0) as -> by (destruct Hx1' as [->|(-> & _)]; done).
    cell_eq. cbn -[z cnt is]. zs. rewrite ?is0. fin6.
  - go6.
  - apply attach_cases in Hat as (w & Hw & Hat).
    assert (M6 x (fresh (Forward (Some c) r, []) (incr r (put c (set_hold (Some (length (cs s))) y) (set i (Frame c Fin) s)))) <= M6 x s) as G.
    { unfold M6. rewrite meas_fresh. rewrite meas_incr by done. repeat mc1. cell_eq. fin6. }
    destruct Hat as [(Ho & ->)|(o & Ho & ->)]; new1.
    + unfold M6. erewrite meas_put by eassumption. fold (M6 x). revert G. generalize (M6 x (fresh (Forward (Some c) r, []) (incr r (put c (set_hold (Some (length (cs s))) y) (set i (Frame c Fin) s))))). intros ? G. revert G. generalize (M6 x s). intros. evs. cell_eq. fin6.
    + unfold M6. rewrite meas_add. fold (M6 x). revert G. generalize (M6 x (fresh (Forward (Some c) r, []) (incr r (put c (set_hold (Some (length (cs s))) y) (set i (Frame c Fin) s))))). intros ? G. revert G. generalize (M6 x s). intros. evs. cell_eq. fin6.
  - go6.
  - unfold M6. rewrite meas_add. rewrite meas_incr by done. new0. evs. cell_eq. fin6.
  - go6.
  -     go6.
  - go6.
  - go6.
  - go6.
  - go6.
  - go6.
  - assert (x <> c) as Hne. { eapply (old_ne _ _ _ _ _ K Hc). rewrite get_add, get_rem, get_free by (by eapply get_lt). by rewrite Nat.eqb_refl. }
    destruct (hold y) eqn:Eh; go6'; fin6.
  - go6.
  - go6.
  - go6.
  - go6.
  - destruct (U r a); [by eapply elem_of_list_lookup_2|done].
Qed.
