(** The theorems about futures of move-only values. *)
From Coq Require Import List Bool Arith Lia ZifyBool.
From stdpp Require Import list.
From Verif.Unique Require Import Model Spec Inv Trace.

(** ** what steps do *)
Definition writes (o : option rcall) : bool := match o with Some (RWrite _) => true | _ => false end.
Definition owes (s : st) : Prop := prom s = true \/ alive s = false \/ writes (rcl s) = true.
Definition polls (o : option ccall) : bool := match o with Some CGet | Some CTake => true | _ => false end.
Definition spent (s : st) : nat := match holder s, ccl s with Nobody, _ | _, Some CFree => 1 | _, _ => 0 end.
Record effect (s s' : st) (l : label) (ev : list event) : Prop := {
  e_start : started ev = [] \/ (exists n, ev = [Started n]) /\ ready s = true;
  e_owes : l <> LForget -> owes s -> owes s' \/ resolved ev <> [];
  e_polls : l <> LGet -> polls (ccl s) = false -> polls (ccl s') = false /\ length (reads ev) + spent s <= spent s';
  e_kept : (forall k, l <> LAttach k) -> (forall n, holder s <> Waits n) ->
    (thn s = Some Keep \/ kept ev <> [] -> thn s' = Some Keep \/ told s') /\ next s' = next s
}.
Lemma step_effect s l s' ev : inv s -> step s l = Some (s', ev) -> effect s s' l ev.
Proof.
  intros I H. shape I s.
  all: cases l H.
  all: refine (Build_effect _ _ _ _ _ _ _ _); unfold owes, told, spent; cbn.
  all: try (by left); try (right; eauto; done).
  all: try (intros ? [?|[?|?]]; first [done|by left; auto|by right]).
  all: try (intros; split; [done|lia]).
  all: try (intros ? W; first [by match type of W with forall n, Waits ?m <> Waits n => destruct (W m) end|split; [intros [?|?]; first [done|by left|by right; left|by right; right]|done]]).
  all: intros A; by match type of A with forall k, LAttach ?m <> LAttach k => destruct (A m) end.
Qed.

(** ** continuations *)
Lemma told_resolved s tr : valued s tr -> told s -> resolved tr <> [].
Proof. unfold valued, told. intros V T E. rewrite E in V. destruct V as (V1 & V2 & _). destruct T; congruence. Qed.
Lemma resolved_told s tr : valued s tr -> resolved tr <> [] -> told s.
Proof. unfold valued, told. intros V T. destruct (resolved tr) as [|[v|e] [|]]; [done|by destruct V|done|by destruct V|done]. Qed.
Lemma once ls s tr : run init ls = Some (s, tr) -> NoDup (fates tr).
Proof. intros R. apply (run_fated _ _ _ R). Qed.

Definition ordered (tr : list event) : Prop :=
  forall pre n post, tr = pre ++ Started n :: post -> resolved pre <> [] /\ n ∈ attached pre.
Lemma after ls s tr : run init ls = Some (s, tr) -> ordered tr.
Proof.
  apply (run_ind (fun s _ tr => (fated s tr /\ valued s tr) /\ ordered tr)).
  { split; [split|]; [by apply (run_fated []) | by apply (run_valued [])|]. intros pre n post E. by destruct pre. }
  clear. intros s ls tr l s' ev I [[F V] O] H. pose proof (step_fated s l s' ev tr I F H) as F'.
  split; [split; [done|by eapply step_valued]|]. pose proof (step_effect s l s' ev I H) as E.
  intros pre n post Eq. destruct (e_start _ _ _ _ E) as [N|[[m ->] N]].
  - apply app_eq_inv in Eq. destruct Eq as [(k & -> & Eq)|(k & -> & Eq)].
    + destruct k as [|x k]; cbn in Eq.
      * rewrite app_nil_r in O. rewrite <- Eq in N. done.
      * injection Eq as <- ->. destruct (O pre n k eq_refl). done.
    + exfalso. rewrite Eq in N. rewrite started_app in N. cbn in N. by destruct (started k).
  - apply app_eq_inv in Eq. destruct Eq as [(k & -> & Eq)|(k & -> & Eq)].
    + destruct k as [|x k]; cbn in Eq.
      * injection Eq as -> ->. rewrite app_nil_r in *. split; [apply (told_resolved s); [done|by left]|].
        pose proof (f_fate _ _ F' m) as X. rewrite fates_app, elem_of_app in X. destruct X as [X _].
        assert (m < next s') as L by (apply X; right; cbn; apply elem_of_list_here).
        pose proof (f_att _ _ F') as A. rewrite attached_app in A. cbn in A. rewrite app_nil_r in A. rewrite A.
        apply elem_of_list_In, in_seq. lia.
      * injection Eq as <- ->. destruct (O pre n k eq_refl). done.
    + destruct k as [|x k]; cbn in Eq; [|destruct k; discriminate].
      injection Eq as <- <-. rewrite app_nil_r in *. split; [apply (told_resolved s); [done|by left]|].
      pose proof (f_fate _ _ F' m) as X. rewrite fates_app, elem_of_app in X. destruct X as [X _].
      assert (m < next s') as L by (apply X; right; cbn; apply elem_of_list_here).
      pose proof (f_att _ _ F') as A. rewrite attached_app in A. cbn in A. rewrite app_nil_r in A. rewrite A.
      apply elem_of_list_In, in_seq. lia.
Qed.

(** ** the end *)
Lemma run_owes ls s tr : run init ls = Some (s, tr) -> LForget ∉ ls -> owes s \/ resolved tr <> [].
Proof.
  apply (run_ind (fun s ls tr => LForget ∉ ls -> owes s \/ resolved tr <> [])); [left; by left|].
  clear. intros s ls tr l s' ev I IH H N. rewrite not_elem_of_app, elem_of_list_singleton in N. destruct N as [N1 N2].
  rewrite resolved_app. destruct (IH N1) as [O|O].
  - destruct (e_owes _ _ _ _ (step_effect s l s' ev I H) ltac:(congruence) O) as [?|E]; [by left|right].
    intros E2. apply app_eq_nil in E2. by destruct E2.
  - right. intros E2. apply app_eq_nil in E2. by destruct E2.
Qed.
Lemma settled ls s tr : run init ls = Some (s, tr) -> rest s -> prom s = false -> LForget ∉ ls -> forall n, holder s <> Waits n.
Proof.
  intros R (R1 & R2 & R3) P N n E. pose proof (run_inv _ _ _ _ init_inv R) as I.
  destruct (run_owes ls s tr R N) as [[O|[O|O]]|O].
  - congruence.
  - pose proof (i_refs s I) as X. pose proof (i_alive s I) as Y. rewrite E in X. cbn in X. rewrite O, X in Y. done.
  - by rewrite R1 in O.
  - apply (resolved_told _ _ (run_valued _ _ _ R)) in O. destruct O as [O|O]; [|congruence].
    pose proof (i_waits s I) as W. unfold conts in W. rewrite E, R1, R2, R3, (i_thn s I O) in W. cbn in W. by destruct W.
Qed.
Lemma all_settled ls s tr : run init ls = Some (s, tr) -> rest s -> prom s = false -> LForget ∉ ls ->
  forall n, n ∈ attached tr -> n ∈ fates tr.
Proof.
  intros R Q P N n A. destruct (run_fated _ _ _ R) as [F1 F2 F3 F4]. apply F3. split; [|by eapply settled].
  rewrite F1 in A. apply elem_of_list_In, in_seq in A. lia.
Qed.
Lemma freed ls s tr : run init ls = Some (s, tr) -> rest s -> prom s = false -> LForget ∉ ls -> holder s <> Client -> gone tr = [tt].
Proof.
  intros R Q P N C. pose proof (settled _ _ _ R Q P N) as W. pose proof (run_inv _ _ _ _ init_inv R) as I.
  pose proof (run_ends _ _ _ R) as E. unfold ends in E. destruct Q as (Q1 & Q2 & Q3).
  pose proof (i_fits s I) as F. rewrite Q2 in F. cbn in F. pose proof (i_refs s I) as X. pose proof (i_alive s I) as Y.
  destruct (holder s) eqn:H; try done; [by destruct (W n)|]. rewrite Q1 in X. cbn in X.
  destruct (alive s) eqn:A; [|done].
  destruct (run_owes ls s tr R N) as [[O|[O|O]]|O]; try congruence; [by rewrite Q1 in O|].
  apply (resolved_told _ _ (run_valued _ _ _ R)) in O. destruct O as [O|O]; [|congruence].
  rewrite (i_thn s I O) in X. cbn in X. rewrite X in Y. done.
Qed.
Lemma safe ls s tr : run init ls = Some (s, tr) -> bad s = false.
Proof. intros R. apply (run_inv _ _ _ _ init_inv R). Qed.
Lemma not_early ls s tr : run init ls = Some (s, tr) -> holder s <> Nobody -> gone tr = [].
Proof.
  intros R H. pose proof (run_inv _ _ _ _ init_inv R) as I. pose proof (run_ends _ _ _ R) as E. unfold ends in E.
  rewrite E, (i_alive s I), (i_refs s I). by destruct (holder s).
Qed.
Lemma gone_once ls s tr : run init ls = Some (s, tr) -> length (gone tr) <= 1.
Proof. intros R. pose proof (run_ends _ _ _ R) as E. unfold ends in E. rewrite E. destruct (alive s); cbn; lia. Qed.

(** ** the value *)
Lemma resolved_once ls s tr : run init ls = Some (s, tr) -> length (resolved tr) <= 1.
Proof.
  intros R. pose proof (run_valued _ _ _ R) as V. unfold valued in V. destruct (resolved tr) as [|[v|e] [|]]; cbn in *; try lia; done.
Qed.
Lemma values ls s tr : run init ls = Some (s, tr) ->
  match resolved tr with [] => reads tr = [] | o :: _ => exists m, reads tr = given o m end.
Proof.
  intros R. pose proof (run_valued _ _ _ R) as V. unfold valued in V. destruct (resolved tr) as [|[v|e] [|]]; try done.
  - apply V.
  - destruct V as (_ & [[_ V]|(_ & m & V)]); [exists 0|exists (S m)]; done.
  - apply V.
Qed.
Lemma run_polls ls s tr : run init ls = Some (s, tr) -> LGet ∉ ls -> polls (ccl s) = false /\ length (reads tr) <= spent s.
Proof.
  apply (run_ind (fun s ls tr => LGet ∉ ls -> polls (ccl s) = false /\ length (reads tr) <= spent s)); [done|].
  clear. intros s ls tr l s' ev I IH H N. rewrite not_elem_of_app, elem_of_list_singleton in N. destruct N as [N1 N2].
  destruct (IH N1) as [P L]. destruct (e_polls _ _ _ _ (step_effect s l s' ev I H) ltac:(congruence) P) as [P' L'].
  split; [done|]. rewrite reads_app, app_length. lia.
Qed.
Lemma then_value ls s tr n g : run init ls = Some (s, tr) -> LGet ∉ ls -> GotThen n g ∈ tr ->
  exists o, resolved tr = [o] /\ g = intact o.
Proof.
  intros R N G. destruct (run_polls _ _ _ R N) as [_ L]. assert (spent s <= 1) as L1 by (unfold spent; destruct (holder s), (ccl s) as [[]|]; lia).
  assert (g ∈ reads tr) as M. { unfold reads. apply elem_of_list_In, in_flat_map. eexists. split; [by apply elem_of_list_In|]. cbn. auto. }
  pose proof (values _ _ _ R) as V. pose proof (resolved_once _ _ _ R) as O.
  destruct (resolved tr) as [|o [|]]; cbn in O; try lia; [by rewrite V in M; apply elem_of_nil in M|]. exists o. split; [done|].
  destruct V as [m V]. rewrite V in M, L.
  destruct m as [|[|m]]; [by destruct o; apply elem_of_nil in M| |exfalso; destruct o; cbn in L; lia].
  rewrite given_one in M. by apply elem_of_list_singleton in M.
Qed.

(** ** detach() *)
Lemma run_kept ls s tr : run init ls = Some (s, tr) -> (forall k, LAttach k ∉ ls) ->
  next s = 0 /\ (kept tr <> [] -> thn s = Some Keep \/ resolved tr <> []).
Proof.
  intros R. apply (run_ind (fun s ls tr => (fated s tr /\ valued s tr) /\
    ((forall k, LAttach k ∉ ls) -> next s = 0 /\ (kept tr <> [] -> thn s = Some Keep \/ resolved tr <> [])))) in R; [apply R| |].
  { split; [|done]. split; [by apply (run_fated [])|by apply (run_valued [])]. }
  clear. intros s ls tr l s' ev I [[F V] IH] H. pose proof (step_valued s l s' ev tr I V H) as V'.
  split; [split; [by eapply step_fated|done]|]. intros N.
  destruct IH as [N0 K]. { intros k X. apply (N k). by apply elem_of_app; left. }
  assert (forall k, l <> LAttach k) as N1. { intros k ->. apply (N k). apply elem_of_app; right. by apply elem_of_list_singleton. }
  assert (forall n, holder s <> Waits n) as N2. { intros n E. pose proof (f_wait _ _ F) as W. rewrite E in W. lia. }
  destruct (e_kept _ _ _ _ (step_effect s l s' ev I H) N1 N2) as [K' E]. split; [lia|].
  rewrite kept_app, resolved_app. intros KK.
  assert (thn s = Some Keep \/ resolved tr <> [] \/ kept ev <> []) as [A|[A|A]].
  { destruct (kept tr) eqn:Q; [right; right; done|]. destruct (K ltac:(done)); auto. }
  - destruct K' as [?|T]; [by left|by left|right]. rewrite <- resolved_app. by eapply told_resolved.
  - right. intros E2. apply app_eq_nil in E2. by destruct E2.
  - destruct K' as [?|T]; [by right|by left|right]. rewrite <- resolved_app. by eapply told_resolved.
Qed.
Lemma detached ls s tr : run init ls = Some (s, tr) -> (forall k, LAttach k ∉ ls) -> kept tr <> [] -> gone tr <> [] -> resolved tr <> [].
Proof.
  intros R N K G. destruct (run_kept _ _ _ R N) as [_ X]. destruct (X K) as [T|?]; [|done].
  pose proof (run_inv _ _ _ _ init_inv R) as I. pose proof (run_ends _ _ _ R) as E. unfold ends in E.
  destruct (alive s) eqn:A; [congruence|]. rewrite (i_dead s I A) in T. done.
Qed.
