(** The steps of the future model, case by case. *)
From Coq Require Import List Bool Lia.
From stdpp Require Import list.
From Verif.Future Require Import Model Spec.

Definition resolved (s : st) (c : nat) (o : outcome) : Prop := exists x, get_cell s c = Some x /\ out x = Some o.
Definition resolve_to (c : nat) (o : outcome) (x : cell) (s : st) : st :=
  add [Hand (Some c) (thens x)] (put c (set_strong (S (strong x)) (set_out o x)) s).

Inductive ub_cause (s : st) : res -> act -> Prop :=
  | ub_nofn c x : get_cell s c = Some x -> fn x = None -> ub_cause s (Frame c Enter) AStep
  | ub_fwd c x q l : get_cell s c = Some x -> fn x = Some (Forward None q, l) -> ub_cause s (Frame c Enter) AStep
  | ub_ante c x k q l : get_cell s c = Some x -> fn x = Some (k, l) -> ante k = Some q ->
      (forall o, ~ resolved s q o) -> ub_cause s (Frame c Enter) AStep
  | ub_twice c o p a : p <> Fin -> resolved s c o -> ub_cause s (Frame c p) a
  | ub_fwd_twice c x t q l o : get_cell s c = Some x -> fn x = Some (Forward (Some t) q, l) -> resolved s t o ->
      ub_cause s (Frame c Enter) AStep
  | ub_prom c o : resolved s c o -> ub_cause s (PromDrop c) AStep
  | ub_tok c o r a : r = Tok c \/ r = Job c \/ r = TokDrop c -> resolved s c o -> ub_cause s r a
  | ub_det k c x : get_cell s c = Some x -> out x = None -> ub_cause s (Det k c) AStep.

Inductive tstep (s : st) : label -> st -> list event -> Prop :=
  | t_package caps c : c = length (cs s) -> (forall q, q ∈ caps -> Fut q ∈ rs s) ->
      tstep s (LPackage caps) (add [Fut c; Tok c] (fresh (User, caps) (incrs caps s))) [New c User]
  | t_attach l k a caps d s' : d = length (cs s) -> Fut a ∈ rs s -> (forall q, q ∈ caps -> Fut q ∈ rs s) ->
      (k = Then a /\ l = LThen a caps \/ k = Recover a /\ l = LRecover a caps) ->
      attach a d (add [Fut d] (fresh (k, caps) (incrs (a :: caps) s))) = Some s' ->
      tstep s l s' [New d k]
  | t_fut_drop i c : rs s !! i = Some (Fut c) -> tstep s (L i ADrop) (set i (Drop c) s) []
  | t_fut_copy i c y : rs s !! i = Some (Fut c) -> tstep s (L i (ACopy y)) (add [Fut c] (incr c s)) []
  | t_get i c x : rs s !! i = Some (Fut c) -> get_cell s c = Some x ->
      tstep s (L i (AGet false)) s (got_moved c x ++ [Got c (out x)])
  | t_get_mv i c x : rs s !! i = Some (Fut c) -> get_cell s c = Some x ->
      tstep s (L i (AGet true)) (set i (Drop c) (take_out c s)) (got_moved c x ++ [Got c (out x)])
  | t_det i c x : rs s !! i = Some (Fut c) -> get_cell s c = Some x -> out x = None ->
      tstep s (L i ADetach) (put c (set_strong (S (strong x)) (set_thens (thens x ++ [KSelf c]) x)) s) [Detached c]
  | t_det_late i c o : rs s !! i = Some (Fut c) -> resolved s c o -> tstep s (L i ADetach) s [Detached c]
  | t_detf i c x : rs s !! i = Some (Fut c) -> get_cell s c = Some x -> out x = None ->
      tstep s (L i ADetachF) (rem i (put c (set_thens (thens x ++ [KDet (nk s) c]) x) (St (cs s) (rs s) (S (nk s))))) [DetachedF (nk s) c]
  | t_detf_late i c o : rs s !! i = Some (Fut c) -> resolved s c o ->
      tstep s (L i ADetachF) (set i (Det (nk s) c) (St (cs s) (rs s) (S (nk s)))) [DetachedF (nk s) c]
  | t_inv_dead i c r : r = Tok c \/ r = Job c -> rs s !! i = Some r -> get_cell s c = None ->
      tstep s (L i AInvoke) (rem i s) [Cancelled c]
  | t_inv i c r x : r = Tok c \/ r = Job c -> rs s !! i = Some r -> get_cell s c = Some x ->
      tstep s (L i AInvoke) (add [Frame c Enter] (put c (set_strong (S (strong x)) x) (rem i s))) []
  | t_exec i c : rs s !! i = Some (Tok c) -> tstep s (L i AExec) (set i (Job c) s) []
  | t_aband_dead i c r a : r = Tok c \/ r = Job c \/ r = TokDrop c -> rs s !! i = Some r -> get_cell s c = None ->
      tstep s (L i a) (rem i s) [Cancelled c]
  | t_aband i c r a x e : r = Tok c \/ r = Job c \/ r = TokDrop c -> rs s !! i = Some r -> get_cell s c = Some x ->
      out x = None -> (r = Job c -> forall q p l, fn x <> Some (Forward q p, l)) -> (r <> Tok c -> e = Broken) ->
      (forall n, e = Err n -> a = AExc n) -> (e = Broken -> a = ADrop \/ a = AStep) ->
      tstep s (L i a) (add (fn_drop (fn x)) (resolve_to c (Exc e) (set_fn None x) (put c (set_fn None x) (rem i s))))
        [Abandoned c; Resolved c (Exc e)]
  | t_lost i c : rs s !! i = Some (Tok c) -> tstep s (L i AOverwrite) (rem i s) [Lost c]
  | t_user i c x l : rs s !! i = Some (Frame c Enter) -> get_cell s c = Some x -> fn x = Some (User, l) ->
      tstep s (L i AStep) (set i (Frame c Body) s) [Called c None]
  | t_recover i c x q l o : rs s !! i = Some (Frame c Enter) -> get_cell s c = Some x -> fn x = Some (Recover q, l) ->
      resolved s q o -> tstep s (L i AStep) (set i (Frame c Body) s) [Called c (Some o)]
  | t_then_exc i c x q l e : rs s !! i = Some (Frame c Enter) -> get_cell s c = Some x -> fn x = Some (Then q, l) ->
      resolved s q (Exc e) -> out x = None ->
      tstep s (L i AStep) (resolve_to c (Exc e) x (set i (Frame c Fin) s)) [Skipped c; Resolved c (Exc e)]
  | t_then i c x q l y v : rs s !! i = Some (Frame c Enter) -> get_cell s c = Some x -> fn x = Some (Then q, l) ->
      get_cell s q = Some y -> out y = Some (Val v) ->
      tstep s (L i AStep) (set i (Frame c Body) (take_out q s)) (got_moved q y ++ [Called c (Some (Val v))])
  | t_fwd_dead i c x t q l y o : rs s !! i = Some (Frame c Enter) -> get_cell s c = Some x ->
      fn x = Some (Forward (Some t) q, l) -> get_cell s q = Some y -> out y = Some o ->
      get_cell (put c (set_fn (Some (Forward None q, l)) x) (set i (Frame c Ret) (take_out q s))) t = None ->
      tstep s (L i AStep) (put c (set_fn (Some (Forward None q, l)) x) (set i (Frame c Ret) (take_out q s)))
        (got_moved q y ++ [Skipped c])
  | t_fwd i c x t q l y o z : rs s !! i = Some (Frame c Enter) -> get_cell s c = Some x ->
      fn x = Some (Forward (Some t) q, l) -> get_cell s q = Some y -> out y = Some o ->
      get_cell (put c (set_fn (Some (Forward None q, l)) x) (set i (Frame c Ret) (take_out q s))) t = Some z -> out z = None ->
      tstep s (L i AStep) (resolve_to t o z (put c (set_fn (Some (Forward None q, l)) x) (set i (Frame c Ret) (take_out q s))))
        (got_moved q y ++ [Skipped c] ++ [Resolved t o])
  | t_val i c x a o r : rs s !! i = Some (Frame c Body) -> get_cell s c = Some x -> out x = None ->
      (exists v, a = AVal v /\ o = Val v /\ r = RVal v) \/ (exists e, a = AThrow e /\ o = Exc (Err e) /\ r = RExc e) ->
      tstep s (L i a) (resolve_to c o x (set i (Frame c Fin) s)) [Returned c r; Resolved c o]
  | t_red i c x r h s' : rs s !! i = Some (Frame c Body) -> get_cell s c = Some x -> Fut r ∈ rs s -> h = length (cs s) ->
      attach r h (fresh (Forward (Some c) r, []) (incr r (put c (set_hold (Some h) x) (set i (Frame c Fin) s)))) = Some s' ->
      tstep s (L i (AFut r)) s' [New h (Forward (Some c) r); Returned c (RFut r)]
  | t_null i c : rs s !! i = Some (Frame c Body) -> tstep s (L i ANull) s [Ub]
  | t_cap i c x f q : rs s !! i = Some (Frame c Body) -> get_cell s c = Some x -> fn x = Some f -> q ∈ fn_avail f ->
      tstep s (L i (ACopy q)) (add [Fut q] (incr q s)) []
  | t_ret i c x : rs s !! i = Some (Frame c Ret) -> get_cell s c = Some x -> out x = None ->
      tstep s (L i AStep) (resolve_to c (Val 0) x (set i (Frame c Fin) s)) [Resolved c (Val 0)]
  | t_fin i c x : rs s !! i = Some (Frame c Fin) -> get_cell s c = Some x ->
      tstep s (L i AStep) (add (fn_drop (fn x)) (put c (set_fn None x) (set i (Drop c) s))) []
  | t_hand_end i c : rs s !! i = Some (Hand (Some c) []) -> tstep s (L i AStep) (set i (Drop c) s) []
  | t_hand_end' i : rs s !! i = Some (Hand None []) -> tstep s (L i AStep) (rem i s) []
  | t_hand i o d l : rs s !! i = Some (Hand o (KTask d :: l)) ->
      tstep s (L i AStep) (add [Job d] (set i (Hand o l) s)) [Handed d]
  | t_hand_self i o c l : rs s !! i = Some (Hand o (KSelf c :: l)) -> tstep s (L i AStep) (add [Drop c] (set i (Hand o l) s)) []
  | t_hand_det i o k c l : rs s !! i = Some (Hand o (KDet k c :: l)) ->
      tstep s (L i AStep) (add [Det k c] (set i (Hand o l) s)) []
  | t_free i c x : rs s !! i = Some (Drop c) -> get_cell s c = Some x -> strong x = 1 ->
      tstep s (L i AStep)
        (add (fn_drop (fn x) ++ (cont_drop <$> thens x) ++ match hold x with Some h => [Drop h] | None => [] end)
           (rem i (St (<[c := None]> (cs s)) (rs s) (nk s)))) [Freed c]
  | t_dec i c x : rs s !! i = Some (Drop c) -> get_cell s c = Some x -> strong x <> 1 ->
      tstep s (L i AStep) (rem i (put c (set_strong (pred (strong x)) x) s)) []
  | t_prom_dead i c : rs s !! i = Some (PromDrop c) -> get_cell s c = None -> tstep s (L i AStep) (rem i s) []
  | t_prom i c x : rs s !! i = Some (PromDrop c) -> get_cell s c = Some x -> out x = None ->
      tstep s (L i AStep) (resolve_to c (Exc Broken) x (rem i s)) [Resolved c (Exc Broken)]
  | t_detcall i k c o : rs s !! i = Some (Det k c) -> resolved s c o ->
      tstep s (L i AStep) (set i (Drop c) s) [DetCalled k o]
  | t_ub i r a s' e : rs s !! i = Some r -> ub_cause s r a -> tstep s (L i a) s' e.

Lemma get_rem s i c : get_cell (rem i s) c = get_cell s c.
Proof. done. Qed.
Lemma get_set s i r c : get_cell (set i r s) c = get_cell s c.
Proof. done. Qed.
Lemma get_add s l c : get_cell (add l s) c = get_cell s c.
Proof. done. Qed.
Lemma get_lt s c x : get_cell s c = Some x -> c < length (cs s).
Proof. unfold get_cell. destruct (cs s !! c) eqn:E; [|done]. intros _. by eapply lookup_lt_Some. Qed.
Lemma get_cs s c x : get_cell s c = Some x -> cs s !! c = Some (Some x).
Proof. unfold get_cell. destruct (cs s !! c) as [[]|]; naive_solver. Qed.
Lemma get_put s c x y d : get_cell s c = Some x ->
  get_cell (put c y s) d = if d =? c then Some y else get_cell s d.
Proof.
  intros H. unfold get_cell, put. simpl. destruct (Nat.eqb_spec d c) as [->|N].
  - rewrite list_lookup_insert; [done|]. by eapply get_lt.
  - by rewrite list_lookup_insert_ne by done.
Qed.
Lemma rs_put s c y : rs (put c y s) = rs s.
Proof. done. Qed.
Lemma rs_incr s c : rs (incr c s) = rs s.
Proof. unfold incr. by destruct (get_cell s c). Qed.
Lemma rs_incrs s l : rs (incrs l s) = rs s.
Proof. induction l; [done|]. simpl. by rewrite rs_incr. Qed.
Lemma rs_take s c : rs (take_out c s) = rs s.
Proof. unfold take_out. destruct (get_cell s c) as [x|]; [|done]. destruct (out x) as [[]|]; try done. by destruct (_ =? _). Qed.
Lemma len_put s c y : length (cs (put c y s)) = length (cs s).
Proof. unfold put. simpl. apply insert_length. Qed.
Lemma len_incr s c : length (cs (incr c s)) = length (cs s).
Proof. unfold incr. destruct (get_cell s c); [|done]. apply len_put. Qed.
Lemma len_incrs s l : length (cs (incrs l s)) = length (cs s).
Proof. induction l; [done|]. simpl. by rewrite len_incr. Qed.
Lemma len_take s c : length (cs (take_out c s)) = length (cs s).
Proof. unfold take_out. destruct (get_cell s c) as [x|]; [|done]. destruct (out x) as [[]|]; try done. destruct (_ =? _); [apply len_put|done]. Qed.

Lemma holds_in s c : holds s c = true <-> Fut c ∈ rs s.
Proof.
  unfold holds. rewrite existsb_exists. setoid_rewrite <- elem_of_list_In. split.
  - intros ([] & H & E); try done. apply Nat.eqb_eq in E. by subst.
  - intros H. exists (Fut c). by rewrite Nat.eqb_refl.
Qed.
Lemma forallb_holds s l : forallb (holds s) l = true <-> forall q, q ∈ l -> Fut q ∈ rs s.
Proof.
  rewrite forallb_forall. split; intros H q Hq.
  - apply holds_in, H. by apply elem_of_list_In.
  - apply holds_in, H. by apply elem_of_list_In.
Qed.

Lemma resolve_cases c o s s' e : resolve c o s = Some (s', e) ->
  exists x, get_cell s c = Some x /\ ((exists o', out x = Some o') \/ out x = None /\ s' = resolve_to c o x s /\ e = [Resolved c o]).
Proof.
  unfold resolve. destruct (get_cell s c) as [x|]; [|done]. intros H. exists x. split; [done|].
  destruct (out x) as [o'|]; [left; eauto|]. right. by simplify_eq.
Qed.
Lemma abandon_cases c ex s s' e : abandon c ex s = Some (s', e) ->
  get_cell s c = None /\ s' = s /\ e = [Cancelled c] \/
  exists x, get_cell s c = Some x /\ ((exists o', out x = Some o') \/
    out x = None /\ s' = add (fn_drop (fn x)) (resolve_to c (Exc ex) (set_fn None x) (put c (set_fn None x) s)) /\
    e = [Abandoned c; Resolved c (Exc ex)]).
Proof.
  unfold abandon. destruct (get_cell s c) as [x|] eqn:E; [|intros [= <- <-]; auto]. intros H. right. exists x. split; [done|].
  destruct (resolve _ _ _) as [[s1 e1]|] eqn:E1; [|done]. injection H as [= <- <-].
  apply resolve_cases in E1 as (y & Hy & [(o' & Ho)|(Ho & -> & ->)]);
    rewrite (get_put _ _ _ _ _ E), Nat.eqb_refl in Hy; injection Hy as [= <-]; simpl in Ho; [left; eauto|].
  right. done.
Qed.

Lemma get_take s q c x : get_cell s c = Some x -> exists x', get_cell (take_out q s) c = Some x' /\
  (x' = x \/ x' = set_moved x /\ q = c /\ strong x = 1 /\ exists v, out x = Some (Val v)).
Proof.
  intros H. unfold take_out. destruct (get_cell s q) as [y|] eqn:E; [|eauto]. destruct (out y) as [[]|] eqn:Eo; eauto.
  destruct (Nat.eqb_spec (strong y) 1); [|eauto]. rewrite (get_put _ _ _ _ _ E). destruct (Nat.eqb_spec c q) as [->|]; [|eauto].
  simplify_eq. eexists. split; [done|]. right. eauto.
Qed.
Lemma get_take_none s q c : get_cell s c = None -> get_cell (take_out q s) c = None.
Proof.
  intros H. unfold take_out. destruct (get_cell s q) as [y|] eqn:E; [|done]. destruct (out y) as [[]|] eqn:Eo; auto.
  destruct (Nat.eqb_spec (strong y) 1); [|done]. rewrite (get_put _ _ _ _ _ E). destruct (Nat.eqb_spec c q) as [->|]; [congruence|done].
Qed.

Lemma step_t s l s' e : step s l = Some (s', e) -> tstep s l s' e.
Proof.
  destruct l as [caps|a caps|a caps|i a]; unfold step.
  - destruct (forallb (holds s) caps) eqn:E; [|done]. intros [= <- <-]. apply t_package; [done|]. by apply forallb_holds.
  - destruct (holds s a) eqn:E1; [|done]. destruct (forallb (holds s) caps) eqn:E; [|done]. simpl andb. cbv iota zeta.
    destruct (attach _ _ _) eqn:E2; [|done]. intros [= <- <-]. eapply t_attach; eauto.
    + by apply holds_in.
    + by apply forallb_holds.
  - destruct (holds s a) eqn:E1; [|done]. destruct (forallb (holds s) caps) eqn:E; [|done]. simpl andb. cbv iota zeta.
    destruct (attach _ _ _) eqn:E2; [|done]. intros [= <- <-]. eapply t_attach; eauto.
    + by apply holds_in.
    + by apply forallb_holds.
  - destruct (rs s !! i) as [r|] eqn:Hr; [|done]. unfold act_on. destruct r as [c|c|c|c p|o ks|c|c|c|k c].
    + destruct a as [| | | | | | | | | |y|mv| |]; try done.
      * intros [= <- <-]. by constructor.
      * intros [= <- <-]. by constructor.
      * destruct (get_cell s c) as [x|] eqn:E; [|done]. destruct mv; intros [= <- <-]; by econstructor.
      * destruct (get_cell s c) as [x|] eqn:E; [|done]. destruct (out x) eqn:Eo; intros [= <- <-].
        -- eapply t_det_late; eauto. by exists x; eauto.
        -- by constructor.
      * destruct (get_cell s c) as [x|] eqn:E; [|done]. simpl. destruct (out x) eqn:Eo; intros [= <- <-].
        -- eapply t_detf_late; eauto. by exists x; eauto.
        -- by constructor.
    + destruct a as [| | | |e0| | | | | | | | |]; try done.
      * intros H. apply abandon_cases in H as [(E & -> & ->)|(x & E & [(o & Eo)|(Eo & -> & ->)])]; rewrite get_rem in E.
        -- eapply t_aband_dead; [|exact Hr|exact E]; auto.
        -- eapply t_ub; [done|]. eapply ub_tok; eauto. by exists x; eauto.
        -- eapply t_aband; [|exact Hr|exact E|exact Eo|..]; auto; intros; simplify_eq; eauto.
      * unfold invoke. destruct (get_cell (rem i s) c) as [x|] eqn:E; intros [= <- <-]; rewrite get_rem in E.
        -- eapply t_inv; [|exact Hr|exact E]; auto.
        -- eapply t_inv_dead; [|exact Hr|exact E]; auto.
      * intros [= <- <-]. by constructor.
      * intros H. apply abandon_cases in H as [(E & -> & ->)|(x & E & [(o & Eo)|(Eo & -> & ->)])]; rewrite get_rem in E.
        -- eapply t_aband_dead; [|exact Hr|exact E]; auto.
        -- eapply t_ub; [done|]. eapply ub_tok; eauto. by exists x; eauto.
        -- eapply t_aband; [|exact Hr|exact E|exact Eo|..]; auto; intros; simplify_eq; eauto.
      * intros [= <- <-]. by constructor.
    + destruct a as [| | | | | | | | | | | | |]; try done.
      * intros H.
        assert (abandon c Broken (rem i s) = Some (s', e) /\
                forall x q p l, get_cell s c = Some x -> fn x <> Some (Forward q p, l)) as [H' Hf].
        { destruct (get_cell s c) as [[? ? ? f ? ?]|] eqn:E; [|by split].
          destruct f as [[[] ]|]; try done; split; try done; intros ???? [= <-]; done. }
        clear H. apply abandon_cases in H' as [(E & -> & ->)|(x & E & [(o & Eo)|(Eo & -> & ->)])]; rewrite get_rem in E.
        -- eapply t_aband_dead; [|exact Hr|exact E]; auto.
        -- eapply t_ub; [done|]. eapply ub_tok; eauto. by exists x; eauto.
        -- eapply t_aband; [|exact Hr|exact E|exact Eo|..]; auto; intros; simplify_eq; eauto.
      * unfold invoke. destruct (get_cell (rem i s) c) as [x|] eqn:E; intros [= <- <-]; rewrite get_rem in E.
        -- eapply t_inv; [|exact Hr|exact E]; auto.
        -- eapply t_inv_dead; [|exact Hr|exact E]; auto.
    + unfold frame. destruct (get_cell s c) as [x|] eqn:E; [|done].
      destruct p, a as [| | | | | |v|e0|r| |q| | |]; try done.
      * destruct (fn x) as [[k l]|] eqn:Ef; [|intros [= <- <-]; by eapply t_ub, ub_nofn].
        destruct k as [|q|q|[t|] q].
        -- intros [= <- <-]. by econstructor.
        -- destruct (get_cell s q) as [y|] eqn:Eq.
           2:{ intros [= <- <-]. eapply t_ub; [done|]. eapply (ub_ante _ _ _ _ _ _ E Ef); [done|]. intros ? (? & ? & ?). congruence. }
           destruct (out y) as [[v|ex]|] eqn:Eo.
           3:{ intros [= <- <-]. eapply t_ub; [done|]. eapply (ub_ante _ _ _ _ _ _ E Ef); [done|]. intros ? (? & ? & ?). congruence. }
           ++ intros [= <- <-]. by econstructor.
           ++ destruct (resolve _ _ _) as [[s1 e1]|] eqn:E1; [|done]. intros [= <- <-].
              apply resolve_cases in E1 as (z & Hz & [(o & Ho)|(Ho & -> & ->)]); rewrite get_set in Hz; simplify_eq.
              ** eapply t_ub; [done|]. eapply ub_twice; [done|]. by exists x; eauto.
              ** eapply t_then_exc; eauto. by exists y.
        -- destruct (get_cell s q) as [y|] eqn:Eq.
           2:{ intros [= <- <-]. eapply t_ub; [done|]. eapply (ub_ante _ _ _ _ _ _ E Ef); [done|]. intros ? (? & ? & ?). congruence. }
           destruct (out y) as [o|] eqn:Eo.
           2:{ intros [= <- <-]. eapply t_ub; [done|]. eapply (ub_ante _ _ _ _ _ _ E Ef); [done|]. intros ? (? & ? & ?). congruence. }
           intros [= <- <-]. eapply t_recover; eauto. by exists y.
        -- destruct (get_cell s q) as [y|] eqn:Eq.
           2:{ intros [= <- <-]. eapply t_ub; [done|]. eapply (ub_ante _ _ _ _ _ _ E Ef); [done|]. intros ? (? & ? & ?). congruence. }
           destruct (out y) as [o|] eqn:Eo.
           2:{ intros [= <- <-]. eapply t_ub; [done|]. eapply (ub_ante _ _ _ _ _ _ E Ef); [done|]. intros ? (? & ? & ?). congruence. }
           set (s1 := put c _ _). simpl. destruct (get_cell s1 t) as [z|] eqn:Ez.
           ++ destruct (resolve t o s1) as [[s2 e2]|] eqn:E1; [|done]. intros [= <- <-].
              apply resolve_cases in E1 as (z' & Hz & [(o' & Ho)|(Ho & -> & ->)]); simplify_eq.
              ** eapply t_ub; [done|]. eapply ub_fwd_twice; eauto.
                 assert (exists x', get_cell (take_out q s) c = Some x' /\ out x' = out x) as (x' & Hx' & Hxo).
                 { destruct (get_take s q c x E) as (x' & ? & [->|(-> & _)]); eauto. }
                 subst s1. rewrite (get_put _ _ x') in Ez by done.
                 destruct (Nat.eqb_spec t c) as [->|]; simplify_eq/=; [by exists x|].
                 rewrite get_set in Ez. destruct (get_cell s t) as [z0|] eqn:Et.
                 --- destruct (get_take s q t z0 Et) as (z1 & ? & [->|(-> & _)]); simplify_eq/=; eexists; eauto.
                 --- rewrite get_take_none in Ez by done. done.
              ** rewrite <- (app_assoc (got_moved q y)). subst s1. by eapply t_fwd.
           ++ intros [= <- <-]. by eapply t_fwd_dead.
        -- intros [= <- <-]. eapply t_ub; [done|]. by eapply ub_fwd.
      * destruct (resolve _ _ _) as [[s1 e1]|] eqn:E1; [|done]. intros [= <- <-].
        apply resolve_cases in E1 as (z & Hz & [(o & Ho)|(Ho & -> & ->)]); rewrite get_set in Hz; simplify_eq.
        -- eapply t_ub; [done|]. eapply ub_twice; [done|]. by exists x; eauto.
        -- eapply t_val; eauto.
      * destruct (resolve _ _ _) as [[s1 e1]|] eqn:E1; [|done]. intros [= <- <-].
        apply resolve_cases in E1 as (z & Hz & [(o & Ho)|(Ho & -> & ->)]); rewrite get_set in Hz; simplify_eq.
        -- eapply t_ub; [done|]. eapply ub_twice; [done|]. by exists x; eauto.
        -- eapply t_val; eauto 6.
      * destruct (holds s r) eqn:Eh; [|done]. apply holds_in in Eh. cbv zeta.
        destruct (attach _ _ _) eqn:E1; [|done]. intros [= <- <-]. by eapply t_red.
      * intros [= <- <-]. by eapply t_null.
      * destruct (fn x) as [f|] eqn:Ef; [|done]. destruct (existsb _ _) eqn:Ex; [|done]. intros [= <- <-].
        eapply t_cap; eauto. apply existsb_exists in Ex as (r & Hr' & Hq). apply Nat.eqb_eq in Hq as ->. by apply elem_of_list_In.
      * intros H. apply resolve_cases in H as (z & Hz & [(o & Ho)|(Ho & -> & ->)]); rewrite get_set in Hz; simplify_eq.
        -- eapply t_ub; [done|]. eapply ub_twice; [done|]. by exists x; eauto.
        -- by eapply t_ret.
      * intros [= <- <-]. by eapply t_fin.
    + destruct a; try by destruct ks.
      destruct ks as [|[d|c|k c] ks].
      * destruct o; intros [= <- <-]; by constructor.
      * intros [= <- <-]. by constructor.
      * intros [= <- <-]. by constructor.
      * intros [= <- <-]. by constructor.
    + destruct a; try done. destruct (get_cell s c) as [x|] eqn:E; [|done].
      destruct (Nat.eqb_spec (strong x) 1); intros [= <- <-]; by constructor.
    + destruct a; try done. intros H. apply abandon_cases in H as [(E & -> & ->)|(x & E & [(o & Eo)|(Eo & -> & ->)])]; rewrite get_rem in E.
      * eapply t_aband_dead; [|exact Hr|exact E]; auto.
      * eapply t_ub; [done|]. eapply ub_tok; eauto. by exists x; eauto.
      * eapply t_aband; [|exact Hr|exact E|exact Eo|..]; auto; intros; simplify_eq; eauto.
    + destruct a; try done. destruct (get_cell s c) as [x|] eqn:E; [|intros [= <- <-]; by eapply t_prom_dead].
      intros H. apply resolve_cases in H as (z & Hz & [(o & Ho)|(Ho & -> & ->)]); rewrite get_rem in Hz; simplify_eq.
      * eapply t_ub; [done|]. eapply ub_prom. by exists x; eauto.
      * by apply t_prom.
    + destruct a; try done. destruct (get_cell s c) as [x|] eqn:E; [|done]. destruct (out x) as [o|] eqn:Eo; intros [= <- <-].
      * eapply t_detcall; [done|]. by exists x.
      * eapply t_ub; [done|]. by econstructor.
Qed.
