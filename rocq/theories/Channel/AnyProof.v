(** Networks with any buffer sizes: what the properties say. *)
From Coq Require Import List Bool ZArith Lia Arith.
From stdpp Require Import list.
From Verif.Channel Require Import Queue QueueProof Model Spec Trace Flow AnyInv AnyRun.

Lemma any_calls ls s tr i n : run init ls = Some (s, tr) -> nodes s !! i = Some n ->
  exists taken pending, served (strat n) (length (ups n)) (fun p => sent i p tr) taken /\ taken ≡ₚ handled i tr ++ pending /\ (jobs s = [] -> pending = []).
Proof.
  intros R Hn. apply ainv_run in R as A. exists (popped i tr), (infl i s). destruct (a_node s tr A i n Hn). split; [|split].
  - apply (served_ext _ _ (fun p => apps p (ops i tr))); [intros p; apply apps_ops|]. eapply served_ok; [|done|by apply (a_ops s tr A)]. destruct (ups n); [done|simpl; lia].
  - apply (a_hand s tr A).
  - intros J. unfold infl. by rewrite J.
Qed.
Lemma any_results ls s tr i : run init ls = Some (s, tr) -> length (results i tr) <= length (invoked i tr) /\ (jobs s = [] -> length (results i tr) = length (invoked i tr)).
Proof.
  intros R. apply ainv_run in R as A. pose proof (a_res s tr A i) as E. split; [lia|]. intros J. unfold exec in E. rewrite J in E. simpl in E. lia.
Qed.
Lemma any_flow ls s tr d nd p u : run init ls = Some (s, tr) -> nodes s !! d = Some nd -> ups nd !! p = Some (Some u) -> exists tr2, since u d p tr tr2 /\ sent d p tr ⊆+ results u tr2 /\
  (Closed u ∉ tr -> deadb d s = false -> jobs s = [] -> sent d p tr ≡ₚ results u tr2).
Proof.
  intros R Hd Hp. apply ainv_run in R as A. destruct (a_edge s tr A d p u) as (tr2 & S1 & S2 & S3); [by exists nd|]. exists tr2. split; [done|]. split.
  - etrans; [|done]. by apply submseteq_inserts_r.
  - intros C D J. unfold iedge in S3. rewrite J in S3. rewrite <- S3; [by rewrite app_nil_r| |done]. unfold closed. apply omap_none. intros t e He. apply elem_of_list_lookup_2 in He.
    destruct e as [| | | | | |j| |]; try done. unfold pick. destruct (Nat.eqb_spec j u) as [->|]; done.
Qed.
Lemma closing_alone ls s tr t1 t2 i rest p : Forall InvRun.buf1 ls -> run init ls = Some (s, tr) -> jobs s !! t1 = Some (i, JClear rest) -> jobs s !! t2 = Some (i, p) ->
  match p with JInvoke _ | JSusp _ _ _ | JSend _ _ | JPend | JCts _ _ (Some _) => False | _ => True end.
Proof.
  intros B R H1 H2. destruct (InvRun.inv_run ls init s tr InvRun.inv_init B R) as [I _].
  destruct (Inv.i_job s I _ _ _ H1) as (n & Hn & F & _). destruct (Inv.i_job s I _ _ _ H2) as (n' & Hn' & J). assert (n' = n) as -> by congruence.
  destruct p as [|todo ok1 [m|]|ms|o r b|o r|ok1| | |r]; try done; simpl in J; try congruence; destruct J as [J1 J2]; congruence.
Qed.
