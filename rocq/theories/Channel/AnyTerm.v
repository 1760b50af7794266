(** Networks with any buffer sizes come to rest too: a pair of measures, of which the first, or the second and not the first, decreases with every step which
    is not a client's and not undefined behaviour. *)
From Coq Require Import List Bool ZArith Lia Arith.
From stdpp Require Import list.
From Verif.Channel Require Import Queue QueueProof Model Sum Inv InvStep InvStep2 InvStep3 InvRun Moves Spec Trace Term AnyInv AnyRun.

Lemma sumf_perm {A} (f : A -> nat) l k : l ≡ₚ k -> sumf f l = sumf f k.
Proof. induction 1; simpl; lia. Qed.
Lemma sumf_mul {A} (f g : A -> nat) l c : (forall x, f x <= c * g x) -> sumf f l <= c * sumf g l.
Proof. intros H. induction l as [|a l IH]; simpl; [lia|]. specialize (H a). lia. Qed.
Lemma sumf_const {A} (f : A -> nat) l c : (forall x, f x <= c) -> sumf f l <= c * length l.
Proof. intros H. induction l as [|a l IH]; simpl; [lia|]. specialize (H a). lia. Qed.

Section pair.
  Context (U V : nat -> nat).
  Definition jP (j : nat * pc) : nat :=
    match snd j with
    | JPend | JDone | JFinal => 0
    | JCts todo ok1 m => match todo with [] => 0 | _ => 2 * length todo - b2n ok1 end + match m with Some _ => V (fst j) + 3 | None => 0 end
    | JInvoke _ => V (fst j)
    | JSusp _ rest _ => 4 + sumf (ecost U V) rest
    | JSend _ rest => 3 + sumf (ecost U V) rest
    | JSelf false => 2
    | JSelf true => 1
    | JClear rest => 3 * length rest
    end.
  Definition nP (i : nat) (n : node) : nat := W U V i * sumf length (qs (que n)) + b2n (closeq n) + 3 * length (down n).
  Fixpoint sumP (k : nat) (l : list node) : nat := match l with [] => 0 | n :: l => nP k n + sumP (S k) l end.
  Definition pP (p : pend) : nat := match p with PRecv _ => 1 | PSend _ => 2 end.
  Definition first (s : st) : nat := sumP 0 (nodes s) + sumf jP (jobs s) + sumf pP (pends s).
  Definition jS (s : st) (j : nat * pc) : nat :=
    match snd j with JPend => if rdy s (fst j) then 1 else 6 | JCts _ _ None => 5 | JDone => 4 | JFinal => 2 | _ => 1 end.
  Definition second (s : st) : nat := sumf (jS s) (jobs s).
  Definition less (s' s : st) : Prop := first s' < first s /\ second s' <= 6 * second s + 12 \/ first s' <= first s /\ second s' < second s.

  Lemma sumP_insert l : forall k i n n', l !! i = Some n -> sumP k (<[i := n']> l) + nP (k + i) n = sumP k l + nP (k + i) n'.
  Proof.
    induction l as [|a l IH]; intros k [|i] n n' H; simpl in *; try done.
    - injection H as ->. rewrite Nat.add_0_r. lia.
    - specialize (IH (S k) i n n' H). rewrite Nat.add_succ_r. simpl in IH. lia.
  Qed.
  Lemma jS_le s y : 1 <= jS s y <= 6.
  Proof. destruct y as [i p]. unfold jS. simpl. destruct p as [| ? ? [] | | | | | | |]; try lia. destruct (rdy s i); lia. Qed.
  Lemma jS_mul s s' y : jS s' y <= 6 * jS s y.
  Proof. pose proof (jS_le s y). pose proof (jS_le s' y). lia. Qed.
  Lemma jS_same s s' y : (forall i, rdy s' i = rdy s i) -> jS s' y = jS s y.
  Proof. intros H. destruct y as [i p]. unfold jS. simpl. by rewrite H. Qed.
  (** one process changes, jobs xs become ys *)
  Lemma less_step s s' d n n' xs ys R po pn : fit U V s -> nodes s !! d = Some n -> nodes s' = <[d := n']> (nodes s) -> ups n' = ups n -> down n' = down n \/ down n' = [] ->
    jobs s ≡ₚ xs ++ R -> jobs s' ≡ₚ ys ++ R -> length ys <= 2 -> sumf pP (pends s') + po = sumf pP (pends s) + pn ->
    nP d n' + sumf jP ys + pn < nP d n + sumf jP xs + po \/
      nP d n' + sumf jP ys + pn <= nP d n + sumf jP xs + po /\ negb (empty_q n') || closeq n' = negb (empty_q n) || closeq n /\ sumf (jS s) ys < sumf (jS s) xs ->
    less s' s /\ fit U V s'.
  Proof.
    intros F Hn Hs Up Dn Jx Jy Ly Pe C. split; [|by eapply fit_set].
    pose proof (sumP_insert (nodes s) 0 d n n' Hn) as X. rewrite <- Hs in X. simpl in X.
    apply (sumf_perm jP) in Jx as X1. apply (sumf_perm jP) in Jy as X2. rewrite sumf_app in X1, X2.
    apply (sumf_perm (jS s)) in Jx as Y1. rewrite sumf_app in Y1. unfold less, first, second. destruct C as [C|(C & Re & L)]; [left|right]; (split; [lia|]).
    - apply (sumf_perm (jS s')) in Jy as Y2. rewrite sumf_app in Y2.
      pose proof (sumf_mul (jS s') (jS s) R 6 (jS_mul s s')). pose proof (sumf_const (jS s') ys 6 (fun y => proj2 (jS_le s' y))). lia.
    - rewrite (sumf_ext (jS s') (jS s)); [apply (sumf_perm (jS s)) in Jy as Y2; rewrite sumf_app in Y2; lia|]. intros y _. apply jS_same. intros i. unfold rdy. rewrite Hs.
      destruct (decide (d = i)) as [->|N]; [|by rewrite list_lookup_insert_ne]. rewrite list_lookup_insert by (by eapply lookup_lt_Some). by rewrite Hn.
  Qed.
  (** only jobs change *)
  Lemma less_jobs s s' i xs ys R : fit U V s -> is_Some (nodes s !! i) -> nodes s' = nodes s -> jobs s ≡ₚ xs ++ R -> jobs s' ≡ₚ ys ++ R -> length ys <= 2 -> pends s' = pends s ->
    sumf jP ys < sumf jP xs \/ sumf jP ys <= sumf jP xs /\ sumf (jS s) ys < sumf (jS s) xs -> less s' s /\ fit U V s'.
  Proof.
    intros F [n Hn] Hs Jx Jy Ly Pe C. eapply (less_step s s' i n n xs ys R 0 0); try done; [by rewrite Hs, list_insert_id|by left|by rewrite Pe|]. 
    destruct C as [C|[C1 C2]]; [left; lia|right; repeat split; [lia|done]].
  Qed.
  Lemma ecost_cons e rest : sumf (ecost U V) (e :: rest) = W U V e.1 + 22 + sumf (ecost U V) rest.
  Proof. done. Qed.
  Lemma less_job s tr t i p s' ev : ainv s tr -> fit U V s -> jobs s !! t = Some (i, p) -> job_step t i p s = Some (s', ev) -> Ub ∉ ev -> less s' s /\ fit U V s'.
  Proof.
    intros A F Ht H NU. apply elem_of_list_lookup_2 in Ht as Ji. apply (a_job s tr A) in Ji as [[n Hn] G]. simpl in Hn, G. pose proof (a_node s tr A i n Hn) as Gn.
    unfold job_step in H. rewrite Hn in H. assert (is_Some (nodes s !! i)) as Sn by by eexists.
    pose proof (jobs_at (jobs s) t _ Ht) as Jat. assert (forall y, <[t := y]> (jobs s) ≡ₚ [y] ++ delete t (jobs s)) as Jset.
    { intros y. rewrite <- (app_nil_r (<[t := y]> (jobs s))). rewrite (jobs_set _ [] t _ y Ht). by rewrite app_nil_r. }
    assert (forall y, y <> Ub -> False \/ True) as _ by auto.
    destruct p as [|[|u todo] ok1 m|ms|o rest b|o [|e rest]|ok1| | |[|e rest]].
    - destruct (deadb i s) eqn:De.
      { injection H as <- <-. apply (less_jobs s _ i [(i, JPend)] [] (delete t (jobs s))); try done; [simpl; lia|]. right. pose proof (jS_le s (i, JPend)). simpl. lia. }
      unfold pop_from_queue in H. destruct (empty_q n) eqn:Em.
      { injection H as <- <-. apply (less_step s _ i n (with_close false (closeq n) n) [(i, JPend)] [(i, JCts [] false None)] (delete t (jobs s)) 0 0); try done; [by left|apply Jset|simpl; lia|].
        unfold nP. cbn -[W Nat.mul jS]. destruct (closeq n) eqn:Cl; [left; simpl; lia|right]. split; [simpl; lia|]. split; [done|].
        unfold jS. simpl. unfold rdy. rewrite Hn, Em, Cl. simpl. lia. }
      destruct (q_front (strat n) (que n)) as [[ms q']|] eqn:Fr; [|injection H as <- <-; destruct NU; left].
      injection H as <- <-. unfold empty_q in Em.
      apply (less_step s _ i n (with_que (q_pop (strat n) q') n) [(i, JPend)] [(i, JCts (do_cts n (q_pop (strat n) q')) false (Some ms))] (delete t (jobs s)) 0 0); try done; [by left|apply Jset|simpl; lia|].
      left. destruct (F i n Hn) as [Fu _]. pose proof (cts_length n (q_pop (strat n) q')) as Lc.
      assert (sumf length (qs (q_pop (strat n) q')) < sumf length (qs (que n))) as L.
      { eapply (total_take (strat n)); [|unfold q_take; by rewrite Em, Fr]. rewrite (g_ports _ _ _ Gn). pose proof (g_pos _ _ _ Gn). destruct (ups n); [done|]. simpl. lia. }
      unfold nP, jP. cbn -[W Nat.mul do_cts]. set (c := do_cts _ _) in *.
      assert (W U V i * S (sumf length (qs (q_pop (strat n) q'))) <= W U V i * sumf length (qs (que n))) as Y by (apply Nat.mul_le_mono_l; lia).
      rewrite Nat.mul_succ_r in Y. unfold W at 2 in Y. destruct c as [|c0 c1]; simpl b2n; cbn [length] in *; lia.
    - destruct m as [ms|].
      + destruct (has_error ms).
        { injection H as <- <-. apply (less_jobs s _ i [(i, JCts [] ok1 (Some ms))] [] (delete t (jobs s))); try done; [simpl; lia|]. left. unfold jP. simpl. lia. }
        destruct (proc n) eqn:Pr; [|injection H as <- <-; destruct NU; left].
        injection H as <- <-. apply (less_jobs s _ i [(i, JCts [] ok1 (Some ms))] [(i, JInvoke ms)] (delete t (jobs s))); try done; [apply Jset|simpl; lia|]. left. unfold jP. simpl. lia.
      + injection H as <- <-. apply (less_jobs s _ i [(i, JCts [] ok1 None)] [(i, JDone)] (delete t (jobs s))); try done; [apply Jset|simpl; lia|]. right. unfold jP, jS. simpl. lia.
    - destruct ok1.
      + unfold clear2 in H. destruct (nodes s !! u) as [nu|] eqn:Hu; [|done]. injection H as <- <-.
        apply (less_step s _ u nu (cleared nu) [(i, JCts (u :: todo) true m)] ([(i, JCts todo false m)] ++ js (cl_run nu) u) (delete t (jobs s)) 0 0); try done.
        * simpl. by rewrite run_nodes.
        * by left.
        * simpl. rewrite run_jobs. simpl. by rewrite (jobs_set2 _ _ _ _ _ Ht).
        * by destruct (cl_run nu); simpl; lia.
        * simpl. by rewrite run_pends.
        * left. rewrite sumf_app. assert (sumf jP (js (cl_run nu) u) = 0) as -> by (by destruct (cl_run nu)). unfold nP, jP. cbn -[W Nat.mul]. simpl b2n. destruct todo; cbn [length]; lia.
      + destruct (nodes s !! u) as [nu|] eqn:Hu; [|done]. injection H as <- <-.
        apply (less_jobs s _ i [(i, JCts (u :: todo) false m)] [(i, if final nu then JCts todo false m else JCts (u :: todo) true m)] (delete t (jobs s))); try done; [apply Jset|simpl; lia|].
        left. unfold jP. destruct (final nu); cbn -[Nat.mul]; simpl b2n; destruct todo; cbn [length]; lia.
    - done.
    - injection H as <- <-. apply (less_step s _ i n (with_susp (if b then S (length rest) else 1) n) [(i, JSusp o rest b)] [(i, JSend o rest)] (delete t (jobs s)) 0 0); try done; [by left|apply Jset|simpl; lia|].
      left. unfold nP, jP. simpl. lia.
    - injection H as <- <-. apply (less_jobs s _ i [(i, JSend o [])] [(i, JSelf false)] (delete t (jobs s))); try done; [apply Jset|simpl; lia|]. left. unfold jP. simpl. lia.
    - destruct (enqueue _ _ _ _) as [[s1 e1]|] eqn:E; [|done]. injection H as <- <-.
      apply enqueue_eq in E as [(De & -> & ->)|(De & nd & Hd & -> & ->)].
      + apply (less_jobs s _ i [(i, JSend o (e :: rest))] [(i, JSend o rest)] (delete t (jobs s))); try done; [apply Jset|simpl; lia|]. left. unfold jP. cbn -[W]. unfold ecost. lia.
      + apply (less_step s _ e.1 nd (enq e.2 o nd) [(i, JSend o (e :: rest))] ([(i, JSend o rest)] ++ js (en_run nd) e.1) (delete t (jobs s)) 0 0); try done.
        * simpl. by rewrite run_nodes.
        * by left.
        * simpl. rewrite run_jobs. simpl. by rewrite (jobs_set2 _ _ _ _ _ Ht).
        * by destruct (en_run nd); simpl; lia.
        * simpl. by rewrite run_pends.
        * left. rewrite sumf_app. assert (sumf jP (js (en_run nd) e.1) = 0) as -> by (by destruct (en_run nd)). unfold nP, jP. cbn -[W Nat.mul].
          pose proof (total_append e.2 o (que nd)) as L. apply (Nat.mul_le_mono_l _ _ (W U V e.1)) in L. rewrite Nat.mul_succ_r in L. simpl in L. cbn -[W Nat.mul] in *. unfold ecost. lia.
    - destruct ok1.
      + unfold clear2 in H. rewrite Hn in H. injection H as <- <-.
        apply (less_step s _ i n (cleared n) [(i, JSelf true)] (js (cl_run n) i) (delete t (jobs s)) 0 0); try done.
        * simpl. by rewrite run_nodes.
        * by left.
        * simpl. rewrite run_jobs. simpl. by rewrite (jobs_del _ _ _ _ Ht).
        * by destruct (cl_run n); simpl; lia.
        * simpl. by rewrite run_pends.
        * left. assert (sumf jP (js (cl_run n) i) = 0) as -> by (by destruct (cl_run n)). unfold nP, jP. simpl. lia.
      + destruct (final n); injection H as <- <-.
        * apply (less_jobs s _ i [(i, JSelf false)] [] (delete t (jobs s))); try done; [simpl; lia|]. left. unfold jP. simpl. lia.
        * apply (less_jobs s _ i [(i, JSelf false)] [(i, JSelf true)] (delete t (jobs s))); try done; [apply Jset|simpl; lia|]. left. unfold jP. simpl. lia.
    - injection H as <- <-. set (r := negb (empty_q n) || closeq n). assert (sumf (jS s) (js r i) <= 1) as Lr.
      { destruct r eqn:Er; simpl; [|lia]. unfold jS. simpl. unfold rdy. rewrite Hn. fold r. rewrite Er. lia. }
      assert (sumf jP (js r i) = 0) as Zr by (by destruct r).
      destruct (final n).
      + apply (less_step s _ i n (with_running r n) [(i, JDone)] ([(i, JFinal)] ++ js r i) (delete t (jobs s)) 0 0); try done.
        * by rewrite run_nodes.
        * by left.
        * rewrite run_jobs. simpl. by rewrite (jobs_set _ _ _ _ _ Ht).
        * by destruct r; simpl; lia.
        * by rewrite run_pends.
        * right. rewrite !sumf_app, Zr. split; [|split; [done|]]; simpl; unfold nP; simpl; lia.
      + apply (less_step s _ i n (with_running r n) [(i, JDone)] (js r i) (delete t (jobs s)) 0 0); try done.
        * by rewrite run_nodes.
        * by left.
        * rewrite run_jobs. simpl. by rewrite Permutation_app_comm.
        * by destruct r; simpl; lia.
        * by rewrite run_pends.
        * right. rewrite Zr. split; [|split; [done|]]; simpl; unfold nP; simpl; lia.
    - injection H as <- <-. apply (less_step s _ i n (with_down [] n) [(i, JFinal)] [(i, JClear (down n))] (delete t (jobs s)) 0 0); try done; [by right|apply Jset|simpl; lia|].
      right. split; [|split; [done|]]; unfold nP, jP, jS; simpl; lia.
    - injection H as <- <-. apply (less_step s _ i n (with_proc false n) [(i, JClear [])] [] (delete t (jobs s)) 0 0); try done; [by left|simpl; lia|].
      right. split; [|split; [done|]]; unfold nP, jP, jS; simpl; lia.
    - destruct (remove_sender _ _) as [[s1 e1]|] eqn:E; [|done]. injection H as <- <-.
      apply remove_sender_eq in E as [(De & -> & ->)|(De & nd & Hd & [(Z & -> & ->)|(k & Z & -> & ->)])]; simpl in *.
      + apply (less_jobs s _ i [(i, JClear (e :: rest))] [(i, JClear rest)] (delete t (jobs s))); try done; [apply Jset|simpl; lia|]. left. unfold jP. simpl. lia.
      + destruct NU. left.
      + apply (less_step s _ e.1 nd (with_scount k nd) [(i, JClear (e :: rest))] [(i, JClear rest)] (delete t (jobs s)) 0 (if k =? 0 then 2 else 0)); try done.
        * simpl. by rewrite rms_nodes.
        * by left.
        * simpl. rewrite rms_jobs. apply Jset.
        * simpl. lia.
        * simpl. rewrite rms_pends, sumf_app. destruct (k =? 0); simpl; lia.
        * left. unfold nP, jP. destruct (k =? 0); simpl; lia.
  Qed.
  Lemma less_int s tr l s' ev : ainv s tr -> fit U V s -> internal l = true -> step s l = Some (s', ev) -> Ub ∉ ev -> less s' s /\ fit U V s'.
  Proof.
    intros A F B H NU. destruct l as [|h v b|k hs v|h m|h|h|h|h|h|h|h|k|t|t o|i]; simpl in B, H; try done.
    - destruct (pends s !! k) as [p|] eqn:Hk; [|done]. pose proof (sumf_delete pP _ _ _ Hk) as Pd. destruct p as [i|i]; destruct (nodes s !! i) as [n|] eqn:Hn; try done; injection H as <- <-; simpl in Pd.
      + set (b := (negb (empty_q n) || closeq n) && negb (running n)).
        apply (less_step s _ i n (with_running (running n || b) n) [] (js b i) (jobs s) 1 0); try done.
        * by rewrite run_nodes.
        * by left.
        * rewrite run_jobs. simpl. apply Permutation_app_comm.
        * destruct b; simpl; lia.
        * rewrite run_pends. simpl. lia.
        * left. assert (sumf jP (js b i) = 0) as -> by (by destruct b). unfold nP. simpl. lia.
      + set (b := (rcount n =? 0) && negb (running n)).
        apply (less_step s _ i n (with_running (running n || b) (with_close true (final n) n)) [] (js b i) (jobs s) 2 0); try done.
        * by rewrite run_nodes.
        * by left.
        * rewrite run_jobs. simpl. apply Permutation_app_comm.
        * destruct b; simpl; lia.
        * rewrite run_pends. simpl. lia.
        * left. assert (sumf jP (js b i) = 0) as -> by (by destruct b). unfold nP. simpl. lia.
    - destruct (jobs s !! t) as [[i p]|] eqn:Ht; [|done]. by eapply less_job.
    - destruct (jobs s !! t) as [[i p]|] eqn:Ht; [|done]. destruct p as [| |ms| | | | | |]; try done. destruct (nodes s !! i) as [n|] eqn:Hn; [|done]. injection H as <- <-.
      apply (less_jobs s _ i [(i, JInvoke ms)] [(i, JSusp o (down n) (min_free (down n) s <=? 1)%Z)] (delete t (jobs s))); try done.
      + by apply jobs_at.
      + simpl. rewrite <- (app_nil_r (<[t := _]> (jobs s))). rewrite (jobs_set _ [] t _ _ Ht). done.
      + simpl. lia.
      + left. destruct (F i n Hn) as [_ Fv]. unfold jP. simpl. lia.
  Qed.
End pair.
Lemma any_fit s tr : ainv s tr -> exists U V, fit U V s.
Proof.
  intros A. set (U := fun i => match nodes s !! i with Some n => length (ups n) | None => 0 end). exists U.
  assert (forall k, k <= length (nodes s) -> exists V, forall i n, length (nodes s) - k <= i -> nodes s !! i = Some n -> 20 + sumf (ecost U V) (down n) <= V i) as X.
  { induction k as [|k IH]; intros L.
    - exists (fun _ => 0). intros i n Li Hn. apply lookup_lt_Some in Hn. lia.
    - destruct IH as [V HV]; [lia|]. set (i0 := length (nodes s) - S k). set (n0 := match nodes s !! i0 with Some n => 20 + sumf (ecost U V) (down n) | None => 0 end).
      exists (fun i => if i =? i0 then n0 else V i). intros i n Li Hn.
      assert (sumf (ecost U (fun i => if i =? i0 then n0 else V i)) (down n) = sumf (ecost U V) (down n)) as ->.
      { apply sumf_ext. intros [d p] H. unfold ecost, W. simpl. destruct (g_down _ _ _ (a_node s tr A i n Hn) (d, p) H) as (nd & Hd & Up). pose proof (g_ups _ _ _ (a_node s tr A d nd Hd) p i Up).
        destruct (Nat.eqb_spec d i0); [unfold i0 in *; lia|done]. }
      destruct (Nat.eqb_spec i i0) as [->|N]; [unfold n0; by rewrite Hn|]. apply HV; [unfold i0 in *; lia|done]. }
  destruct (X (length (nodes s)) (le_n _)) as [V HV]. exists V. intros i n Hn. split; [unfold U; by rewrite Hn|]. apply HV; [lia|done].
Qed.
(** the number of steps left when the first measure is k and the second m *)
Fixpoint bound (k m : nat) : nat := match k with 0 => m | S k => S m + bound k (6 * m + 12) end.
Lemma bound_mono k : forall m m', m <= m' -> bound k m <= bound k m'.
Proof. induction k as [|k IH]; intros m m' L; simpl; [done|]. specialize (IH (6 * m + 12) (6 * m' + 12)). simpl in *. lia. Qed.
Lemma bound_S k m : bound k m <= bound (S k) m.
Proof. revert m. induction k as [|k IH]; intros m; [simpl; lia|]. specialize (IH (6 * m + 12)). change (S m + bound k (6 * m + 12) <= S m + bound (S k) (6 * m + 12)). lia. Qed.
Lemma bound_up k k' m : k <= k' -> bound k m <= bound k' m.
Proof. induction 1 as [|k' _ IH]; [done|]. etrans; [exact IH|]. apply bound_S. Qed.
Lemma bound_second k m m' : m' < m -> bound k m' < bound k m.
Proof. destruct k as [|k]; intros L; [done|]. pose proof (bound_mono k (6 * m' + 12) (6 * m + 12)). change (S m' + bound k (6 * m' + 12) < S m + bound k (6 * m + 12)). lia. Qed.
Lemma bound_less U V s s' : less U V s' s -> bound (first U V s') (second s') < bound (first U V s) (second s).
Proof.
  intros [[L1 L2]|[L1 L2]].
  - destruct (first U V s) as [|k]; [lia|]. apply Nat.le_lt_trans with (bound k (6 * second s + 12)); [|simpl; lia].
    etrans; [apply (bound_mono _ _ (6 * second s + 12) L2)|apply bound_up; lia].
  - apply Nat.le_lt_trans with (bound (first U V s) (second s')); [by apply bound_up|by apply bound_second].
Qed.
Lemma any_settle_from U V ls : forall s tr s' tr', ainv s tr -> fit U V s -> Forall (fun l => internal l = true) ls -> run s ls = Some (s', tr') -> Ub ∉ tr' -> length ls <= bound (first U V s) (second s).
Proof.
  induction ls as [|l ls IH]; intros s tr s' tr' A F B H NU; simpl in H; [simpl; lia|].
  apply Forall_cons in B as [Bl B]. destruct (step s l) as [[s1 e1]|] eqn:S1; [|done]. destruct (run s1 ls) as [[s2 e2]|] eqn:R2; [|done]. injection H as <- <-.
  rewrite not_elem_of_app in NU. destruct NU as [N1 N2]. destruct (less_int U V s tr l s1 e1 A F Bl S1 N1) as [L F1].
  pose proof (IH _ _ _ _ (ainv_step s tr l s1 e1 A S1) F1 B R2 N2). apply bound_less in L. simpl. lia.
Qed.
(** ** progress: whoever is to be told exists *)
Definition xj (k : nat) (j : nat * pc) : Prop := match j.2 with JCts todo _ _ => Forall (fun u => u < k) todo | JClear rest => Forall (fun e : nat * nat => e.1 < k) rest | _ => True end.
Definition xp (k : nat) (p : pend) : Prop := match p with PRecv i | PSend i => i < k end.
Definition xinv (s : st) : Prop := Forall (xj (length (nodes s))) (jobs s) /\ Forall (xp (length (nodes s))) (pends s).
Lemma xj_mono k k' j : k <= k' -> xj k j -> xj k' j.
Proof. intros L. destruct j as [i []]; unfold xj; simpl; try done; intros H; eapply Forall_impl; try exact H; simpl; intros; lia. Qed.
Lemma xp_mono k k' p : k <= k' -> xp k p -> xp k' p.
Proof. intros L. destruct p; simpl; lia. Qed.
Lemma x_step s s' k : xinv s -> k = length (nodes s) -> k <= length (nodes s') -> Forall (xj k) (jobs s') -> Forall (xp k) (pends s') -> xinv s'.
Proof. intros _ -> L J P. split; eapply Forall_impl; try done; intros; [by eapply xj_mono|by eapply xp_mono]. Qed.
Lemma x_js k b i : Forall (xj k) (if b : bool then [(i, JPend)] else []).
Proof. destruct b; repeat constructor. Qed.
Lemma x_job s tr t i p s' ev : ainv s tr -> xinv s -> jobs s !! t = Some (i, p) -> job_step t i p s = Some (s', ev) -> xinv s'.
Proof.
  intros A X Ht H. destruct (X) as [Xj Xp]. apply elem_of_list_lookup_2 in Ht as Ji. apply (a_job s tr A) in Ji as [[n Hn] _]. simpl in Hn. pose proof (a_node s tr A i n Hn) as Gn.
  assert (xj (length (nodes s)) (i, p)) as Xt by (by eapply Forall_lookup_1). unfold job_step in H. rewrite Hn in H.
  assert (forall y, xj (length (nodes s)) y -> Forall (xj (length (nodes s))) (<[t := y]> (jobs s))) as Js by (intros; by apply Forall_insert).
  assert (Forall (xj (length (nodes s))) (delete t (jobs s))) as Jd by (by apply Forall_delete).
  assert (forall l b (c : nat) y, Forall (xj (length (nodes s))) l -> xj (length (nodes s)) y -> Forall (xj (length (nodes s))) (<[t := y]> (l ++ (if b : bool then [(c, JPend)] else [])))) as Ja.
  { intros. apply Forall_insert; [|done]. apply Forall_app. split; [done|apply x_js]. }
  destruct p as [|[|u todo] ok1 m|ms|o rest b|o [|e rest]|ok1| | |[|e rest]].
  - destruct (deadb i s); [injection H as <- <-; by split|]. unfold pop_from_queue in H. destruct (empty_q n).
    { injection H as <- <-. eapply (x_step s); try done; [simpl; by rewrite insert_length|]. apply Js. constructor. }
    destruct (q_front _ _) as [[ms q']|]; injection H as <- <-; [|done]. eapply (x_step s); try done; [simpl; by rewrite insert_length|]. apply Js. unfold xj. simpl. apply Forall_forall.
    intros u Hu. unfold do_cts in Hu. apply elem_of_list_omap in Hu as ([u' z] & Hz & Hu). destruct (z <=? _)%Z; [|done]. subst u'. apply elem_of_zip_l in Hz. apply elem_of_list_lookup in Hz as [q Hq].
    apply (g_ups _ _ _ Gn) in Hq. apply lookup_lt_Some in Hn. lia.
  - destruct m as [ms|]; [|injection H as <- <-; split; [by apply Js|done]]. destruct (has_error ms); [injection H as <- <-; by split|]. destruct (proc n); injection H as <- <-; [|done]. split; [by apply Js|done].
  - unfold xj in Xt. simpl in Xt. apply Forall_cons in Xt as [Xu Xt]. destruct ok1.
    + unfold clear2 in H. destruct (nodes s !! u) as [nu|]; [|done]. injection H as <- <-. eapply (x_step s); try done; simpl; rewrite ?run_nodes, ?run_jobs, ?run_pends; simpl; [by rewrite insert_length|by apply Ja|done].
    + destruct (nodes s !! u) as [nu|]; [|done]. injection H as <- <-. split; [|done]. apply Js. destruct (final nu); [done|]. by constructor.
  - done.
  - injection H as <- <-. eapply (x_step s); try done; simpl; [by rewrite insert_length|by apply Js].
  - injection H as <- <-. split; [by apply Js|done].
  - destruct (enqueue _ _ _ _) as [[s1 e1]|] eqn:E; [|done]. injection H as <- <-. apply enqueue_eq in E as [(De & -> & ->)|(De & nd & Hd & -> & ->)]; [split; [by apply Js|done]|].
    eapply (x_step s); try done; simpl; rewrite ?run_nodes, ?run_jobs, ?run_pends; simpl; [by rewrite insert_length|by apply Ja|done].
  - destruct ok1.
    + unfold clear2 in H. rewrite Hn in H. injection H as <- <-. eapply (x_step s); try done; simpl; rewrite ?run_nodes, ?run_jobs, ?run_pends; simpl; [by rewrite insert_length| |done].
      apply Forall_delete, Forall_app. split; [done|apply x_js].
    + destruct (final n); injection H as <- <-; split; try done. by apply Js.
  - injection H as <- <-. eapply (x_step s); try done; rewrite ?run_nodes, ?run_jobs, ?run_pends; destruct (final n); simpl; rewrite ?insert_length; try done; apply Forall_app; (split; [|apply x_js]); [by apply Js|done].
  - injection H as <- <-. eapply (x_step s); try done; simpl; [by rewrite insert_length|]. apply Js. unfold xj. simpl. apply Forall_forall. intros e He. destruct (g_down _ _ _ Gn e He) as (nd & Hd & _). by eapply lookup_lt_Some.
  - injection H as <- <-. eapply (x_step s); try done; simpl; by rewrite insert_length.
  - destruct (remove_sender _ _) as [[s1 e1]|] eqn:E; [|done]. injection H as <- <-. unfold xj in Xt. simpl in Xt. apply Forall_cons in Xt as [Xe Xt].
    apply remove_sender_eq in E as [(De & -> & ->)|(De & nd & Hd & [(Z & -> & ->)|(k & Z & -> & ->)])]; [split; [by apply Js|done]..|].
    eapply (x_step s); try done; simpl; rewrite ?rms_nodes, ?rms_jobs, ?rms_pends; simpl; [by rewrite insert_length|by apply Js|]. apply Forall_app. split; [done|]. destruct (k =? 0); by repeat constructor.
Qed.
Lemma x_rms s h i s' ev : xinv s -> remove_sender i (set_snd h s) = Some (s', ev) -> xinv s'.
Proof.
  intros X H. destruct (X) as [Xj Xp]. apply remove_sender_eq in H as [(De & -> & ->)|(De & n & Hn & [(Z & -> & ->)|(k & Z & -> & ->)])]; [done..|]. simpl in Hn. apply lookup_lt_Some in Hn.
  eapply (x_step s); try done; rewrite ?rms_nodes, ?rms_jobs, ?rms_pends; simpl; [by rewrite insert_length|done|]. apply Forall_app. split; [done|]. destruct (k =? 0); by repeat constructor.
Qed.
Lemma x_rmr s h i s' ev : xinv s -> remove_receiver i (set_rcv h s) = Some (s', ev) -> xinv s'.
Proof.
  intros X H. destruct (X) as [Xj Xp]. unfold remove_receiver in H. simpl in H. destruct (nodes s !! i) as [n|] eqn:Hn; [|done]. apply lookup_lt_Some in Hn. destruct (rvoid n); [by injection H as <- <-|].
  destruct (rcount n) as [|[|k]]; injection H as <- <-; [done|..]; eapply (x_step s); try done; simpl; rewrite ?insert_length; try done. apply Forall_app. split; [done|]. by repeat constructor.
Qed.
Lemma x_map d us p s s' ev st us' v b : xinv s -> map_senders d p us (St (nodes s ++ [new_node st us' v b]) (dead s) (jobs s) (pends s) (snd_h s) (rcv_h s ++ [(length (nodes s), false)])) = Some (s', ev) -> xinv s'.
Proof.
  intros X M. destruct (X) as [Xj Xp]. apply map_senders_ok in M as (D & J & P & S & R & Eub & N & Cn & Dn). simpl in *.
  eapply (x_step s); try done; [|by rewrite J|by rewrite P]. apply Nat.nlt_ge. intros L. specialize (N (length (nodes s'))).
  rewrite (lookup_ge_None_2 (nodes s') (length (nodes s'))) in N by lia. symmetry in N. apply fmap_None, lookup_ge_None in N. rewrite app_length in N. simpl in N. lia.
Qed.
Lemma xinv_step s tr l s' ev : ainv s tr -> xinv s -> step s l = Some (s', ev) -> xinv s'.
Proof.
  intros A X H. destruct (X) as [Xj Xp]. destruct l as [|h v b|k hs v|h m|h|h|h|h|h|h|h|k|t|t o|i]; simpl in H.
  - injection H as <- <-. eapply (x_step s); try done. simpl. rewrite app_length. lia.
  - destruct (rcv_h s !! h) as [[u []]|]; [by injection H as <- <-| |done]. exact (x_map (length (nodes s)) [u] 0 s s' ev Default [Some u] v b X H).
  - destruct k; try done; destruct hs as [|h0 hs]; try done; destruct (handles (h0 :: hs) s) as [us|]; try done; by eapply x_map.
  - destruct (snd_h s !! h) as [i|]; [|done]. apply enqueue_eq in H as [(De & -> & ->)|(De & n & Hn & -> & ->)]; [done|].
    eapply (x_step s); try done; rewrite ?run_nodes, ?run_jobs, ?run_pends; simpl; [by rewrite insert_length| |done]. apply Forall_app. split; [done|apply x_js].
  - destruct (snd_h s !! h) as [i|]; [|done]. unfold add_sender in H. destruct (deadb _ _); [by injection H as <- <-|]. simpl in H. destruct (nodes s !! i); [|done]. injection H as <- <-.
    eapply (x_step s); try done; simpl; by rewrite insert_length.
  - destruct (snd_h s !! h) as [i|]; [|done]. by eapply x_rms.
  - destruct (snd_h s !! h) as [i|]; [|done]. by injection H as <- <-.
  - destruct (rcv_h s !! h) as [[i r]|]; [|done]. unfold add_receiver in H. simpl in H. destruct (nodes s !! i) as [n|]; [|done]. destruct (rvoid n); injection H as <- <-; [done|].
    eapply (x_step s); try done; simpl; by rewrite insert_length.
  - destruct (rcv_h s !! h) as [[i []]|]; [by injection H as <- <-| |done]. by eapply x_rmr.
  - destruct (rcv_h s !! h) as [[i []]|]; [by injection H as <- <-| |done]. by eapply x_rmr.
  - destruct (rcv_h s !! h) as [[i r]|]; [|done]. by injection H as <- <-.
  - destruct (pends s !! k) as [[i|i]|]; [..|done]; (destruct (nodes s !! i) as [n|]; [|done]); injection H as <- <-;
      (eapply (x_step s); try done; rewrite ?run_nodes, ?run_jobs, ?run_pends; simpl; [by rewrite insert_length|apply Forall_app; split; [done|apply x_js]|by apply Forall_delete]).
  - destruct (jobs s !! t) as [[i p]|] eqn:Ht; [|done]. by eapply x_job.
  - destruct (jobs s !! t) as [[i p]|] eqn:Ht; [|done]. destruct p; try done. destruct (nodes s !! i) as [n|]; [|done]. injection H as <- <-. split; [|done]. simpl. by apply Forall_insert.
  - destruct (nodes s !! i) as [n|]; [|done]. destruct (deadb i s || ownedb i s); [done|]. by injection H as <- <-.
Qed.
Lemma xinv_from ls : forall s tr0 s' tr, ainv s tr0 -> xinv s -> run s ls = Some (s', tr) -> ainv s' (tr0 ++ tr) /\ xinv s'.
Proof.
  induction ls as [|l ls IH]; intros s tr0 s' tr A X H; simpl in H.
  - injection H as <- <-. by rewrite app_nil_r.
  - destruct (step s l) as [[s1 e1]|] eqn:E; [|done]. destruct (run s1 ls) as [[s2 e2]|] eqn:R; [|done]. injection H as <- <-.
    rewrite app_assoc. eapply IH; [by eapply ainv_step|by eapply xinv_step|done].
Qed.
Lemma xinv_run ls s tr : run init ls = Some (s, tr) -> ainv s tr /\ xinv s.
Proof. intros H. apply (xinv_from ls init [] s tr ainv_init); [|done]. repeat constructor. Qed.
Lemma any_pend s k : xinv s -> k < length (pends s) -> is_Some (step s (LPend k)).
Proof.
  intros [_ X] L. apply lookup_lt_is_Some in L as [p Hp]. simpl. rewrite Hp. eapply Forall_lookup_1 in X; [|done]. destruct p as [i|i]; apply lookup_lt_is_Some in X as [n Hn]; rewrite Hn; eauto.
Qed.
Lemma any_job s tr t i p : ainv s tr -> xinv s -> jobs s !! t = Some (i, p) -> (forall ms, p <> JInvoke ms) -> is_Some (step s (LJob t)).
Proof.
  intros A [X _] Ht N. eapply Forall_lookup_1 in X; [|done]. apply elem_of_list_lookup_2 in Ht as Ji. apply (a_job s tr A) in Ji as [[n Hn] G]. simpl in Hn, G. simpl. rewrite Ht. unfold job_step. rewrite Hn. unfold xj in X.
  destruct p as [|[|u todo] ok1 mm|ms|o rest b|o [|e rest]|ok1| | |[|e rest]]; simpl in *; eauto.
  - destruct (deadb i s); [eauto|]. destruct (pop_from_queue n) as [[[n' cts] mm]|]; eauto.
  - destruct mm as [ms|]; [|eauto]. destruct (has_error ms), (proc n); eauto.
  - apply Forall_cons in X as [X _]. apply lookup_lt_is_Some in X as [nu Hu]. destruct ok1; [unfold clear2|]; rewrite Hu; eauto.
  - by destruct (N ms).
  - destruct G as [_ G]. destruct (G e) as (nd & Hd & _); [left|]. unfold enqueue. simpl. rewrite Hd. destruct (deadb e.1 s); eauto.
  - destruct ok1; [unfold clear2; rewrite Hn|]; eauto.
  - apply Forall_cons in X as [X _]. apply lookup_lt_is_Some in X as [nd Hd]. unfold remove_sender. rewrite Hd. destruct (deadb e.1 s); [eauto|]. destruct (scount nd) as [|[|]]; eauto.
Qed.
Lemma any_ret s tr t i ms o : ainv s tr -> jobs s !! t = Some (i, JInvoke ms) -> is_Some (step s (LRet t o)).
Proof. intros A Ht. apply elem_of_list_lookup_2 in Ht as Ji. apply (a_job s tr A) in Ji as [[n Hn] G]. simpl in *. rewrite Ht, Hn. eauto. Qed.
Lemma any_can s tr : ainv s tr -> xinv s -> at_rest s \/ exists l, internal l = true /\ is_Some (step s l).
Proof.
  intros A X. destruct (pends s) as [|p ps] eqn:P.
  - destruct (jobs s) as [|[i p] js] eqn:Jo; [by left|]. right. assert (jobs s !! 0 = Some (i, p)) as Ht by by rewrite Jo.
    destruct p as [| |ms| | | | | |]; [| |exists (LRet 0 (Val 0)); split; [done|by eapply any_ret]| | | | | |]; (exists (LJob 0); split; [done|by eapply any_job]).
  - right. exists (LPend 0). split; [done|]. apply any_pend; [done|]. rewrite P. simpl. lia.
Qed.
(** ** the theorems *)
Theorem any_settles ls s tr : run init ls = Some (s, tr) -> exists b, forall ls' s' tr', Forall (fun l => internal l = true) ls' -> run s ls' = Some (s', tr') -> Ub ∉ tr' ->
  length ls' <= b /\ (at_rest s' \/ exists l, internal l = true /\ is_Some (step s' l)).
Proof.
  intros R. apply xinv_run in R as [A X]. destruct (any_fit s tr A) as (U & V & F). exists (bound (first U V s) (second s)). intros ls' s' tr' B H NU. split; [by eapply any_settle_from|].
  destruct (xinv_from ls' s tr s' tr' A X H) as [A' X']. by eapply any_can.
Qed.
Theorem any_progress ls s tr : run init ls = Some (s, tr) -> (forall k, k < length (pends s) -> is_Some (step s (LPend k))) /\
  (forall t i ms o, jobs s !! t = Some (i, JInvoke ms) -> is_Some (step s (LRet t o))) /\
  (forall t i p, jobs s !! t = Some (i, p) -> (forall ms, p <> JInvoke ms) -> is_Some (step s (LJob t))).
Proof. intros R. apply xinv_run in R as [A X]. split; [|split]; intros; [by apply any_pend|by eapply any_ret|by eapply any_job]. Qed.
Theorem any_rest ls s tr : run init ls = Some (s, tr) -> exists ls' s' tr', Forall (fun l => internal l = true) ls' /\ run s ls' = Some (s', tr') /\ (at_rest s' \/ Ub ∈ tr').
Proof.
  intros R. apply xinv_run in R as [A X]. destruct (any_fit s tr A) as (U & V & F). remember (bound (first U V s) (second s)) as k eqn:E. revert s tr A X F E. induction (lt_wf k) as [k _ IH]. intros s tr A X F ->.
  destruct (any_can s tr A X) as [Re|(l & B & [s1 e1] & H)]; [by exists [], s, []; auto|]. destruct (existsb (fun e => match e with Ub => true | _ => false end) e1) eqn:Y.
  - exists [l], s1, (e1 ++ []). split; [by repeat constructor|]. simpl. rewrite H. split; [done|]. right. rewrite app_nil_r. apply existsb_exists in Y as (e & He & Ee). destruct e; try done. by apply elem_of_list_In.
  - assert (Ub ∉ e1) as NU. { intros Hin. apply elem_of_list_In in Hin. assert (existsb (fun e => match e with Ub => true | _ => false end) e1 = true); [|congruence]. apply existsb_exists. eauto. }
    destruct (less_int U V s tr l s1 e1 A F B H NU) as [L F1]. apply bound_less in L.
    destruct (IH _ L s1 _ (ainv_step s tr l s1 e1 A H) (xinv_step s tr l s1 e1 A X H) F1 eq_refl) as (ls' & s' & tr' & B' & H' & Re').
    exists (l :: ls'), s', (e1 ++ tr'). split; [by constructor|]. simpl. rewrite H, H'. split; [done|]. destruct Re'; [by left|right; apply elem_of_app; by right].
Qed.
