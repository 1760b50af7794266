(** The threads of the executors come to rest: a measure that decreases with every step which is not a client's. *)
From Coq Require Import List Bool ZArith Lia Arith.
From stdpp Require Import list.
From Verif.Channel Require Import Queue QueueProof Model Sum Inv InvStep InvStep2 InvStep3 InvRun Moves Spec Trace Reach.

Lemma del_app {A} (l k : list A) t : t < length l -> delete t (l ++ k) = delete t l ++ k.
Proof. revert t. induction l as [|a l IH]; intros [|t] H; simpl in *; try lia; [done|]. f_equal. apply IH. lia. Qed.

Lemma omap_length {A B} (f : A -> option B) (l : list A) : length (omap f l) <= length l.
Proof. induction l as [|a l IH]; [done|]. rewrite omap_c, app_length. destruct (f a); simpl; lia. Qed.

Section measure.
  (** U: the number of ports; V: what a call may cause *)
  Context (U V : nat -> nat).
  Definition W (i : nat) : nat := V i + 3 * U i + 10.
  Definition ecost (e : nat * nat) : nat := W e.1 + 22.
  Definition fit (s : st) : Prop := forall i n, nodes s !! i = Some n -> length (ups n) <= U i /\ 20 + sumf ecost (down n) <= V i.
  Definition rdy (s : st) (i : nat) : bool := match nodes s !! i with Some n => negb (empty_q n) || closeq n | None => false end.
  Definition jw (s : st) (j : nat * pc) : nat :=
    match snd j with
    | JPend => if rdy s (fst j) then 2 else 8
    | JCts todo ok1 m => 3 * length todo + (if ok1 then 0 else 1) + match m with Some _ => V (fst j) + 3 | None => 6 end
    | JInvoke _ => V (fst j)
    | JSusp _ rest _ => 16 + sumf ecost rest
    | JSend _ rest => 3 + sumf (fun e => W e.1 + 10) rest
    | JSelf false => 2
    | JSelf true => 1
    | JDone => 5
    | JFinal => 2
    | JClear rest => 1 + 61 * length rest
    end.
  Definition mw (i : nat) (n : node) : nat := W i * sumf length (qs (que n)).
  Definition nw (i : nat) (n : node) : nat := mw i n + 12 * susp n + 30 * b2n (closeq n) + 61 * length (down n).
  Fixpoint sumn (k : nat) (l : list node) : nat := match l with [] => 0 | n :: l => nw k n + sumn (S k) l end.
  Definition pw (p : pend) : nat := match p with PRecv _ => 5 | PSend _ => 55 end.
  Definition mu (s : st) : nat := sumn 0 (nodes s) + sumf (jw s) (jobs s) + sumf pw (pends s).

  Lemma sumn_insert l : forall k i n n', l !! i = Some n -> sumn k (<[i := n']> l) + nw (k + i) n = sumn k l + nw (k + i) n'.
  Proof.
    induction l as [|a l IH]; intros k [|i] n n' H; simpl in *; try done.
    - injection H as ->. rewrite Nat.add_0_r. lia.
    - specialize (IH (S k) i n n' H). rewrite Nat.add_succ_r. simpl in IH. lia.
  Qed.
  Lemma nodes_set s s' d n n' : nodes s !! d = Some n -> nodes s' = <[d := n']> (nodes s) -> sumn 0 (nodes s') + nw d n = sumn 0 (nodes s) + nw d n'.
  Proof. intros Hn ->. apply (sumn_insert (nodes s) 0 d n n' Hn). Qed.
  Lemma sumf_other {A} (f g : A -> nat) l t x x' : l !! t = Some x -> (forall k y, k <> t -> l !! k = Some y -> g y <= f y) ->
    sumf g (<[t := x']> l) + f x <= sumf f l + g x'.
  Proof.
    revert t. induction l as [|a l IH]; intros [|t] H G; simpl in *; try done.
    - injection H as ->. assert (sumf g l <= sumf f l); [|lia]. apply sumf_le. intros y Hy. apply elem_of_list_lookup in Hy as [k Hk]. by apply (G (S k)).
    - specialize (IH t H). assert (g a <= f a) by (by apply (G 0)). assert (sumf g (<[t:=x']> l) + f x <= sumf f l + g x'); [|lia]. apply IH. intros k y Nk. apply (G (S k)). lia.
  Qed.
  Lemma sumf_other_del {A} (f g : A -> nat) l t x : l !! t = Some x -> (forall k y, k <> t -> l !! k = Some y -> g y <= f y) ->
    sumf g (delete t l) + f x <= sumf f l.
  Proof.
    revert t. induction l as [|a l IH]; intros [|t] H G; simpl in *; try done.
    - injection H as ->. assert (sumf g l <= sumf f l); [|lia]. apply sumf_le. intros y Hy. apply elem_of_list_lookup in Hy as [k Hk]. by apply (G (S k)).
    - specialize (IH t H). assert (g a <= f a) by (by apply (G 0)). assert (sumf g (delete t l) + f x <= sumf f l); [|lia]. apply IH. intros k y Nk. apply (G (S k)). lia.
  Qed.
  Definition rw (s : st) (b : bool) (c : nat) : nat := if b then jw s (c, JPend) else 0.
  Lemma j_set s s' t i p p' b c : jobs s !! t = Some (i, p) -> jobs s' = <[t := (i, p')]> (jobs s ++ js b c) ->
    (forall k y, k <> t -> jobs s !! k = Some y -> jw s' y <= jw s y) -> sumf (jw s') (jobs s') + jw s (i, p) <= sumf (jw s) (jobs s) + jw s' (i, p') + rw s' b c.
  Proof.
    intros Ht -> G. rewrite insert_app_l by (by eapply lookup_lt_Some). rewrite sumf_app. pose proof (sumf_other (jw s) (jw s') _ t _ (i, p') Ht G).
    assert (sumf (jw s') (js b c) = rw s' b c); [|lia]. destruct b; [|done]. simpl. lia.
  Qed.
  Lemma j_del s s' t i p b c : jobs s !! t = Some (i, p) -> jobs s' = delete t (jobs s ++ js b c) ->
    (forall k y, k <> t -> jobs s !! k = Some y -> jw s' y <= jw s y) -> sumf (jw s') (jobs s') + jw s (i, p) <= sumf (jw s) (jobs s) + rw s' b c.
  Proof.
    intros Ht -> G. rewrite del_app by (by eapply lookup_lt_Some). rewrite sumf_app. pose proof (sumf_other_del (jw s) (jw s') _ t _ Ht G).
    assert (sumf (jw s') (js b c) = rw s' b c); [|lia]. destruct b; [|done]. simpl. lia.
  Qed.
  Lemma j_run s s' b c : jobs s' = jobs s ++ js b c -> (forall k y, jobs s !! k = Some y -> jw s' y <= jw s y) -> sumf (jw s') (jobs s') <= sumf (jw s) (jobs s) + rw s' b c.
  Proof.
    intros -> G. rewrite sumf_app. assert (sumf (jw s') (jobs s) <= sumf (jw s) (jobs s)).
    { apply sumf_le. intros y Hy. apply elem_of_list_lookup in Hy as [k Hk]. by apply (G k). }
    assert (sumf (jw s') (js b c) = rw s' b c); [|lia]. destruct b; [|done]. simpl. lia.
  Qed.
  (** jobs of processes that are ready if they were *)
  Lemma jw_mono s s' y : (rdy s y.1 = true -> rdy s' y.1 = true) -> jw s' y <= jw s y.
  Proof. intros H. unfold jw. destruct y as [i [| | | | | | | |]]; simpl in *; try lia. destruct (rdy s i); [by rewrite H|]. destruct (rdy s' i); lia. Qed.
  Lemma rdy_set s s' d n n' k : nodes s !! d = Some n -> nodes s' = <[d := n']> (nodes s) ->
    (negb (empty_q n) || closeq n = true -> negb (empty_q n') || closeq n' = true) -> rdy s k = true -> rdy s' k = true.
  Proof.
    intros Hn Hs M H. unfold rdy in *. rewrite Hs. destruct (decide (k = d)) as [->|N]; [|by rewrite list_lookup_insert_ne].
    rewrite Hn in H. rewrite list_lookup_insert by (by eapply lookup_lt_Some). auto.
  Qed.
  Lemma rdy_at s s' d n n' : nodes s !! d = Some n -> nodes s' = <[d := n']> (nodes s) -> rdy s' d = negb (empty_q n') || closeq n'.
  Proof. intros Hn Hs. unfold rdy. by rewrite Hs, list_lookup_insert by (by eapply lookup_lt_Some). Qed.
  Lemma rdy_same s s' k : nodes s' = nodes s -> rdy s' k = rdy s k.
  Proof. intros H. unfold rdy. by rewrite H. Qed.
  (** a job that owns its process is the only one that is pending *)
  Lemma jw_alone s s' t i p n d n' : inv s -> nodes s !! i = Some n -> jobs s !! t = Some (i, p) -> own_pc p = 1 -> d = i -> nodes s' = <[d := n']> (nodes s) ->
    forall k y, k <> t -> jobs s !! k = Some y -> jw s' y <= jw s y.
  Proof.
    intros I Hn Ht O -> Hs k [c q] Nk Hk. destruct (decide (c = i)) as [->|Nc].
    - destruct (own_zero s i n t p I Hn Ht O) as (O1 & _). pose proof (sumf_two (ownf i) _ _ _ _ _ Hk Ht Nk) as Y. unfold ownf in Y at 1 2. simpl in Y. rewrite Nat.eqb_refl, O in Y. unfold own in O1.
      unfold jw. destruct q; simpl in *; lia.
    - apply jw_mono. simpl. unfold rdy. by rewrite Hs, list_lookup_insert_ne.
  Qed.
  (** ** queues *)
  Lemma total_append p m q : sumf length (qs (q_append p m q)) <= S (sumf length (qs q)).
  Proof.
    simpl. destruct (qs q !! p) as [c|] eqn:Q.
    - rewrite (alter_insert _ _ _ _ Q). pose proof (sumf_insert length _ _ _ (c ++ [m]) Q) as X. rewrite app_length in X. simpl in X. lia.
    - apply lookup_ge_None in Q. assert (alter (fun c => c ++ [m]) p (qs q) = qs q) as ->; [|lia]. apply list_eq. intros j. destruct (decide (p = j)) as [->|N]; [|by rewrite list_lookup_alter_ne].
      rewrite list_lookup_alter. by rewrite (lookup_ge_None_2 (qs q) j).
  Qed.
  Lemma total_take k q ms q' : 0 < length (qs q) -> q_take k q = Some (ms, q') -> sumf length (qs q') < sumf length (qs q).
  Proof.
    intros L T. apply take_spec in T. destruct k; simpl in T.
    2: { destruct T as (_ & L2 & P). assert (forall l l' : list (list msg), length l' = length l -> (forall p, p < length l -> exists m c, l !! p = Some (m :: c) /\ l' !! p = Some c) -> sumf length l = sumf length l' + length l) as X.
         { induction l as [|a l IH]; intros [|b l'] Ll H; try done. simpl in *. destruct (H 0 ltac:(lia)) as (m & c & [= ->] & [= ->]).
           rewrite (IH l') by (try lia; intros p Hp; apply (H (S p)); lia). simpl. lia. }
         rewrite (X (qs q) (qs q')); [lia|done|]. intros p Hp. destruct (P p Hp) as (m & c & A & _ & B). eauto. }
    all: destruct T as (p & m & c & Hc & _ & -> & _); pose proof (sumf_insert length _ _ _ c Hc) as X; simpl in X; lia.
  Qed.
  Lemma cts_length n q : length (do_cts n q) <= length (ups n).
  Proof.
    unfold do_cts. transitivity (length (zip (ups n) (q_sizes (strat n) q))).
    - apply omap_length.
    - rewrite zip_with_length. lia.
  Qed.
  (** ** the moves *)
  Lemma mu_set s t i p p' : jobs s !! t = Some (i, p) -> jw s (i, p') < jw s (i, p) -> mu (set_job t i p' s) < mu s.
  Proof.
    intros Ht L. unfold mu. pose proof (j_set s (set_job t i p' s) t i p p' false 0 Ht ltac:(simpl; by rewrite app_nil_r)) as X.
    assert (jw (set_job t i p' s) (i, p') <= jw s (i, p')) by (by apply jw_mono). assert (forall k y, k <> t -> jobs s !! k = Some y -> jw (set_job t i p' s) y <= jw s y) as G by (intros; by apply jw_mono).
    specialize (X G). simpl in *. lia.
  Qed.
  Lemma mu_del s t i p : jobs s !! t = Some (i, p) -> 0 < jw s (i, p) -> mu (end_job t s) < mu s.
  Proof.
    intros Ht L. unfold mu. pose proof (j_del s (end_job t s) t i p false 0 Ht ltac:(simpl; by rewrite app_nil_r)) as X.
    assert (forall k y, k <> t -> jobs s !! k = Some y -> jw (end_job t s) y <= jw s y) as G by (intros; by apply jw_mono). specialize (X G). simpl in *. lia.
  Qed.
  Lemma mu_nset s s' t i p p' b c d n n' ps : jobs s !! t = Some (i, p) -> jobs s' = <[t := (i, p')]> (jobs s ++ js b c) -> nodes s !! d = Some n -> nodes s' = <[d := n']> (nodes s) ->
    pends s' = pends s ++ ps -> (forall k y, k <> t -> jobs s !! k = Some y -> jw s' y <= jw s y) ->
    nw d n' + jw s' (i, p') + rw s' b c + sumf pw ps < nw d n + jw s (i, p) -> mu s' < mu s.
  Proof.
    intros Ht Hj Hn Hs Hp G L. unfold mu. pose proof (j_set s s' t i p p' b c Ht Hj G). pose proof (nodes_set s s' d n n' Hn Hs). rewrite Hp, sumf_app. lia.
  Qed.
  Lemma mu_ndel s s' t i p b c d n n' : jobs s !! t = Some (i, p) -> jobs s' = delete t (jobs s ++ js b c) -> nodes s !! d = Some n -> nodes s' = <[d := n']> (nodes s) ->
    pends s' = pends s -> (forall k y, k <> t -> jobs s !! k = Some y -> jw s' y <= jw s y) ->
    nw d n' + rw s' b c < nw d n + jw s (i, p) -> mu s' < mu s.
  Proof.
    intros Ht Hj Hn Hs Hp G L. unfold mu. pose proof (j_del s s' t i p b c Ht Hj G). pose proof (nodes_set s s' d n n' Hn Hs). rewrite Hp. lia.
  Qed.
  Lemma mono_set s s' d n n' : nodes s !! d = Some n -> nodes s' = <[d := n']> (nodes s) -> (negb (empty_q n) || closeq n = true -> negb (empty_q n') || closeq n' = true) ->
    forall y, jw s' y <= jw s y.
  Proof. intros Hn Hs M y. apply jw_mono. by eapply rdy_set. Qed.
  Lemma rw_le s b c : rw s b c <= 8.
  Proof. unfold rw, jw. simpl. destruct b, (rdy s c); lia. Qed.
  Lemma rw_rdy s b c : (b = true -> rdy s c = true) -> rw s b c <= 2.
  Proof. intros H. unfold rw, jw. simpl. destruct b; [rewrite H by done|]; lia. Qed.
  Lemma mu_jmove s s' ev : inv s -> fit s -> jmove s s' ev -> mu s' < mu s \/ (exists i m n, nodes s !! i = Some n /\ ups n = [None] /\ ev = [Appended i 0 m]) \/ dead s' <> dead s.
  Proof.
    intros I Fi M. destruct M as [k m nk Hin Hk De Up|x k nk Hp Hk b|x k nk Hp Hk b|t k Ht De|t k nk ms q' Hk Ht De T|t k nk Hk Ht De Em|t k u todo m nu Hu Ht Fu|t k u todo m nu Hu Ht|t k ok1 ms Ht Er|t k ok1 ms Ht Er
      |t k ok1 Ht|t k nk o rest b Hk Ht|t k o Ht|t k o e rest Ht De|t k o d p rest nd Ht Hd De|t k Ht|t k nk Hk Ht|t k nk Hk Ht Fk|t k nk Hk Ht Fk|t k nk Hk Ht|t k e rest Ht De|t k d p rest nd x Ht Hd De Sc
      |t k nk Hk Ht|t k nk ms o Hk Ht|k De Ow].
    - right. left. eauto 10.
    - left. set (s' := run_if _ _ _). set (n' := with_running _ _) in *. assert (nodes s' = <[k := n']> (nodes s)) as Hs by (unfold s'; by rewrite run_nodes).
      assert (jobs s' = jobs s ++ js b k) as Hj by (unfold s'; by rewrite run_jobs). assert (pends s' = delete x (pends s)) as Hpd by (unfold s'; by rewrite run_pends). clearbody s'.
      pose proof (j_run s s' b k Hj (fun _ y _ => mono_set s s' k nk n' Hk Hs (fun H => H) y)) as X. pose proof (nodes_set s s' k nk n' Hk Hs) as Y.
      assert (rw s' b k <= 2). { apply rw_rdy. intros Hb. rewrite (rdy_at s s' k nk n' Hk Hs). unfold b in Hb. by apply andb_true_iff in Hb as [Hb _]. }
      unfold mu. rewrite Hpd. pose proof (sumf_delete pw _ _ _ Hp) as Z. simpl in Z. unfold nw, mw in Y. simpl in Y. lia.
    - left. set (s' := run_if _ _ _). set (n' := with_running _ _) in *. assert (nodes s' = <[k := n']> (nodes s)) as Hs by (unfold s'; by rewrite run_nodes).
      assert (jobs s' = jobs s ++ js b k) as Hj by (unfold s'; by rewrite run_jobs). assert (pends s' = delete x (pends s)) as Hpd by (unfold s'; by rewrite run_pends). clearbody s'.
      pose proof (j_run s s' b k Hj (fun _ y _ => mono_set s s' k nk n' Hk Hs (fun _ => orb_true_r _) y)) as X. pose proof (nodes_set s s' k nk n' Hk Hs) as Y.
      assert (rw s' b k <= 2). { apply rw_rdy. intros _. rewrite (rdy_at s s' k nk n' Hk Hs). apply orb_true_r. }
      unfold mu. rewrite Hpd. pose proof (sumf_delete pw _ _ _ Hp) as Z. simpl in Z. unfold nw, mw in Y. simpl in Y. lia.
    - left. apply (mu_del s t k JPend Ht). unfold jw. simpl. destruct (rdy s k); lia.
    - left. set (s' := set_job _ _ _ _). eapply (mu_nset s s' t k JPend _ false 0 k nk (with_que q' nk) []); try done; [by rewrite app_nil_r|by rewrite app_nil_r| |].
      + by eapply jw_alone.
      + destruct (Fi k nk Hk) as [Fu _]. pose proof (cts_length nk q'). assert (rdy s k = true) as Rk.
        { unfold rdy. rewrite Hk. unfold q_take in T. unfold empty_q. destruct (q_empty (strat nk) (que nk)); [done|]. done. }
        assert (sumf length (qs q') < sumf length (qs (que nk))) as L.
        { eapply total_take; [|done]. pose proof (i_node s I k nk Hk) as Ni. rewrite (n_ports _ _ _ Ni). pose proof (n_pos _ _ _ Ni). destruct (ups nk); [done|]. simpl. lia. }
        unfold nw, mw, jw. simpl. rewrite Rk. assert (W k * S (sumf length (qs q')) <= W k * sumf length (qs (que nk))) as Y by (apply Nat.mul_le_mono_l; lia).
        rewrite Nat.mul_succ_r in Y. unfold W at 2 in Y. lia.
    - left. set (s' := set_job _ _ _ _). eapply (mu_nset s s' t k JPend _ false 0 k nk (with_close false (closeq nk) nk) []); try done; [by rewrite app_nil_r|by rewrite app_nil_r| |].
      + by eapply jw_alone.
      + unfold nw, mw, jw. simpl. unfold rdy. rewrite Hk, Em. simpl. destruct (closeq nk); simpl; lia.
    - left. eapply mu_set; [done|]. unfold jw. simpl. lia.
    - left. set (s' := set_job _ _ _ _).
      assert (nodes s' = <[u := cleared nu]> (nodes s)) as Hs by (unfold s'; simpl; by rewrite run_nodes).
      assert (0 < susp nu) as Su. { pose proof (n_credit _ _ _ (i_node s I u nu Hu)) as C. unfold credit in C.
        pose proof (sumf_lookup (cjob (dead s) u) _ _ _ Ht) as X. unfold cjob in X at 1. unfold cnt in X. simpl in X. rewrite Nat.eqb_refl in X. simpl in X. lia. }
      eapply (mu_nset s s' t k _ _ (cl_run nu) u u nu (cleared nu) []); try done; [unfold s'; simpl; by rewrite run_jobs|unfold s'; simpl; by rewrite run_pends, app_nil_r| |].
      + intros _ y _ _. by eapply mono_set.
      + assert (rw s' (cl_run nu) u <= 2). { apply rw_rdy. intros Hb. rewrite (rdy_at s s' u nu _ Hu Hs). unfold cl_run in Hb. by apply andb_true_iff in Hb as [_ Hb]. }
        unfold nw, mw, jw. simpl. lia.
    - left. eapply mu_del; [done|]. unfold jw. simpl. lia.
    - left. eapply mu_set; [done|]. unfold jw. simpl. lia.
    - left. eapply mu_set; [done|]. unfold jw. simpl. destruct ok1; lia.
    - left. set (s' := set_job _ _ _ _). destruct (own_zero s k nk t _ I Hk Ht eq_refl) as (_ & Su & _).
      eapply (mu_nset s s' t k _ _ false 0 k nk (with_susp (if b then S (length rest) else 1) nk) []); try done; [by rewrite app_nil_r|by rewrite app_nil_r| |].
      + intros _ y _ _. by eapply mono_set.
      + unfold nw, mw, jw. simpl. rewrite Su. assert (sumf ecost rest = sumf (fun e => W e.1 + 10) rest + 12 * length rest) as ->.
        { clear. induction rest as [|e l IH]; [done|]. simpl. rewrite IH. unfold ecost. lia. }
        destruct b; lia.
    - left. eapply mu_set; [done|]. unfold jw. simpl. lia.
    - left. eapply mu_set; [done|]. unfold jw. simpl. lia.
    - left. set (s' := set_job _ _ _ _). assert (nodes s' = <[d := enq p o nd]> (nodes s)) as Hs by (unfold s'; simpl; by rewrite run_nodes).
      eapply (mu_nset s s' t k _ _ (en_run nd) d d nd (enq p o nd) []); try done; [unfold s'; simpl; by rewrite run_jobs|unfold s'; simpl; by rewrite run_pends, app_nil_r| |].
      + intros _ y _ _. eapply mono_set; try done. simpl. intros [H|H]%orb_true_iff; apply orb_true_iff; [|by right]. left. apply negb_true_iff in H. apply negb_true_iff. by apply empty_append.
      + pose proof (rw_le s' (en_run nd) d). unfold nw, mw, jw. simpl. pose proof (total_append p o (que nd)) as L. apply (Nat.mul_le_mono_l _ _ (W d)) in L. rewrite Nat.mul_succ_r in L. simpl in L. lia.
    - left. eapply mu_set; [done|]. unfold jw. simpl. lia.
    - left. set (s' := end_job _ _). assert (nodes s' = <[k := cleared nk]> (nodes s)) as Hs by (unfold s'; simpl; by rewrite run_nodes).
      assert (0 < susp nk) as Su. { pose proof (n_credit _ _ _ (i_node s I k nk Hk)) as C. unfold bc in C.
        pose proof (sumf_lookup (bcf k) _ _ _ Ht) as X. unfold bcf in X at 1. simpl in X. rewrite Nat.eqb_refl in X. simpl in X. lia. }
      eapply (mu_ndel s s' t k _ (cl_run nk) k k nk (cleared nk)); try done; [unfold s'; simpl; by rewrite run_jobs|unfold s'; simpl; by rewrite run_pends| |].
      + intros _ y _ _. by eapply mono_set.
      + assert (rw s' (cl_run nk) k <= 2). { apply rw_rdy. intros Hb. rewrite (rdy_at s s' k nk _ Hk Hs). unfold cl_run in Hb. by apply andb_true_iff in Hb as [_ Hb]. }
        unfold nw, mw, jw. simpl. lia.
    - left. set (s' := set_job _ _ _ _). eapply (mu_nset s s' t k _ _ false 0 k nk (with_running false nk) []); try done; [by rewrite app_nil_r|by rewrite app_nil_r| |].
      + intros _ y _ _. by eapply mono_set.
      + unfold nw, mw, jw. simpl. lia.
    - left. set (s' := run_if _ _ _). assert (nodes s' = <[k := with_running (dn_run nk) nk]> (nodes s)) as Hs by (unfold s'; simpl; by rewrite run_nodes).
      eapply (mu_ndel s s' t k _ (dn_run nk) k k nk (with_running (dn_run nk) nk)); try done.
      + unfold s'. rewrite run_jobs. simpl. by rewrite del_app by (by eapply lookup_lt_Some).
      + unfold s'. by rewrite run_pends.
      + intros _ y _ _. by eapply mono_set.
      + assert (rw s' (dn_run nk) k <= 2). { apply rw_rdy. intros Hb. by rewrite (rdy_at s s' k nk _ Hk Hs). }
        unfold nw, mw, jw. simpl. lia.
    - left. set (s' := set_job _ _ _ _). eapply (mu_nset s s' t k _ _ false 0 k nk (with_down [] nk) []); try done; [by rewrite app_nil_r|by rewrite app_nil_r| |].
      + intros _ y _ _. by eapply mono_set.
      + unfold nw, mw, jw. simpl. lia.
    - left. eapply mu_set; [done|]. unfold jw. simpl. lia.
    - left. set (s' := set_job _ _ _ _). assert (nodes s' = <[d := with_scount x nd]> (nodes s)) as Hs by (unfold s'; simpl; by rewrite rms_nodes).
      eapply (mu_nset s s' t k _ _ false 0 d nd (with_scount x nd) (if x =? 0 then [PSend d] else [])); try done; [unfold s'; simpl; by rewrite rms_jobs, app_nil_r|unfold s'; simpl; by rewrite rms_pends| |].
      + intros _ y _ _. by eapply mono_set.
      + unfold nw, mw, jw. simpl. destruct (x =? 0); simpl; lia.
    - left. set (s' := end_job _ _). eapply (mu_ndel s s' t k _ false 0 k nk (with_proc false nk)); try done; [by rewrite app_nil_r| |].
      + intros _ y _ _. by eapply mono_set.
      + unfold nw, mw, jw. simpl. lia.
    - left. eapply mu_set; [done|]. unfold jw. simpl. destruct (Fi k nk Hk) as [_ Fv]. lia.
    - right. right. simpl. intros E. apply (f_equal length) in E. rewrite app_length in E. simpl in E. lia.
  Qed.
  Lemma fit_set s s' d n n' : fit s -> nodes s !! d = Some n -> nodes s' = <[d := n']> (nodes s) -> ups n' = ups n -> down n' = down n \/ down n' = [] -> fit s'.
  Proof.
    intros F Hn Hs Hu Hd k nk Hk. rewrite Hs in Hk. apply list_lookup_insert_Some in Hk as [(-> & <- & _)|(_ & Hk)]; [|by apply F]. destruct (F k n Hn) as [A B]. rewrite Hu. split; [done|].
    destruct Hd as [->| ->]; [done|]. simpl. lia.
  Qed.
  Lemma fit_same s s' : fit s -> nodes s' = nodes s -> fit s'.
  Proof. intros F Hs k nk Hk. rewrite Hs in Hk. by apply F. Qed.
  Lemma fit_jmove s s' ev : fit s -> jmove s s' ev -> fit s'.
  Proof.
    intros Fi M. destruct M as [k m nk Hin Hk De Up|x k nk Hp Hk b|x k nk Hp Hk b|t k Ht De|t k nk ms q' Hk Ht De T|t k nk Hk Ht De Em|t k u todo m nu Hu Ht Fu|t k u todo m nu Hu Ht|t k ok1 ms Ht Er|t k ok1 ms Ht Er
      |t k ok1 Ht|t k nk o rest b Hk Ht|t k o Ht|t k o e rest Ht De|t k o d p rest nd Ht Hd De|t k Ht|t k nk Hk Ht|t k nk Hk Ht Fk|t k nk Hk Ht Fk|t k nk Hk Ht|t k e rest Ht De|t k d p rest nd x Ht Hd De Sc
      |t k nk Hk Ht|t k nk ms o Hk Ht|k De Ow].
    all: try (by apply (fit_same s)).
    all: try (eapply (fit_set s); [done|exact Hk|simpl; rewrite ?run_nodes, ?rms_nodes; simpl; reflexivity|done|by auto]).
    - eapply (fit_set s); [done|exact Hu|simpl; rewrite run_nodes; simpl; reflexivity|done|by auto].
    - eapply (fit_set s); [done|exact Hd|simpl; rewrite run_nodes; simpl; reflexivity|done|by auto].
    - eapply (fit_set s); [done|exact Hd|simpl; rewrite rms_nodes; simpl; reflexivity|done|by auto].
  Qed.
End measure.

(** such functions exist: results flow to processes made later *)
Lemma fit_exists s : inv s -> exists U V, fit U V s.
Proof.
  intros I. set (U := fun i => match nodes s !! i with Some n => length (ups n) | None => 0 end). exists U.
  assert (forall k, k <= length (nodes s) -> exists V, forall i n, length (nodes s) - k <= i -> nodes s !! i = Some n -> 20 + sumf (ecost U V) (down n) <= V i) as X.
  { induction k as [|k IH]; intros L.
    - exists (fun _ => 0). intros i n Li Hn. apply lookup_lt_Some in Hn. lia.
    - destruct IH as [V HV]; [lia|]. set (i0 := length (nodes s) - S k). set (n0 := match nodes s !! i0 with Some n => 20 + sumf (ecost U V) (down n) | None => 0 end).
      exists (fun i => if i =? i0 then n0 else V i). intros i n Li Hn.
      assert (sumf (ecost U (fun i => if i =? i0 then n0 else V i)) (down n) = sumf (ecost U V) (down n)) as ->.
      { apply sumf_ext. intros [d p] H. unfold ecost, W. simpl. destruct (n_down _ _ _ (i_node s I i n Hn) d p H) as (nd & Hd & Up). pose proof (n_ups _ _ _ (i_node s I d nd Hd) p i Up).
        destruct (Nat.eqb_spec d i0); [unfold i0 in *; lia|done]. }
      destruct (Nat.eqb_spec i i0) as [->|N]; [unfold n0; by rewrite Hn|]. apply HV; [unfold i0 in *; lia|done]. }
  destruct (X (length (nodes s)) (le_n _)) as [V HV]. exists V. intros i n Hn. split; [unfold U; by rewrite Hn|]. apply HV; [lia|done].
Qed.

(** ** internal steps *)
Lemma internal_dead s l s' ev : internal l = true -> step s l = Some (s', ev) -> dead s' = dead s.
Proof.
  intros B H. destruct l as [|h v b|k hs v|h m|h|h|h|h|h|h|h|k|t|t o|i]; simpl in *; try done.
  - destruct (pends s !! k) as [[i|i]|]; [..|done]; (destruct (nodes s !! i) as [n|]; [|done]); injection H as <- <-; by rewrite run_dead.
  - destruct (jobs s !! t) as [[i p]|]; [|done]. unfold job_step in H. destruct (nodes s !! i) as [n|]; [|done]. destruct p as [|[|u todo] ok1 m|ms|o rest b|o [|e rest]|ok1| | |[|e rest]].
    + destruct (deadb i s); [by injection H as <- <-|]. destruct (pop_from_queue n) as [[[n' cts] m]|]; by injection H as <- <-.
    + destruct m as [ms|]; [|by injection H as <- <-]. destruct (has_error ms), (proc n); by injection H as <- <-.
    + destruct ok1.
      * unfold clear2 in H. destruct (nodes s !! u); [|done]. injection H as <- <-. simpl. by rewrite run_dead.
      * destruct (nodes s !! u); [|done]. by injection H as <- <-.
    + done.
    + by injection H as <- <-.
    + by injection H as <- <-.
    + destruct (enqueue _ _ _ _) as [[s1 e1]|] eqn:E; [|done]. injection H as <- <-. apply enqueue_eq in E as [(_ & -> & _)|(_ & nd & _ & -> & _)]; [done|]. simpl. by rewrite run_dead.
    + destruct ok1.
      * unfold clear2 in H. destruct (nodes s !! i); [|done]. injection H as <- <-. simpl. by rewrite run_dead.
      * destruct (final n); by injection H as <- <-.
    + injection H as <- <-. rewrite run_dead. by destruct (final n).
    + by injection H as <- <-.
    + by injection H as <- <-.
    + unfold remove_sender in H. destruct (deadb e.1 s); [by injection H as <- <-|]. destruct (nodes s !! e.1) as [nd|]; [|done]. destruct (scount nd) as [|[|]]; by injection H as <- <-.
  - destruct (jobs s !! t) as [[i p]|]; [|done]. destruct p; try done. destruct (nodes s !! i); [|done]. by injection H as <- <-.
Qed.
Lemma internal_app s l s' ev i p m : inv s -> internal l = true -> step s l = Some (s', ev) -> Appended i p m ∈ ev -> exists n u, nodes s !! i = Some n /\ ups n !! p = Some (Some u).
Proof.
  intros I B H A. destruct l as [|h v b|k hs v|h m'|h|h|h|h|h|h|h|k|t|t o|i']; simpl in *; try done.
  - destruct (pends s !! k) as [[i'|i']|]; [..|done]; (destruct (nodes s !! i') as [n|]; [|done]); injection H as <- <-; by apply elem_of_nil in A.
  - destruct (jobs s !! t) as [[i' p']|] eqn:Ht; [|done]. pose proof (job_moves s t i' p' s' ev I Ht H) as M. destruct (i_job s I _ _ _ Ht) as (n & Hn & J).
    unfold job_step in H. rewrite Hn in H. destruct p' as [|[|u todo] ok1 mm|ms|o rest b|o [|e rest]|ok1| | |[|e rest]].
    + destruct (deadb i' s); [injection H as <- <-; by apply elem_of_nil in A|]. destruct (pop_from_queue n) as [[[n' cts] [mm|]]|]; injection H as <- <-; [..|]; try (by apply elem_of_nil in A); by apply elem_of_list_singleton in A.
    + destruct mm as [ms|]; [|injection H as <- <-; by apply elem_of_nil in A]. destruct (has_error ms), (proc n); injection H as <- <-; by apply elem_of_list_singleton in A.
    + destruct ok1.
      * unfold clear2 in H. destruct (nodes s !! u); [|done]. injection H as <- <-. by apply elem_of_nil in A.
      * destruct (nodes s !! u); [|done]. injection H as <- <-. by apply elem_of_nil in A.
    + done.
    + injection H as <- <-. by apply elem_of_nil in A.
    + injection H as <- <-. by apply elem_of_nil in A.
    + destruct (enqueue _ _ _ _) as [[s1 e1]|] eqn:E; [|done]. injection H as <- <-. apply enqueue_eq in E as [(_ & -> & ->)|(_ & nd & Hd & -> & ->)]; [by apply elem_of_nil in A|].
      apply elem_of_list_singleton in A. injection A as -> -> ->. destruct J as (_ & _ & Sub & _). destruct e as [d q]. simpl in *.
      destruct (n_down _ _ _ (i_node s I i' n Hn) d q) as (nd' & Hd' & Up); [apply Sub; left|]. exists nd', i'. done.
    + destruct ok1.
      * unfold clear2 in H. rewrite Hn in H. injection H as <- <-. by apply elem_of_nil in A.
      * injection H as <- <-. by apply elem_of_nil in A.
    + injection H as <- <-. by apply elem_of_nil in A.
    + injection H as <- <-. by apply elem_of_list_singleton in A.
    + injection H as <- <-. by apply elem_of_nil in A.
    + unfold remove_sender in H. destruct (deadb e.1 s); [injection H as <- <-; by apply elem_of_nil in A|]. destruct (nodes s !! e.1) as [nd|]; [|done].
      destruct (scount nd) as [|[|]]; injection H as <- <-; try (by apply elem_of_nil in A); by apply elem_of_list_singleton in A.
  - destruct (jobs s !! t) as [[i' p']|]; [|done]. destruct p'; try done. destruct (nodes s !! i'); [|done]. injection H as <- <-. by apply elem_of_list_singleton in A.
Qed.
Lemma internal_jmove s l s' ev : inv s -> internal l = true -> step s l = Some (s', ev) -> jmove s s' ev.
Proof.
  intros I B H. destruct l as [|h v b|k hs v|h m|h|h|h|h|h|h|h|k|t|t o|i]; simpl in *; try done.
  - destruct (pends s !! k) as [p|] eqn:Hk; [|done]. destruct p as [i|i]; destruct (nodes s !! i) as [n|] eqn:Hn; try done; injection H as <- <-.
    + by apply M_precv.
    + by apply M_psend.
  - destruct (jobs s !! t) as [[i p]|] eqn:Ht; [|done]. by eapply job_moves.
  - destruct (jobs s !! t) as [[i p]|] eqn:Ht; [|done]. destruct p; try done. destruct (nodes s !! i) as [n|] eqn:Hn; [|done]. injection H as <- <-.
    by eapply M_ret.
Qed.
Lemma internal_dec U V s l s' ev : inv s -> fit U V s -> internal l = true -> step s l = Some (s', ev) -> mu U V s' < mu U V s /\ fit U V s'.
Proof.
  intros I F B H. pose proof (internal_jmove s l s' ev I B H) as M. split; [|by eapply fit_jmove].
  destruct (mu_jmove U V s s' ev I F M) as [L|[(i & m & n & Hn & Up & ->)|D]]; [done|exfalso|exfalso; by apply D, (internal_dead s l s' ev)].
  destruct (internal_app s l s' _ i 0 m I B H) as (n' & u & Hn' & Hu); [left|]. assert (n' = n) as -> by congruence. by rewrite Up in Hu.
Qed.
(** ** progress *)
Lemma can_pend s k : inv s -> k < length (pends s) -> is_Some (step s (LPend k)).
Proof.
  intros I L. apply lookup_lt_is_Some in L as [p Hp]. simpl. rewrite Hp. assert (is_Some (nodes s !! match p with PRecv i | PSend i => i end)) as [n Hn].
  { apply (i_pend s I). apply elem_of_list_lookup_2 in Hp. destruct p; auto. }
  destruct p; rewrite Hn; eauto.
Qed.
Lemma can_job s t i p : inv s -> jobs s !! t = Some (i, p) -> (forall ms, p <> JInvoke ms) -> is_Some (step s (LJob t)).
Proof.
  intros I Ht N. destruct (i_job s I _ _ _ Ht) as (n & Hn & J). simpl. rewrite Ht. unfold job_step. rewrite Hn.
  destruct p as [|[|u todo] ok1 mm|ms|o rest b|o [|e rest]|ok1| | |[|e rest]]; simpl; eauto.
  - destruct (deadb i s); [eauto|]. destruct (pop_from_queue n) as [[[n' cts] mm]|]; eauto.
  - destruct mm as [ms|]; [|eauto]. destruct (has_error ms), (proc n); eauto.
  - destruct J as [J _]. apply Forall_cons in J as [[nu Hu] _]. destruct ok1; [unfold clear2|]; rewrite Hu; eauto.
  - by destruct (N ms).
  - destruct J as (_ & _ & Sub & _). destruct e as [d q]. destruct (n_down _ _ _ (i_node s I i n Hn) d q) as (nd' & Hd' & Up); [apply Sub; left|].
    unfold enqueue. simpl. rewrite Hd'. destruct (deadb d s); eauto.
  - destruct ok1; [unfold clear2; rewrite Hn|]; eauto.
  - destruct J as (_ & J). destruct (J e) as [nd Hd]; [left|]. unfold remove_sender. rewrite Hd. destruct (deadb e.1 s); [eauto|]. destruct (scount nd) as [|[|]]; eauto.
Qed.
Lemma can_ret s t i ms o : inv s -> jobs s !! t = Some (i, JInvoke ms) -> is_Some (step s (LRet t o)).
Proof. intros I Ht. destruct (i_job s I _ _ _ Ht) as (n & Hn & J). simpl. rewrite Ht, Hn. eauto. Qed.
Lemma can_step s : inv s -> at_rest s \/ exists l, internal l = true /\ is_Some (step s l).
Proof.
  intros I. destruct (pends s) as [|p ps] eqn:P.
  - destruct (jobs s) as [|[i p] js] eqn:Jo; [by left|]. right. assert (jobs s !! 0 = Some (i, p)) as Ht by by rewrite Jo.
    destruct p as [| |ms| | | | | |]; [| |exists (LRet 0 (Val 0)); split; [done|by eapply can_ret]| | | | | |]; (exists (LJob 0); split; [done|by eapply can_job]).
  - right. exists (LPend 0). split; [done|]. apply can_pend; [done|]. rewrite P. simpl. lia.
Qed.
Lemma settle_from U V ls : forall s tr s' tr', reach s tr -> fit U V s -> Forall (fun l => internal l = true) ls -> run s ls = Some (s', tr') -> length ls + mu U V s' <= mu U V s /\ fit U V s' /\ reach s' (tr ++ tr').
Proof.
  induction ls as [|l ls IH]; intros s tr s' tr' R F B H; simpl in H.
  - injection H as <- <-. rewrite app_nil_r. split; [simpl; lia|done].
  - apply Forall_cons in B as [Bl B]. destruct (step s l) as [[s1 e1]|] eqn:S1; [|done]. destruct (run s1 ls) as [[s2 e2]|] eqn:R2; [|done]. injection H as <- <-.
    destruct (internal_dec U V s l s1 e1 (r_inv s tr R) F Bl S1) as [L F1].
    assert (reach s1 (tr ++ e1)) as Re1. { eapply (run_reach [l] s tr); [done| |simpl; by rewrite S1, app_nil_r]. constructor; [by destruct l|constructor]. }
    destruct (IH _ _ _ _ Re1 F1 B R2) as (L2 & F2 & Re2). rewrite <- app_assoc in Re2. split; [simpl; lia|done].
Qed.
Theorem settles s tr : reach s tr -> exists b, forall ls s' tr', Forall (fun l => internal l = true) ls -> run s ls = Some (s', tr') ->
  length ls <= b /\ (at_rest s' \/ exists l, internal l = true /\ is_Some (step s' l)).
Proof.
  intros R. destruct (fit_exists s (r_inv s tr R)) as (U & V & F). exists (mu U V s). intros ls s' tr' B H. destruct (settle_from U V ls s tr s' tr' R F B H) as (L & _ & R'). split; [lia|].
  by apply can_step, (r_inv s' _ R').
Qed.
Lemma comes_to_rest s tr : reach s tr -> exists ls s' tr', Forall (fun l => internal l = true) ls /\ run s ls = Some (s', tr') /\ at_rest s'.
Proof.
  intros R. destruct (fit_exists s (r_inv s tr R)) as (U & V & F). remember (mu U V s) as k eqn:E. revert s tr R F E. induction (lt_wf k) as [k _ IH]. intros s tr R F ->.
  destruct (can_step s (r_inv s tr R)) as [Re|(l & B & [s1 e1] & H)]; [by exists [], s, []|]. destruct (internal_dec U V s l s1 e1 (r_inv s tr R) F B H) as [L F1].
  assert (reach s1 (tr ++ e1)) as R1. { eapply (run_reach [l] s tr); [done| |simpl; by rewrite H, app_nil_r]. constructor; [by destruct l|constructor]. }
  destruct (IH _ L s1 _ R1 F1 eq_refl) as (ls & s' & tr' & B' & H' & Re'). exists (l :: ls), s', (e1 ++ tr'). split; [by constructor|]. simpl. by rewrite H, H'.
Qed.
Section facts.
  Context (ls : list label) (s : st) (tr : list event) (B : Forall buf1 ls) (R : run init ls = Some (s, tr)).
  Lemma f_settles : exists b, forall ls' s' tr', Forall (fun l => internal l = true) ls' -> run s ls' = Some (s', tr') ->
    length ls' <= b /\ (at_rest s' \/ exists l, internal l = true /\ is_Some (step s' l)).
  Proof. apply (settles s tr). exact (reached ls s tr B R). Qed.
  Lemma f_progress : (forall k, k < length (pends s) -> is_Some (step s (LPend k))) /\
    (forall t i ms o, jobs s !! t = Some (i, JInvoke ms) -> is_Some (step s (LRet t o))) /\
    (forall t i p, jobs s !! t = Some (i, p) -> (forall ms, p <> JInvoke ms) -> is_Some (step s (LJob t))).
  Proof.
    assert (inv s) as I by (apply (r_inv s tr), (reached ls s tr B R)).
    split; [|split]; intros; [by apply can_pend|by eapply can_ret|by eapply can_job].
  Qed.
  Lemma f_comes_to_rest : exists ls' s' tr', Forall (fun l => internal l = true) ls' /\ run s ls' = Some (s', tr') /\ at_rest s'.
  Proof. apply (comes_to_rest s tr). exact (reached ls s tr B R). Qed.
End facts.
