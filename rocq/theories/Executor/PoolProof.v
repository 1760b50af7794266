From Coq Require Import ZArith List Bool Lia.
From stdpp Require Import list list_numbers.
From Verif.Executor Require Import Queue QueueProof Pool.

Definition pushes (tr : list event) : list nat := omap (fun e => match e with Pushed t => Some t | _ => None end) tr.
Definition starts (tr : list event) : list nat := omap (fun e => match e with Started t => Some t | _ => None end) tr.
Definition ends (tr : list event) : list nat := omap (fun e => match e with Ended t => Some t | _ => None end) tr.
Lemma pushes_app a b : pushes (a ++ b) = pushes a ++ pushes b. Proof. apply omap_app. Qed.
Lemma starts_app a b : starts (a ++ b) = starts a ++ starts b. Proof. apply omap_app. Qed.
Lemma ends_app a b : ends (a ++ b) = ends a ++ ends b. Proof. apply omap_app. Qed.

(** ** the cases of [step] *)
Definition del {A} (c : nat) (l : list A) : list A := take c l ++ drop (S c) l.

Inductive tstep (s : st) : label -> st -> list event -> Prop :=
  | t_exec p i : tstep s (Execute p i)
      (St (qs s) (ws s) (wt s) (es s) (calls s ++ [Try (next s) p i 0]) (jn s) (S (next s)) (early s) (dropped s)) []
  | t_wake : tstep s Wake (set_c (calls s ++ [WakeQ 0]) s) []
  | t_full : jn s = JIdle -> tstep s AddThread s []
  | t_add : jn s = JIdle -> length (es s) <> length (wt s) ->
      tstep s AddThread (St (qs s) (ws s) (wt s) (es s ++ [ELoop 0]) (calls s) JIdle (next s) (early s) (dropped s)) []
  | t_tryfail c t p i n : calls s !! c = Some (Try t p i n) -> S n <> ncount s ->
      tstep s (Call c true) (set_c (<[c := Try t p i (S n)]> (calls s)) s) []
  | t_trylast c t p i n : calls s !! c = Some (Try t p i n) -> S n = ncount s ->
      tstep s (Call c true) (set_c (<[c := PushIt t p i]> (calls s)) s) []
  | t_push c b t p i n x j q : calls s !! c = Some x -> (x = Try t p i n /\ j = (i + n) mod ncount s \/ x = PushIt t p i /\ j = i mod ncount s) -> qs s !! j = Some q ->
      tstep s (Call c b) (St (<[j := push p t q]> (qs s)) (ws s) (wt s) (es s) (<[c := Notify j]> (calls s)) (jn s) (next s)
                      (if no_join s then early s ++ [t] else early s) (dropped s)) [Pushed t]
  | t_notify c b i : calls s !! c = Some (Notify i) -> i < length (qs s) ->
      tstep s (Call c b) (set_c (del c (calls s)) (notify_w i s)) []
  | t_wakeqend c b n : calls s !! c = Some (WakeQ n) -> n = length (qs s) ->
      tstep s (Call c b) (set_c (<[c := WakeW 0 (length (es s))]> (calls s)) s) []
  | t_wakeqno c b n : calls s !! c = Some (WakeQ n) -> n < length (qs s) ->
      tstep s (Call c b) (set_c (<[c := WakeQ (S n)]> (calls s)) s) []
  | t_wakeq c b n q : calls s !! c = Some (WakeQ n) -> qs s !! n = Some q -> waiting q = true ->
      tstep s (Call c b) (set_c (<[c := Notify n]> (calls s)) (set_q n (set_waiting false q) s)) []
  | t_wakewend c b n : calls s !! c = Some (WakeW n n) -> tstep s (Call c b) (set_c (del c (calls s)) s) []
  | t_wakewno c b n l : calls s !! c = Some (WakeW n l) -> n <> l -> n < length (wt s) ->
      tstep s (Call c b) (set_c (<[c := WakeW (S n) l]> (calls s)) s) []
  | t_wakew c b n l w : calls s !! c = Some (WakeW n l) -> n <> l -> wt s !! n = Some w -> w_waiting w = true ->
      tstep s (Call c b) (set_c (<[c := NotifyW n]> (calls s)) (set_wt n (Wtr false (w_done w)) s)) []
  | t_notifyw c b n : calls s !! c = Some (NotifyW n) ->
      tstep s (Call c b) (set_c (del c (calls s)) (notify_e n s)) []
  | t_loop i b k n : ws s !! i = Some (Loop n) -> S n <> ncount s -> tstep s (Worker i b k) (set_w i (Loop (S n)) s) []
  | t_looplast i b k n : ws s !! i = Some (Loop n) -> S n = ncount s -> tstep s (Worker i b k) (set_w i PopLock s) []
  | t_looppop i b k n q t q' j : ws s !! i = Some (Loop n) -> j = (i + n) mod ncount s -> qs s !! j = Some q ->
      pop_at k q = Some (t, q') -> tstep s (Worker i b k) (set_w i (Run t) (set_q j q' s)) [Started t]
  | t_popwait i b k p q q1 : ws s !! i = Some p -> qs s !! i = Some q -> (p = PopLock /\ q1 = set_waiting true q \/ p = Wait true /\ q1 = q) ->
      items q = [] -> done q = false -> waiting q1 = true ->
      tstep s (Worker i b k) (set_w i (Wait false) (set_q i q1 s)) []
  | t_popwoken i b k q : ws s !! i = Some (Wait true) -> qs s !! i = Some q ->
      items q = [] -> done q = false ->
      tstep s (Worker i b k) (set_w i (Loop 0) (set_q i (set_waiting false q) s)) []
  | t_popexit i b k p q : ws s !! i = Some p -> qs s !! i = Some q -> (p = PopLock \/ p = Wait true) ->
      items q = [] -> done q = true ->
      tstep s (Worker i b k) (set_w i Exited (set_q i (set_waiting false q) s)) []
  | t_pop i b k p q t q' : ws s !! i = Some p -> qs s !! i = Some q -> (p = PopLock \/ p = Wait true) ->
      pop_at k (set_waiting false q) = Some (t, q') ->
      tstep s (Worker i b k) (set_w i (Run t) (set_q i q' s)) [Started t]
  | t_end i b k t : ws s !! i = Some (Run t) -> tstep s (Worker i b k) (set_w i (Loop 0) s) [Ended t]
  | t_eloop i b k n : es s !! i = Some (ELoop n) -> S n <> ncount s -> tstep s (Expand i b k) (set_e i (ELoop (S n)) s) []
  | t_elooplast i b k n : es s !! i = Some (ELoop n) -> S n = ncount s -> tstep s (Expand i b k) (set_e i EWaitLock s) []
  | t_elooppop i b k n q t q' j : es s !! i = Some (ELoop n) -> j = (ncount s + i + n) mod ncount s -> qs s !! j = Some q ->
      pop_at k q = Some (t, q') -> tstep s (Expand i b k) (set_e i (ERun t) (set_q j q' s)) [Started t]
  | t_ewait i b k p w w1 : es s !! i = Some p -> wt s !! i = Some w ->
      (p = EWaitLock /\ w1 = Wtr true false \/ p = EWait true /\ w1 = w) -> w_done w = false -> w_waiting w1 = true ->
      tstep s (Expand i b k) (set_e i (EWait false) (set_wt i w1 s)) []
  | t_ewoken i b k w : es s !! i = Some (EWait true) -> wt s !! i = Some w -> w_done w = false ->
      tstep s (Expand i b k) (set_e i (ELoop 0) (set_wt i (Wtr false false) s)) []
  | t_eexit i b k p w : es s !! i = Some p -> wt s !! i = Some w -> (p = EWaitLock \/ p = EWait true) -> w_done w = true ->
      tstep s (Expand i b k) (set_e i EExited (set_wt i (Wtr false true) s)) []
  | t_eend i b k t : es s !! i = Some (ERun t) -> tstep s (Expand i b k) (set_e i (ELoop 0) s) [Ended t]
  | t_spur i b : ws s !! i = Some (Wait b) -> tstep s (Spurious i) (notify_w i s) []
  | t_espur i b : es s !! i = Some (EWait b) -> tstep s (ESpurious i) (notify_e i s) []
  | t_jstart : jn s = JIdle -> tstep s Join (set_j (JDone 0) s) []
  | t_jdone k q : jn s = JDone k -> qs s !! k = Some q -> tstep s Join (set_j (JNote k) (set_q k (set_done true q) s)) []
  | t_jdoneend k : jn s = JDone k -> qs s !! k = None -> tstep s Join (set_j (JWDone 0) s) []
  | t_jnote k : jn s = JNote k -> tstep s Join (set_j (JDone (S k)) (notify_w k s)) []
  | t_jwdone k w : jn s = JWDone k -> wt s !! k = Some w -> tstep s Join (set_j (JWNote k) (set_wt k (Wtr (w_waiting w) true) s)) []
  | t_jwdoneend k : jn s = JWDone k -> wt s !! k = None -> tstep s Join (set_j (JThreads 0) s) []
  | t_jwnote k : jn s = JWNote k -> tstep s Join (set_j (JWDone (S k)) (notify_e k s)) []
  | t_jw k : jn s = JThreads k -> ws s !! k = Some Exited -> tstep s Join (set_j (JThreads (S k)) s) []
  | t_je k : jn s = JThreads k -> length (ws s) <= k -> es s !! (k - length (ws s)) = Some EExited ->
      tstep s Join (set_j (JThreads (S k)) s) []
  | t_jclear k : jn s = JThreads k -> length (ws s) <= k -> es s !! (k - length (ws s)) = None ->
      tstep s Join (St [] (ws s) (wt s) (es s) (calls s) JReturned (next s) (early s) (dropped s ++ all_items s)) []
  | t_ub_c c b : (exists t p i n, (calls s !! c = Some (Try t p i n) /\ qs s !! ((i + n) mod ncount s) = None) \/
                         (calls s !! c = Some (PushIt t p i) /\ qs s !! (i mod ncount s) = None) \/
                         (calls s !! c = Some (Notify n) /\ length (qs s) <= n) \/
                         (calls s !! c = Some (WakeQ n) /\ n <> length (qs s) /\ qs s !! n = None) \/
                         (calls s !! c = Some (WakeW n i) /\ n <> i /\ wt s !! n = None)) ->
      tstep s (Call c b) s [Ub]
  | t_ub_w i b k : (exists n, ws s !! i = Some (Loop n) /\ qs s !! ((i + n) mod ncount s) = None) \/
                   (ws s !! i = Some PopLock \/ ws s !! i = Some (Wait true)) /\ qs s !! i = None ->
      tstep s (Worker i b k) s [Ub]
  | t_ub_e i b k : (exists n, es s !! i = Some (ELoop n) /\ qs s !! ((ncount s + i + n) mod ncount s) = None) \/
                   (es s !! i = Some EWaitLock \/ es s !! i = Some (EWait true)) /\ wt s !! i = None ->
      tstep s (Expand i b k) s [Ub].

Lemma is_empty_t {A} (q : nq A) : is_empty q = true -> items q = [].
Proof. unfold is_empty. by destruct (items q). Qed.

Lemma eval_t s i b k p q q1 s' e : ws s !! i = Some p -> qs s !! i = Some q ->
  (p = PopLock /\ q1 = set_waiting true q \/ p = Wait true /\ q1 = q) -> pop_eval i q1 k s = Some (s', e) -> tstep s (Worker i b k) s' e.
Proof.
  intros Hw Hq Hc H. unfold pop_eval in H.
  assert (items q1 = items q /\ done q1 = done q) as [Hi Hd] by (destruct Hc as [[_ ->]|[_ ->]]; done).
  assert (set_waiting false q1 = set_waiting false q) as Hs by (destruct Hc as [[_ ->]|[_ ->]]; done).
  destruct (is_empty q1) eqn:E; simpl in H.
  - apply is_empty_t in E. destruct (done q1) eqn:D; simpl in H.
    + assert (is_empty (set_waiting false q1) = true) as Hz by (unfold is_empty; simpl; by rewrite E).
      rewrite Hz in H. injection H as <- <-. rewrite Hs. eapply t_popexit; eauto; try congruence. destruct Hc as [[-> _]|[-> _]]; auto.
    + destruct (waiting q1) eqn:W.
      * injection H as <- <-. eapply t_popwait; eauto; congruence.
      * assert (is_empty (set_waiting false q1) = true) as Hz by (unfold is_empty; simpl; by rewrite E).
        rewrite Hz in H. injection H as <- <-. rewrite Hs.
        destruct Hc as [[-> ->]|[-> ->]]; [done|]. eapply t_popwoken; eauto; congruence.
  - assert (is_empty (set_waiting false q1) = false) as Hz by (unfold is_empty in *; simpl; done).
    rewrite Hz in H. destruct (pop_at k _) as [[t q2]|] eqn:P; [|done]. injection H as <- <-.
    eapply t_pop; eauto; [|by rewrite <- Hs]. destruct Hc as [[-> _]|[-> _]]; auto.
Qed.

Lemma wait_t s i b k p w w1 s' e : es s !! i = Some p -> wt s !! i = Some w ->
  (p = EWaitLock /\ w1 = Wtr true (w_done w) \/ p = EWait true /\ w1 = w) -> wait_eval i w1 s = Some (s', e) -> tstep s (Expand i b k) s' e.
Proof.
  intros Hw Hq Hc H. unfold wait_eval in H.
  assert (w_done w1 = w_done w) as Hd by (destruct Hc as [[_ ->]|[_ ->]]; done).
  destruct (w_done w1) eqn:D; rewrite ?andb_false_r in H.
  - injection H as <- <-. eapply t_eexit; eauto. destruct Hc as [[-> _]|[-> _]]; auto.
  - destruct (w_waiting w1) eqn:W; simpl in H; injection H as <- <-.
    + eapply t_ewait; eauto. destruct Hc as [[-> ->]|[-> ->]]; [left|right]; auto. by rewrite <- Hd.
    + destruct Hc as [[-> ->]|[-> ->]]; [done|]. eapply t_ewoken; eauto.
Qed.

Lemma step_t s l s' e : step s l = Some (s', e) -> tstep s l s' e.
Proof.
  destruct l as [p i| | |c b|i b k|i b k|i|i|]; simpl.
  - intros [= <- <-]. constructor.
  - intros [= <- <-]. constructor.
  - unfold no_join. destruct (jn s) eqn:J; try done. case_match eqn:E; intros [= <- <-].
    + by constructor.
    + apply Nat.eqb_neq in E. by constructor.
  - unfold call. destruct (calls s !! c) as [x|] eqn:C; [|done]. destruct x as [t p i n|t p i|i|n|n l|n].
    + destruct b.
      * case_match eqn:E; intros [= <- <-]; [apply Nat.eqb_eq in E|apply Nat.eqb_neq in E].
        -- eapply t_trylast; eauto.
        -- eapply t_tryfail; eauto.
      * unfold do_push. destruct (qs s !! _) as [q|] eqn:Q; intros [= <- <-].
        -- apply (t_push s c false t p i n _ ((i + n) mod ncount s) q C); auto.
        -- apply t_ub_c. exists t, p, i, n. auto.
    + unfold do_push. destruct (qs s !! _) as [q|] eqn:Q; intros [= <- <-].
      * apply (t_push s c b t p i 0 _ (i mod ncount s) q C); auto.
      * apply t_ub_c. exists t, p, i, 0. auto.
    + case_match eqn:E; intros [= <- <-]; [apply Nat.ltb_lt in E|apply Nat.ltb_ge in E].
      * assert (calls (notify_w i s) = calls s) as -> by (unfold notify_w; repeat case_match; done). eapply t_notify; eauto.
      * apply t_ub_c. exists 0, 0, 0, i. auto 6.
    + case_match eqn:E; [apply Nat.eqb_eq in E|apply Nat.eqb_neq in E].
      * intros [= <- <-]. eapply t_wakeqend; eauto.
      * destruct (qs s !! n) as [q|] eqn:Q; [|intros [= <- <-]; apply t_ub_c; exists 0, 0, 0, n; eauto 8].
        destruct (b || negb (waiting q)) eqn:W; intros [= <- <-].
        -- eapply t_wakeqno; eauto. by eapply lookup_lt_Some.
        -- eapply t_wakeq; eauto. apply orb_false_iff in W as [_ W]. by destruct (waiting q).
    + case_match eqn:E; [apply Nat.eqb_eq in E; subst|apply Nat.eqb_neq in E].
      * intros [= <- <-]. eapply t_wakewend; eauto.
      * destruct (wt s !! n) as [q|] eqn:Q; [|intros [= <- <-]; apply t_ub_c; exists 0, 0, l, n; eauto 8].
        destruct (b || negb (w_waiting q)) eqn:W; intros [= <- <-].
        -- eapply t_wakewno; eauto. by eapply lookup_lt_Some.
        -- eapply t_wakew; eauto. apply orb_false_iff in W as [_ W]. by destruct (w_waiting q).
    + intros [= <- <-]. assert (calls (notify_e n s) = calls s) as -> by (unfold notify_e; repeat case_match; done). eapply t_notifyw; eauto.
  - unfold worker. destruct (ws s !! i) as [[n| |[]|t|]|] eqn:C; try done.
    + destruct (qs s !! _) as [q|] eqn:Q; [|intros [= <- <-]; apply t_ub_w; eauto].
      destruct (b || is_empty q).
      * case_match eqn:E; intros [= <- <-]; [apply Nat.eqb_eq in E|apply Nat.eqb_neq in E].
        -- eapply t_looplast; eauto.
        -- eapply t_loop; eauto.
      * destruct (pop_at k q) as [[t q']|] eqn:P; [|done]. intros [= <- <-]. eapply t_looppop; eauto.
    + destruct (qs s !! _) as [q|] eqn:Q; [|intros [= <- <-]; apply t_ub_w; eauto]. eapply eval_t; eauto.
    + destruct (qs s !! _) as [q|] eqn:Q; [|intros [= <- <-]; apply t_ub_w; eauto]. eapply eval_t; eauto.
    + intros [= <- <-]. eapply t_end; eauto.
  - unfold expand. destruct (es s !! i) as [[n| |[]|t|]|] eqn:C; try done.
    + destruct (qs s !! _) as [q|] eqn:Q; [|intros [= <- <-]; apply t_ub_e; eauto].
      destruct (b || is_empty q).
      * case_match eqn:E; intros [= <- <-]; [apply Nat.eqb_eq in E|apply Nat.eqb_neq in E].
        -- eapply t_elooplast; eauto.
        -- eapply t_eloop; eauto.
      * destruct (pop_at k q) as [[t q']|] eqn:P; [|done]. intros [= <- <-]. eapply t_elooppop; eauto.
    + destruct (wt s !! _) as [q|] eqn:Q; [|intros [= <- <-]; apply t_ub_e; eauto]. eapply wait_t; eauto.
    + destruct (wt s !! _) as [q|] eqn:Q; [|intros [= <- <-]; apply t_ub_e; eauto]. eapply wait_t; eauto.
    + intros [= <- <-]. eapply t_eend; eauto.
  - destruct (ws s !! i) as [[]|] eqn:C; try done. intros [= <- <-]. eapply t_spur; eauto.
  - destruct (es s !! i) as [[]|] eqn:C; try done. intros [= <- <-]. eapply t_espur; eauto.
  - unfold join. destruct (jn s) as [|k|k|k|k|k|] eqn:J; try done.
    + intros [= <- <-]. by constructor.
    + destruct (qs s !! k) eqn:Q; intros [= <- <-]; [eapply t_jdone|eapply t_jdoneend]; eauto.
    + intros [= <- <-]. by constructor.
    + destruct (wt s !! k) eqn:Q; intros [= <- <-]; [eapply t_jwdone|eapply t_jwdoneend]; eauto.
    + intros [= <- <-]. by constructor.
    + case_match eqn:E; [apply Nat.ltb_lt in E|apply Nat.ltb_ge in E].
      * destruct (ws s !! k) as [[]|] eqn:W; try done. intros [= <- <-]. by constructor.
      * destruct (es s !! _) as [[]|] eqn:W; try done; intros [= <- <-]; [by constructor|eapply t_jclear; eauto].
Qed.
