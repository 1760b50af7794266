From Coq Require Import Lia.
From stdpp Require Import gmap list.
From Verif.Nodes Require Import Model Spec.

Lemma chain_app h l1 : forall a l2 b, chain h a (l1 ++ l2) b <-> exists m, chain h a l1 m /\ chain h m l2 b.
Proof.
  induction l1 as [|x l1 IH]; intros a l2 b; simpl.
  - split; [by exists a|]. intros (m & -> & H). done.
  - split.
    + intros (-> & y & Hy & H). apply IH in H as (m & H1 & H2). exists m. eauto.
    + intros (m & (-> & y & Hy & H1) & H2). split; [done|]. exists y. split; [done|]. apply IH. eauto.
Qed.
Lemma chain_same h h' l : (forall x, x ∈ l -> nxt h' !! x = nxt h !! x) -> forall a b, chain h a l b -> chain h' a l b.
Proof.
  induction l as [|x l IH]; intros E a b; simpl; [done|]. intros (-> & y & Hy & H). split; [done|]. exists y. split.
  - rewrite E; [done|left].
  - apply IH; [|done]. intros z Hz. apply E. by right.
Qed.
(** what a set_next does to the successors *)
Definition sets (set : nat -> nat -> links -> links) : Prop := forall x y h, nxt (set x y h) = <[x := y]> (nxt h).
Lemma sets1 : sets set_next. Proof. done. Qed.
Lemma sets2 : sets set_next2. Proof. done. Qed.

Lemma splice_ok set h a l1 loc l2 b first m last z : sets set ->
  chain h a (l1 ++ loc :: l2) b -> chain h first (m ++ [last]) z -> NoDup ((l1 ++ loc :: l2) ++ m ++ [last]) ->
  exists h', splice_node_range set loc first last h = Some h' /\ chain h' a (l1 ++ loc :: (m ++ [last]) ++ l2) b /\
    forall x, x <> loc -> x <> last -> nxt h' !! x = nxt h !! x.
Proof.
  intros St C1 C2 ND. apply chain_app in C1 as (c & C1 & -> & s & Hs & C3). apply chain_app in C2 as (d & C2 & -> & w & Hw & _).
  apply NoDup_app in ND as (N1 & N2 & N3). apply NoDup_app in N1 as (N4 & N5 & N6). apply NoDup_cons in N6 as [N6 N7]. apply NoDup_app in N3 as (N8 & N9 & _).
  assert (last <> loc) as Ne. { intros <-. apply (N2 last); [apply elem_of_app; right; left|apply elem_of_app; right; left]. }
  unfold splice_node_range. rewrite Hs. eexists. split; [done|].
  assert (forall x, x <> loc -> x <> last -> nxt (set last s (set loc first h)) !! x = nxt h !! x) as E.
  { intros x H1 H2. by rewrite !St, !lookup_insert_ne. }
  split; [|exact E]. apply chain_app. exists loc. split.
  - eapply chain_same; [|exact C1]. intros x Hx. apply E; intros ->; [by apply (N5 loc Hx); left|]. apply (N2 last); [apply elem_of_app; by left|apply elem_of_app; right; left].
  - split; [done|]. exists first. split; [by rewrite !St, lookup_insert_ne, lookup_insert|]. apply chain_app. exists s. split.
    + apply chain_app. exists last. split; [|split; [done|]; exists s; split; [by rewrite St, lookup_insert|done]].
      eapply chain_same; [|exact C2]. intros x Hx. apply E; intros ->; [|apply (N9 last Hx); left].
      apply (N2 loc); [apply elem_of_app; right; left|apply elem_of_app; by left].
    + eapply chain_same; [|exact C3]. intros x Hx. apply E; intros ->; [done|]. apply (N2 last); [apply elem_of_app; right; by right|apply elem_of_app; right; left].
Qed.
Lemma skip_next_ok set h a l1 loc x l2 b : sets set -> chain h a (l1 ++ loc :: x :: l2) b -> NoDup (l1 ++ loc :: x :: l2) ->
  exists h', skip_next_node set loc h = Some h' /\ chain h' a (l1 ++ loc :: l2) b /\ forall y, y <> loc -> nxt h' !! y = nxt h !! y.
Proof.
  intros St C ND. apply chain_app in C as (c & C1 & -> & s & Hs & -> & y & Hy & C2). apply NoDup_app in ND as (N4 & N5 & N6). apply NoDup_cons in N6 as [N6 N7].
  unfold skip_next_node. rewrite Hs, Hy. eexists. split; [done|].
  assert (forall z, z <> loc -> nxt (set loc y h) !! z = nxt h !! z) as E by (intros z Hz; by rewrite St, lookup_insert_ne).
  split; [|exact E]. apply chain_app. exists loc. split.
  - eapply chain_same; [|exact C1]. intros z Hz. apply E. intros ->. apply (N5 loc Hz). left.
  - split; [done|]. exists y. split; [by rewrite St, lookup_insert|]. eapply chain_same; [|exact C2]. intros z Hz. apply E. intros ->. apply N6. by right.
Qed.
Lemma chain2_at h l1 : forall p a l2 b, chain2 h p a (l1 ++ l2) b -> exists q m, chain2 h p a l1 m /\ chain2 h q m l2 b /\ last (p :: l1) = Some q.
Proof.
  induction l1 as [|x l1 IH]; intros p a l2 b H; simpl in *.
  - exists p, a. split; [|done]. split; [|done]. destruct l2; by destruct H.
  - destruct H as (Hp & -> & y & Hy & H). apply IH in H as (q & m & H1 & H2 & H3). exists q, m. repeat split; eauto.
Qed.
Lemma chain2_join h l1 : forall p a l2 b q m, chain2 h p a l1 m -> chain2 h q m l2 b -> last (p :: l1) = Some q -> chain2 h p a (l1 ++ l2) b.
Proof.
  induction l1 as [|x l1 IH]; intros p a l2 b q m H1 H2 H3; simpl in *.
  - destruct H1 as [_ ->]. by injection H3 as ->.
  - destruct H1 as (Hp & -> & y & Hy & H). split; [done|]. split; [done|]. exists y. split; [done|]. by eapply IH.
Qed.
Lemma chain2_same h h' l : forall p a b, chain2 h p a l b -> (forall x, x ∈ l -> nxt h' !! x = nxt h !! x) -> prv h' !! a = prv h !! a -> (forall x, x ∈ tail l -> prv h' !! x = prv h !! x) ->
  (l <> [] -> prv h' !! b = prv h !! b) -> chain2 h' p a l b.
Proof.
  induction l as [|x l IH]; intros p a b; simpl.
  - intros [Hp ->] _ E _ _. by rewrite E.
  - intros (Hp & -> & y & Hy & H) E1 E2 E3 E4. split; [by rewrite E2|]. split; [done|]. exists y. split; [rewrite E1; [done|left]|].
    apply IH; [done|intros z Hz; apply E1; by right| | |auto].
    + destruct l as [|w l]; simpl in H.
      * destruct H as [_ ->]. by apply E4.
      * destruct H as (_ & -> & _). apply E3. left.
    + intros z Hz. apply E3. destruct l; [by apply elem_of_nil in Hz|by right].
Qed.
(** p, l1, x, l2 and then b: x is taken out *)
Lemma skip_ok h p a l1 x l2 b : chain2 h p a (l1 ++ x :: l2) b -> NoDup (p :: (l1 ++ x :: l2) ++ [b]) -> 
  exists h', skip_node x h = Some h' /\ chain2 h' p (match l1 ++ l2 ++ [b] with y :: _ => y | [] => b end) (l1 ++ l2) b /\
    (l1 = [] -> nxt h' !! p = Some (match l2 with y :: _ => y | [] => b end)).
Proof.
  intros C ND. apply chain2_at in C as (q & m & C1 & (Hq & -> & s & Hs & C2) & L). unfold skip_node. rewrite Hq, Hs. eexists. split; [done|].
  assert (s = match l2 with y :: _ => y | [] => b end) as Es. { destruct l2; simpl in C2; [by destruct C2|by destruct C2 as (_ & -> & _)]. }
  assert (q ∈ p :: l1) as Qin. { apply last_Some_elem_of in L. done. }
  rewrite <- app_assoc in ND. change (NoDup ((p :: l1) ++ (x :: l2) ++ [b])) in ND. apply NoDup_app in ND as (N1 & N2 & N3). simpl in N3. apply NoDup_cons in N3 as [N3 N4].
  assert (chain2 (set_next2 q s h) q s l2 b) as C2'.
  { assert (s ∈ l2 ++ [b]) as Si. { rewrite Es. destruct l2; left. }
    assert (forall z, z ∈ l2 -> nxt (set_next2 q s h) !! z = nxt h !! z) as E1.
    { intros z Hz. simpl. rewrite lookup_insert_ne; [done|]. intros ->. apply (N2 z Qin). right. apply elem_of_app. by left. }
    destruct l2 as [|y l2]; simpl in C2 |- *.
    - destruct C2 as [_ ->]. split; [by rewrite lookup_insert|done].
    - destruct C2 as (_ & -> & w & Hw & C2). split; [by rewrite lookup_insert|]. split; [done|]. exists w.
      apply NoDup_cons in N4 as [N4 N5]. split; [rewrite lookup_insert_ne; [done|]; intros ->; apply (N2 y Qin); right; left|].
      eapply chain2_same; [exact C2|intros z Hz; apply E1; by right| | |].
      + simpl. rewrite lookup_insert_ne; [done|]. intros <-. destruct l2 as [|w l2]; simpl in C2; [destruct C2 as [_ ->]; apply N4; left|destruct C2 as (_ & -> & _); apply N4; left].
      + intros z Hz. simpl. rewrite lookup_insert_ne; [done|]. intros ->. apply N4. apply elem_of_app. left. destruct l2; [by apply elem_of_nil in Hz|by right].
      + intros _. simpl. rewrite lookup_insert_ne; [done|]. intros ->. apply N4. apply elem_of_app. right. left. }
  split; [|intros ->; simpl in L; injection L as ->; rewrite <- Es; simpl; by rewrite lookup_insert].
  destruct l1 as [|y l1].
  - simpl in L. injection L as ->. simpl. assert (match l2 ++ [b] with | [] => b | y :: _ => y end = s) as -> by (rewrite Es; by destruct l2). done.
  - simpl app. cbv match. assert (a = y) as -> by (simpl in C1; by destruct C1 as (_ & -> & _)).
    (* the link of the last node of l1 changes *)
    assert (exists l1', y :: l1 = l1' ++ [q]) as [l1' E1]. { simpl in L. apply last_Some in L as [l' L]. by exists l'. }
    change (chain2 (set_next2 q s h) p y ((y :: l1) ++ l2) b). rewrite E1 in *. rewrite <- app_assoc. apply chain2_at in C1 as (q' & m & C3 & (Hq' & -> & w & Hw & _) & L').
    assert (forall z, z ∈ l1' -> z <> q) as Nq. { intros z Hz ->. change (NoDup ([p] ++ l1' ++ [q])) in N1. apply NoDup_app in N1 as (_ & _ & N1). apply NoDup_app in N1 as (_ & N1 & _). apply (N1 q Hz). left. }
    assert (forall z, z ∈ l1' ++ [q] -> z <> s) as Ns.
    { intros z Hz ->. apply (N2 s); [by right|]. right. rewrite Es. destruct l2; left. }
    assert (y ∈ l1' ++ [q]) as Yi by (rewrite <- E1; left).
    eapply (chain2_join _ l1' p y ([q] ++ l2) b q' q); [| |done].
    + eapply chain2_same; [exact C3| | | |].
      * intros z Hz. simpl. rewrite lookup_insert_ne; [done|]. intros <-. by apply (Nq q).
      * simpl. rewrite lookup_insert_ne; [done|]. intros <-. by apply (Ns s).
      * intros z Hz. simpl. rewrite lookup_insert_ne; [done|]. intros <-. apply (Ns s); [|done]. apply elem_of_app. left. destruct l1'; [by apply elem_of_nil in Hz|by right].
      * intros _. simpl. rewrite lookup_insert_ne; [done|]. intros <-. apply (Ns s); [|done]. apply elem_of_app. right. left.
    + simpl. split; [rewrite lookup_insert_ne; [done|]; intros <-; apply (Ns s); [|done]; apply elem_of_app; right; left|]. split; [done|]. exists s. split; [by rewrite lookup_insert|]. exact C2'.
Qed.
Lemma reverse_none set h first l last end_ fuel : sets set -> chain h first l last -> last ∉ l -> end_ ∉ l -> length l <= fuel ->
  exists h', reverse_append set fuel first last end_ h = Done end_ h' /\ nxt h' = if decide (l = []) then nxt h else <[end_ := end_]> (nxt h).
Proof.
  intros St. revert h first l. induction fuel as [|fuel IH]; intros h first l C Nl Ne L.
  - destruct l; [|simpl in L; lia]. simpl in C. subst. simpl. rewrite decide_True by done. by exists h.
  - destruct l as [|x l]; simpl in C.
    + subst. simpl. rewrite decide_True by done. by exists h.
    + destruct C as (-> & y & Hy & C). rewrite not_elem_of_cons in Nl, Ne. destruct Nl as [N1 N2], Ne as [N3 N4]. simpl. rewrite decide_False by done. rewrite Hy.
      destruct (IH (set end_ end_ h) y l) as (h' & H1 & H2); [|done|done|simpl in L; lia|].
      * eapply chain_same; [|exact C]. intros z Hz. rewrite St, lookup_insert_ne; [done|]. by intros ->.
      * exists h'. split; [done|]. rewrite H2, St. destruct (decide (l = [])); [done|]. by rewrite insert_insert.
Qed.
(** ** bidirectional nodes *)
Lemma chain2_alt h l : forall p a b, chain2 h p a l b <-> chain h a l b /\ prv h !! a = Some p /\ forall x y, x ∈ l -> nxt h !! x = Some y -> prv h !! y = Some x.
Proof.
  induction l as [|x l IH]; intros p a b; simpl.
  - split; [intros [H ->]; repeat split; try done; intros x y Hx; by apply elem_of_nil in Hx|by intros (-> & H & _)].
  - split.
    + intros (Hp & -> & y & Hy & H). apply IH in H as (C & P & H). repeat split; eauto. intros z w [->|Hz]%elem_of_cons Hw; [|by apply H]. assert (w = y) as -> by congruence. done.
    + intros ((-> & y & Hy & C) & Hp & H). split; [done|]. split; [done|]. exists y. split; [done|]. apply IH. split; [done|]. split; [apply H; [left|done]|]. intros z w Hz. apply H. by right.
Qed.
Lemma chain_next h l : forall a b x y, chain h a l b -> x ∈ l -> nxt h !! x = Some y -> y ∈ tail l ++ [b].
Proof.
  induction l as [|c l IH]; intros a b x y C Hx Hy; [by apply elem_of_nil in Hx|]. simpl in C |- *. destruct C as (-> & z & Hz & C). apply elem_of_cons in Hx as [->|Hx].
  - assert (z = y) as -> by congruence. destruct l as [|d l]; simpl in C; [subst; left|destruct C as (-> & _); left].
  - specialize (IH _ _ _ _ C Hx Hy). destruct l as [|d l]; [by apply elem_of_nil in Hx|]. simpl in *. by right.
Qed.
Lemma chain_first h l a b : chain h a l b -> exists r, l ++ [b] = a :: r.
Proof. destruct l as [|x l]; simpl; [intros ->; by exists []|]. intros (-> & _). eauto. Qed.
Lemma splice2_ok h p a l1 loc l2 b q first m last z : chain2 h p a (l1 ++ loc :: l2) b -> chain2 h q first (m ++ [last]) z ->
  NoDup (((l1 ++ loc :: l2) ++ [b]) ++ m ++ [last]) ->
  exists h', splice_node_range set_next2 loc first last h = Some h' /\ chain2 h' p a (l1 ++ loc :: (m ++ [last]) ++ l2) b.
Proof.
  intros C1 C2 ND. apply chain2_alt in C1 as (C1 & P1 & L1). apply chain2_alt in C2 as (C2 & P2 & L2).
  assert (NoDup ((l1 ++ loc :: l2) ++ m ++ [last])) as ND'.
  { rewrite <- !app_assoc in ND. rewrite <- app_assoc. apply NoDup_app in ND as (N1 & N2 & N3). apply NoDup_app. split; [done|]. simpl in *. apply NoDup_cons in N3 as [N3 N4]. apply NoDup_app in N4 as (N5 & N6 & N7). apply NoDup_cons in N7 as [N7 N8]. split.
    - intros x Hx Hi. apply (N2 x Hx). apply elem_of_cons in Hi as [->|Hi]; [left|]. right. apply elem_of_app in Hi as [Hi|Hi]; apply elem_of_app; [by left|]. right. by right.
    - apply NoDup_cons. split; [|apply NoDup_app; split; [done|]; split; [|done]].
      + intros Hi. apply N3. apply elem_of_app in Hi as [Hi|Hi]; apply elem_of_app; [by left|]. right. by right.
      + intros x Hx Hi. apply (N6 x Hx). by right. }
  destruct (splice_ok set_next2 h a l1 loc l2 b first m last z sets2 C1 C2 ND') as (h' & H1 & H2 & H3). exists h'. split; [done|]. apply chain2_alt. split; [done|].
  apply chain_app in C1 as C1'. destruct C1' as (c & _ & -> & s & Hs & C3). unfold splice_node_range in H1. rewrite Hs in H1. injection H1 as <-.
  set (A := (l1 ++ loc :: l2) ++ [b]) in *. apply NoDup_app in ND as (N1 & N2 & N3).
  apply chain_first in C1 as Fa. destruct Fa as [ra Fa]. apply chain_first in C2 as Ff. destruct Ff as [rf Ff].
  assert (first ∈ m ++ [last]) as Fi. { destruct m as [|f0 m]; simpl in Ff; injection Ff as -> _; left. }
  assert (exists rs, l2 ++ [b] = s :: rs) as [rs Fs] by by eapply chain_first.
  assert (s ∈ l2 ++ [b]) as Si0 by (rewrite Fs; left).
  assert (s ∈ A) as Si. { unfold A. rewrite <- app_assoc. apply elem_of_app. right. simpl. by right. }
  assert (last ∈ m ++ [last]) as Li by (apply elem_of_app; right; left). assert (loc ∈ A) as Lo. { unfold A. rewrite <- app_assoc. apply elem_of_app. right. left. }
  assert (first <> s) as Nfs. { intros <-. by apply (N2 first). } assert (last <> loc) as Nl. { intros <-. by apply (N2 last). }
  assert (tail A = ra) as Ta. { fold A in Fa. by rewrite Fa. } fold A in Fa.
  split.
  - simpl. rewrite lookup_insert_ne; [rewrite lookup_insert_ne; [done|]|].
    + intros ->. apply (N2 a); [rewrite Fa; left|done].
    + intros ->. assert (l1 = []) as ->.
      { destruct l1 as [|x l1]; [done|]. exfalso. unfold A in Fa, N1. simpl in Fa. injection Fa as -> _. simpl in N1. apply NoDup_cons in N1 as [N1 _]. apply N1. rewrite <- app_assoc. apply elem_of_app. right. right. done. }
      unfold A in Fa, N1. simpl in Fa, N1. injection Fa as -> _. by apply NoDup_cons in N1 as [N1 _].
  - intros x y Hx Hy. destruct (decide (x = last)) as [->|N]; [simpl in Hy; rewrite lookup_insert in Hy; injection Hy as <-; simpl; by rewrite lookup_insert|].
    simpl in Hy. rewrite lookup_insert_ne in Hy by done. destruct (decide (x = loc)) as [->|N'].
    { rewrite lookup_insert in Hy. injection Hy as <-. simpl. by rewrite lookup_insert_ne, lookup_insert. }
    rewrite lookup_insert_ne in Hy by done. simpl.
    assert (x ∈ l1 ++ loc :: l2 \/ x ∈ m ++ [last]) as [Hi|Hi].
    { apply elem_of_app in Hx as [Hx|Hx]; [left; apply elem_of_app; by left|]. apply elem_of_cons in Hx as [->|Hx]; [done|]. apply elem_of_app in Hx as [Hx|Hx]; [by right|left; apply elem_of_app; right; by right]. }
    + pose proof (L1 x y Hi Hy) as Py. rewrite lookup_insert_ne; [rewrite lookup_insert_ne; [done|]|].
      * intros <-. pose proof (chain_next h _ a b x first C1 Hi Hy) as T. apply (N2 first); [|done]. unfold A. apply elem_of_app. apply elem_of_app in T as [T|T]; [left|by right]. destruct (l1 ++ loc :: l2); [by apply elem_of_nil in T|by right].
      * intros <-. assert (prv h !! s = Some loc) by (apply L1; [apply elem_of_app; right; left|done]). congruence.
    + pose proof (L2 x y Hi Hy) as Py. rewrite lookup_insert_ne; [rewrite lookup_insert_ne; [done|]|].
      * intros <-. pose proof (chain_next h _ first z x first C2 Hi Hy) as T. apply elem_of_app in T as [T|T].
        -- destruct m as [|f0 m]; simpl in *; [by apply elem_of_nil in T|]. injection Ff as -> _. apply NoDup_cons in N3 as [N3 _]. done.
        -- apply elem_of_list_singleton in T. subst z. assert (x = last) as ->; [|done].
           (* the last node of the range is the only one that may lead outside *)
           destruct (chain_app h m first [last] first) as [X _]. apply X in C2 as (d & C4 & -> & w & Hw & ->). apply elem_of_app in Hi as [Hi|Hi]; [|by apply elem_of_list_singleton in Hi].
           pose proof (chain_next h m first last x first C4 Hi Hy) as T. exfalso. destruct m as [|f0 m]; [by apply elem_of_nil in Hi|]. simpl in *. injection Ff as -> _. apply NoDup_cons in N3 as [N3 _]. by apply N3.
      * intros <-. assert (prv h !! s = Some loc) as E by (apply L1; [apply elem_of_app; right; left|done]). assert (x = loc) by congruence. done.
Qed.
Lemma reverse_some h first l last end_ fuel : chain h first l last -> l <> [] -> last ∉ l -> end_ ∉ l -> length l <= fuel ->
  exists h', reverse_append set_next fuel first last end_ h = Done end_ h' /\ nxt h' = <[end_ := end_]> (nxt h).
Proof.
  intros C N L E F. destruct (reverse_none set_next h first l last end_ fuel sets1 C L E F) as (h' & H1 & H2). rewrite decide_False in H2 by done. eauto.
Qed.
