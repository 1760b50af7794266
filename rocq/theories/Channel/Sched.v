(** A scheduler for the examples: after each operation of the client, pending critical sections and jobs are executed, oldest
    first, until there are none; functions return or throw their first argument. Steps of the model only, no model of its own. *)
From Coq Require Import List Bool.
From stdpp Require Import list.
From Verif.Channel Require Import Queue Model Spec Exact InvRun.

Definition next (s : st) : option label :=
  match pends s, jobs s with
  | _ :: _, _ => Some (LPend 0)
  | [], [] => None
  | [], (_, JInvoke (m :: _)) :: _ => Some (LRet 0 m)
  | [], _ => Some (LJob 0)
  end.
Fixpoint settle (k : nat) (s : st) : list label :=
  match k with
  | 0 => []
  | S k => match next s with
           | None => []
           | Some l => l :: match step s l with Some (s', _) => settle k s' | None => [] end
           end
  end.
Fixpoint plan (cs : list label) (s : st) : list label :=
  match cs with
  | [] => []
  | c :: cs => c :: match step s c with
                    | Some (s1, _) => let a := settle 500 s1 in a ++ match run s1 a with Some (s2, _) => plan cs s2 | None => [] end
                    | None => []
                    end
  end.

(** The hypotheses of the properties, decided. *)
Definition buf1b (l : label) : bool := match l with LPipe _ _ b => b =? 1 | _ => true end.
Definition restb (s : st) : bool := match jobs s, pends s with [], [] => true | _, _ => false end.
Definition readyb (s : st) : bool := forallb (fun h => snd h || match nodes s !! fst h with Some n => rvoid n | None => true end) (rcv_h s).
Definition unrefusedb (tr : list event) : bool := forallb (fun e => match e with Refused _ _ => false | _ => true end) tr.
Fixpoint lateb (cl : list nat) (tr : list event) : bool :=
  match tr with
  | [] => true
  | Closed i :: tr => lateb (i :: cl) tr
  | Attached i _ _ :: tr => negb (existsb (Nat.eqb i) cl) && lateb cl tr
  | _ :: tr => lateb cl tr
  end.
Definition usual (ls : list label) : bool :=
  forallb buf1b ls && tidy_run init ls &&
  match run init ls with
  | Some (s, tr) => restb s && match dead s with [] => true | _ => false end && readyb s && unrefusedb tr && lateb [] tr
  | None => false
  end.
Lemma lateb_ok tr : forall cl, lateb cl tr = true -> no_late tr /\ forall i d p, i ∈ cl -> Attached i d p ∉ tr.
Proof.
  induction tr as [|e tr IH]; intros cl H.
  - split; [by intros i d p [|? ?] t2|]. intros i d p _ X. by apply elem_of_nil in X.
  - assert (forall cl', lateb cl' tr = true -> (forall i, i ∈ cl -> i ∈ cl') -> (forall i, e = Closed i -> i ∈ cl') -> (forall i d p, e = Attached i d p -> i ∉ cl) ->
      no_late (e :: tr) /\ forall i d p, i ∈ cl -> Attached i d p ∉ e :: tr) as X.
    { intros cl' L S C A. destruct (IH cl' L) as [N F]. split.
      - intros i d p t1 t2 E X. destruct t1 as [|x t1]; injection E as -> ->; [by apply (F i d p); [apply C|]|]. by apply (N i d p t1 t2).
      - intros i d p Hi [X|X]%elem_of_cons; [by apply (A i d p)|]. by apply (F i d p (S i Hi)). }
    destruct e; simpl in H; try (apply (X cl H); try done; intros; congruence).
    + apply andb_true_iff in H as [H1 H2]. apply (X cl H2); try done. intros i' d' p' [= <- <- <-] Y. apply negb_true_iff in H1.
      assert (existsb (Nat.eqb i) cl = true); [|congruence]. apply existsb_exists. exists i. split; [by apply elem_of_list_In|]. apply PeanoNat.Nat.eqb_refl.
    + apply (X (i :: cl) H); try done; intros; try congruence; [by right|]. injection H0 as <-. left.
Qed.
Lemma usual_ok ls : usual ls = true -> exists s tr, Forall buf1 ls /\ run init ls = Some (s, tr) /\ tidy_run init ls = true /\ at_rest s /\ dead s = [] /\ all_ready s /\
  (forall i, ~ refused i tr) /\ no_late tr.
Proof.
  unfold usual. intros H. apply andb_true_iff in H as [H R]. apply andb_true_iff in H as [Bu T]. destruct (run init ls) as [[s tr]|]; [|done]. exists s, tr.
  apply andb_true_iff in R as [R L]. apply andb_true_iff in R as [R U]. apply andb_true_iff in R as [R Rd]. apply andb_true_iff in R as [R D].
  split. { apply Forall_forall. intros l Hl. rewrite forallb_forall in Bu. specialize (Bu l (proj1 (elem_of_list_In _ _) Hl)). destruct l; simpl in *; try done. by apply PeanoNat.Nat.eqb_eq. }
  split; [done|]. split; [done|]. split; [unfold restb in R; unfold at_rest; by destruct (jobs s), (pends s)|]. split; [by destruct (dead s)|]. split.
  { intros i n b Hn V Hb. unfold readyb in Rd. rewrite forallb_forall in Rd. specialize (Rd _ (proj1 (elem_of_list_In _ _) Hb)). simpl in Rd. rewrite Hn, V in Rd. by rewrite orb_false_r in Rd. }
  split. { intros i [ms X]. unfold unrefusedb in U. rewrite forallb_forall in U. by specialize (U _ (proj1 (elem_of_list_In _ _) X)). }
  by apply (lateb_ok tr []).
Qed.
