(** Properties of a process whose results cannot be copied: C68. *)
From Coq Require Import List Bool Arith Lia.
From stdpp Require Import list.
From Verif.Lone Require Import Model Spec Inv Trace Final.

Definition ends_in (r : option (st * list event)) (f : st -> list event -> Prop) : Prop :=
  match r with Some (s, tr) => f s tr | None => False end.

(** ** runs that meet the hypotheses: one message from its sending to the answer of downstream *)
Definition deal (o : outcome) : list label := [LJob 0; LRet 0 o; LJob 0; LJob 0; LJob 0; LJob 0; LJob 0; LCts 0; LJob 0; LJob 0].
Definition ex_full : list label := [LMap; LSend 1; LSend 2; LReady; LPend 0] ++ deal (Value 10) ++ deal (Error 7) ++ [LDropS; LPend 0; LJob 0; LJob 0; LJob 0].
Example ex_full_run : ends_in (run init ex_full) (fun s tr => rest s /\ is_ready s /\ attached tr = [0] /\
  sent tr = [1; 2] /\ began tr = [1; 2] /\ results tr = [Value 10; Error 7] /\ delivered tr = [(0, Value 10); (0, Error 7)] /\ closed tr = [0] /\ dropped tr = [tt]).
Proof. by vm_compute. Qed.
(** nothing attached *)
Definition ex_alone : list label := [LSend 1; LSend 2; LReady; LPend 0; LJob 0; LRet 0 (Value 10); LJob 0; LJob 0; LJob 0; LJob 0; LJob 0; LDropS; LPend 0].
Example ex_alone_run : ends_in (run init ex_alone) (fun s tr => rest s /\ is_ready s /\ attached tr = [] /\ sent tr = [1; 2] /\ began tr = [1] /\ dropped tr = [tt]).
Proof. by vm_compute. Qed.
(** two attached *)
Definition ex_two : list label := [LMap; LMap; LSend 1; LReady; LPend 0] ++ deal (Value 10).

(** ** C68: messages are dealt with in order, one at a time; the results go to the one process that is attached, in order, and it
    learns when no more will come; but of several attached only the last gets anything, and with none attached all but the first
    message is left behind *)
Theorem C68_order ls s tr : run init ls = Some (s, tr) -> began tr `prefix_of` sent tr /\ length (results tr) <= length (began tr) <= S (length (results tr)).
Proof. exact (fun R => conj (in_order ls s tr R) (one_at_a_time ls s tr R)). Qed.
Theorem C68_delivered ls s tr : run init ls = Some (s, tr) ->
  map snd (delivered tr) `prefix_of` results tr /\ Forall (fun p => last (attached tr) = Some (fst p)) (delivered tr).
Proof. exact (to_last ls s tr). Qed.
Theorem C68_close ls s tr : run init ls = Some (s, tr) -> attached tr <> [] -> last (attached tr) = last (closed tr) ->
  closed tr = attached tr /\ began tr = sent tr /\ map snd (delivered tr) = results tr /\ length (results tr) = length (sent tr) /\ dropped tr = [tt].
Proof. exact (closed_after ls s tr). Qed.
(** missing: with nothing attached; refuted below *)
Theorem C68_all_partial ls s tr : run init ls = Some (s, tr) -> rest s -> is_ready s -> attached tr <> [] ->
  began tr = sent tr /\ map snd (delivered tr) = results tr /\ length (results tr) = length (sent tr) /\ (dropped tr <> [] -> closed tr = attached tr).
Proof. exact (all_done ls s tr). Qed.
Theorem C68_ends ls s tr : run init ls = Some (s, tr) -> Acc (fun s' s => exists l ev, inner l = true /\ step s l = Some (s', ev)) s.
Proof. exact (ends ls s tr). Qed.
Theorem C68_rest s : rest s <-> forall l, inner l = true -> step s l = None.
Proof. exact (rest_iff s). Qed.
(** with nothing attached no more than one message is ever dealt with, whatever happens afterwards *)
Theorem C68_alone ls s tr ls' s' tr' : run init ls = Some (s, tr) -> is_ready s -> attached tr = [] -> run s ls' = Some (s', tr') ->
  length (began (tr ++ tr')) <= 1 /\ delivered (tr ++ tr') = [].
Proof. exact (alone ls s tr ls' s' tr'). Qed.
Theorem C68_alone_refuted : exists ls s tr, run init ls = Some (s, tr) /\ rest s /\ is_ready s /\ dropped tr <> [] /\ began tr <> sent tr.
Proof. eexists ex_alone, _, _. split; [vm_compute; reflexivity|]. split_and!; done. Qed.
Theorem C68_second_refuted : exists ls s tr d, run init ls = Some (s, tr) /\ rest s /\ is_ready s /\ In d (attached tr) /\ results tr = [Value 10] /\ dropped tr = [] /\
  closed tr = [d] /\ delivered tr = [(1, Value 10)] /\ d <> 1.
Proof. eexists ex_two, _, _, 0. split; [vm_compute; reflexivity|]. split_and!; try done. by left. Qed.
Print Assumptions C68_order.
Print Assumptions C68_delivered.
Print Assumptions C68_close.
Print Assumptions C68_all_partial.
Print Assumptions C68_ends.
Print Assumptions C68_rest.
Print Assumptions C68_alone.
Print Assumptions C68_alone_refuted.
Print Assumptions C68_second_refuted.
