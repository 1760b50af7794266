(** C83, C84: chains of nodes of any type. [chain h a l b]: [a, b) is a valid range of the nodes l. *)
From stdpp Require Import gmap list.
From Verif.Nodes Require Import Model Spec Proof.

(** ** C83 *)
(** splice_node_range puts the nodes from first to last (included) behind location, whatever they were linked to before; no other successor changes. *)
Theorem C83_splice h a l1 location l2 b first m last z :
  chain h a (l1 ++ location :: l2) b -> chain h first (m ++ [last]) z -> NoDup ((l1 ++ location :: l2) ++ m ++ [last]) ->
  exists h', splice_node_range set_next location first last h = Some h' /\ chain h' a (l1 ++ location :: (m ++ [last]) ++ l2) b /\
    forall x, x <> location -> x <> last -> nxt h' !! x = nxt h !! x.
Proof. exact (splice_ok set_next h a l1 location l2 b first m last z sets1). Qed.
(** the same for nodes with links in both directions *)
Theorem C83_splice_both h p a l1 location l2 b q first m last z :
  chain2 h p a (l1 ++ location :: l2) b -> chain2 h q first (m ++ [last]) z -> NoDup (((l1 ++ location :: l2) ++ [b]) ++ m ++ [last]) ->
  exists h', splice_node_range set_next2 location first last h = Some h' /\ chain2 h' p a (l1 ++ location :: (m ++ [last]) ++ l2) b.
Proof. exact (splice2_ok h p a l1 location l2 b q first m last z). Qed.
(** skip_next_node takes out the node behind location, *)
Theorem C83_skip_next h a l1 location x l2 b : chain h a (l1 ++ location :: x :: l2) b -> NoDup (l1 ++ location :: x :: l2) ->
  exists h', skip_next_node set_next location h = Some h' /\ chain h' a (l1 ++ location :: l2) b /\ forall y, y <> location -> nxt h' !! y = nxt h !! y.
Proof. exact (skip_next_ok set_next h a l1 location x l2 b sets1). Qed.
(** skip_node the node itself; if it was the first one, the node before it leads to what is the first one now. *)
Theorem C83_skip h p a l1 x l2 b : chain2 h p a (l1 ++ x :: l2) b -> NoDup (p :: (l1 ++ x :: l2) ++ [b]) ->
  exists h', skip_node x h = Some h' /\ chain2 h' p (match l1 ++ l2 ++ [b] with y :: _ => y | [] => b end) (l1 ++ l2) b /\
    (l1 = [] -> nxt h' !! p = Some (match l2 with y :: _ => y | [] => b end)).
Proof. exact (skip_ok h p a l1 x l2 b). Qed.
(** 0 - 1 - 2 - 3 - 9 and 4 - 5 - 6 - 8 *)
Definition ex : links := Links {[0 := 1; 1 := 2; 2 := 3; 3 := 9; 4 := 5; 5 := 6; 6 := 8]} {[1 := 0; 2 := 1; 3 := 2; 9 := 3; 5 := 4; 6 := 5; 8 := 6]}.
Lemma ex_chain : chain2 ex 0 1 ([1] ++ 2 :: [3]) 9 /\ chain2 ex 4 5 ([5] ++ [6]) 8.
Proof. simpl. split; repeat (split; [reflexivity|]); eexists; (split; [reflexivity|]); repeat (split; [reflexivity|]); eexists; (split; [reflexivity|]); repeat (split; [reflexivity|]); try done. eexists. repeat split; reflexivity. Qed.
Example C83_ex : (exists h', splice_node_range set_next2 2 5 6 ex = Some h' /\ chain2 h' 0 1 [1; 2; 5; 6; 3] 9) /\ (exists h', skip_node 2 ex = Some h' /\ chain2 h' 0 1 [1; 3] 9).
Proof.
  destruct ex_chain as [E1 E2]. split.
  - apply (C83_splice_both ex 0 1 [1] 2 [3] 9 4 5 [5] 6 8 E1 E2). apply (bool_decide_unpack _). by vm_compute.
  - destruct (C83_skip ex 0 1 [1] 2 [3] 9 E1) as (h' & H1 & H2 & _); [apply (bool_decide_unpack _); by vm_compute|]. eauto.
Qed.
Example C83_ex1 : (exists h', splice_node_range set_next 2 5 6 ex = Some h' /\ chain h' 1 [1; 2; 5; 6; 3] 9) /\ (exists h', skip_next_node set_next 2 ex = Some h' /\ chain h' 1 [1; 2] 9).
Proof.
  destruct ex_chain as [E1 E2]. apply chain2_alt in E1 as (E1 & _). apply chain2_alt in E2 as (E2 & _). split.
  - destruct (C83_splice ex 1 [1] 2 [3] 9 5 [5] 6 8 E1 E2) as (h' & H1 & H2 & _); [apply (bool_decide_unpack _); by vm_compute|]. eauto.
  - destruct (C83_skip_next ex 1 [1] 2 3 [] 9 E1) as (h' & H1 & H2 & _); [apply (bool_decide_unpack _); by vm_compute|]. eauto.
Qed.

(** ** C84: reverse_append, reverse_nodes *)
(** No range with a node is reversed: the result is the empty range [end, end), and end is linked to itself. *)
Theorem C84_append_refuted h first l last end_ fuel : chain h first l last -> l <> [] -> last ∉ l -> end_ ∉ l -> length l <= fuel ->
  exists h', reverse_append set_next fuel first last end_ h = Done end_ h' /\ nxt h' = <[end_ := end_]> (nxt h).
Proof. exact (reverse_some h first l last end_ fuel). Qed.
Theorem C84_nodes_refuted h first l last fuel : chain h first l last -> l <> [] -> last ∉ l -> length l <= fuel ->
  exists h', reverse_nodes set_next fuel first last h = Done last h' /\ nxt h' = <[last := last]> (nxt h).
Proof. exact (fun C N L => reverse_some h first l last last fuel C N L L). Qed.
Example C84_ex : exists h', reverse_nodes set_next 3 1 9 ex = Done 9 h' /\ nxt h' = <[9 := 9]> (nxt ex).
Proof. apply (C84_nodes_refuted ex 1 [1; 2; 3] 9 3); [apply (chain2_alt ex [1; 2; 3] 0 1 9), ex_chain|done|apply (bool_decide_unpack _); by vm_compute|done]. Qed.

Print Assumptions C83_splice.
Print Assumptions C83_splice_both.
Print Assumptions C83_skip_next.
Print Assumptions C83_skip.
Print Assumptions C84_append_refuted.
Print Assumptions C84_nodes_refuted.
