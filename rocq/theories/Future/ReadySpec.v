(** What C78 says. *)
From Coq Require Import List Bool.
From stdpp Require Import list.
From Verif.Future Require Import Model.

(** [c] is a new shared state, resolved with [o], and the thread has a future of it; nothing else has changed *)
Definition makes (s s' : st) (c : nat) (o : outcome) : Prop :=
  cs s !! c = None /\ (forall d, d <> c -> cs s' !! d = cs s !! d) /\ rs s' = rs s ++ [Fut c] /\
  (forall mv, exists s2, step s' (L (length (rs s)) (AGet mv)) = Some (s2, [Got c (Some o)])).
(** a continuation attached to it is handed to its executor by the thread that attaches it *)
Definition hands_over (s' : st) (c : nat) : Prop :=
  exists s2 d i tr, run s' [LThen c []; L i AStep] = Some (s2, tr) /\ cs s' !! d = None /\ tr = [New d (Then c); Handed d].
