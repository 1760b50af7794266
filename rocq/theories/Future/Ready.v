(** Model of make_ready_future and make_exceptional_future: /repo/include/stlab/concurrency/ready_future.hpp:27-70, as the
    steps of Verif.Future.Model that the calling thread performs, when no other thread does anything in between. (The
    executor is that of the continuations attached later; nothing is submitted to it here.) *)
From Coq Require Import List Bool.
From stdpp Require Import list.
From Verif.Future Require Import Model.

(** ready_future.hpp:27-40. package, 29: the handle and the packaged_task are the resources i and i + 1; 31: the call of the
    packaged_task, its function, which returns v, and what follows in future.hpp:1021-1027, 674-675 *)
Definition make_ready (v : nat) (s : st) : list label :=
  let i := length (rs s) in
  [LPackage []; L (S i) AInvoke; L (S i) AStep; L (S i) (AVal v); L (S i) AStep; L (S (S i)) AStep; L (S i) AStep; L (S i) AStep].
(** ready_future.hpp:44-70: package, 48, 59; set_exception, 50, 60 *)
Definition make_exceptional (e : nat) (s : st) : list label :=
  let i := length (rs s) in [LPackage []; L (S i) (AExc e); L (S i) AStep; L (S i) AStep].
