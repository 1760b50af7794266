(** Model of the sizes of the portable pool: /repo/include/stlab/concurrency/default_executor.hpp:321-345. unsigned has 32 bits. *)
From Coq Require Import ZArith Bool.
Local Open Scope Z_scope.

(** unsigned arithmetic; default_executor.hpp:328-345 *)
Definition u32 (x : Z) : Z := x mod 2 ^ 32.
(** hardware_concurrency(), 322-328: [h] is what std::thread::hardware_concurrency() returns (0 if not computable), [m] is
    STLAB_TASK_POOL_MAXIMUM(). None: undefined behaviour, std::clamp with bounds in the wrong order, 324 *)
Definition cores (m h : Z) : option Z :=
  if 0 <? m then if h <? 1 then None else Some (Z.min (Z.max m 1) h)
  else Some (Z.max 1 h).
(** _count, 331 *)
Definition count (c : Z) : Z := Z.max 1 (u32 (c - 1)).
(** _thread_limit, 336 *)
Definition limit (c : Z) : Z := Z.max 9 (u32 (u32 (c * 4) + 1)).
(** _q, _threads, _waiters: how many queues and threads, 338, 371-374; for how many further threads there is room, 344 *)
Record sizes := Sizes { queues : Z; threads : Z; waiters : Z }.
(** priority_task_system(), 331-345, 370-375 *)
Definition pool (m h : Z) : option sizes :=
  match cores m h with
  | None => None
  | Some c => Some (Sizes (count c) (count c) (u32 (limit c - count c)))
  end.
