(** Model of attaching a process to one that is sending: /repo/include/stlab/concurrency/channel.hpp, for_each_n (122-130),
    downstream (657-673), broadcast (1130-1164), map (1166-1175).

    One process, whose results can be copied, and the senders to the processes attached to it, in a std::deque. Its broadcasts come one
    after the other (C43; with the default buffer sizes). Other threads attach further processes at any time: with merge_channel and
    its relatives (1241-1254), which, unlike operator| (1513, 1526), take receivers that are ready. _downstream_mutex protects
    appending and counting, but not the loop that sends: "We only ever append to this deque so the
    first n elements are good" (1156-1157).

    std::deque enters by contract: emplace_back keeps references valid and invalidates all iterators ([deque.modifiers]). [ver] counts
    the insertions; an iterator is valid if there has been none since it was made. That begin() and emplace_back in two threads are a data
    race besides is not modelled. Not modelled either: closing (C46) and who receives what is sent (C82). *)
From Coq Require Import List Bool Arith.
From stdpp Require Import list.

(** broadcast and for_each_n: the steps of the sending thread; channel.hpp:125-130, 1131-1160 *)
Inductive phase :=
  | Idle
  | Counted (n : nat)             (** n read, 1140 *)
  | Test (n i v : nat)            (** before i != n and f of the i-th element; 126-127. v: when the iterator was made *)
  | Incr (n i v : nat)            (** before ++i, ++p; 126 *)
  | Dead.                         (** undefined behaviour *)
(** _downstream, and the sending thread; channel.hpp:659, 734-735 *)
Record st := St { data : list nat; ver : nat; job : phase }.
(** nothing attached, nothing sent; channel.hpp:735 *)
Definition st0 : st := St [] 0 Idle.

(** what is seen of it; channel.hpp:126-127, 1140, 1160, 1173 *)
Inductive ev :=
  | Attached (x : nat)
  | Began | First | Sent (x : nat) | Ended
  | Ub.                           (** an iterator is used that is not valid *)
(** the steps; channel.hpp:125-130, 1131-1175 *)
Inductive label :=
  | LAttach (x : nat)             (** map; channel.hpp:1171-1174, 661-664 *)
  | LBegin                        (** broadcast: the number of processes; 1139-1140 *)
  | LFirst                        (** begin(_data); 672 *)
  | LTest                         (** i != n; f of p; 126-127 *)
  | LIncr.                        (** ++i, ++p; 126 *)

(** one step, of the sending thread or of one that attaches; channel.hpp:125-130, 672, 1139-1140, 1160, 1171-1174 *)
Definition step (s : st) (l : label) : option (st * list ev) :=
  match l, job s with
  | LAttach x, _ => Some (St (data s ++ [x]) (S (ver s)) (job s), [Attached x])
  | LBegin, Idle => Some (St (data s) (ver s) (Counted (length (data s))), [Began])
  | LFirst, Counted n => Some (St (data s) (ver s) (Test n 0 (ver s)), [First])
  | LTest, Test n i v =>
    if i =? n then Some (St (data s) (ver s) Idle, [Ended])
    else if v =? ver s then
      match data s !! i with
      | Some x => Some (St (data s) (ver s) (Incr n i v), [Sent x])
      | None => Some (St (data s) (ver s) Dead, [Ub])
      end
    else Some (St (data s) (ver s) Dead, [Ub])
  | LIncr, Incr n i v =>
    if v =? ver s then Some (St (data s) (ver s) (Test n (S i) v), [])
    else Some (St (data s) (ver s) Dead, [Ub])
  | _, _ => None
  end.
(** any interleaving; channel.hpp:1131-1175 *)
Inductive runs : st -> list ev -> Prop :=
  | runs_nil : runs st0 []
  | runs_step s t l s' e : runs s t -> step s l = Some (s', e) -> runs s' (t ++ e).
