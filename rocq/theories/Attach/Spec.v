(** What C88 says. *)
From stdpp Require Import list.
From Verif.Attach Require Import Model.

(** Reading a trace: those attached so far, and those that the broadcast in progress is still to reach. *)
Definition reading : Type := list nat * option (list nat).
Definition read1 (r : reading) (e : ev) : option reading :=
  match e, r with
  | Attached x, (a, d) => Some (a ++ [x], d)
  | Began, (a, None) => Some (a, Some a)
  | First, (a, Some d) => Some (a, Some d)
  | Sent x, (a, Some (y :: d)) => if decide (x = y) then Some (a, Some d) else None
  | Ended, (a, Some []) => Some (a, None)
  | _, _ => None
  end.
Fixpoint read (r : reading) (t : list ev) : option reading :=
  match t with [] => Some r | e :: t => match read1 r e with Some r => read r t | None => None end end.
(** Every broadcast reaches exactly those that were attached when it began, once each, in the order they were attached. *)
Definition delivers (t : list ev) : Prop := is_Some (read ([], None) t).

(** Nobody attaches a process between the beginning and the end of a loop. *)
Fixpoint calm (looping : bool) (t : list ev) : bool :=
  match t with
  | [] => true
  | First :: t => calm true t
  | Ended :: t => calm false t
  | Attached _ :: t => negb looping && calm looping t
  | _ :: t => calm looping t
  end.
(** whether there is something left for a loop to do *)
Definition busy (s : st) : Prop := match job s with Test n i _ => i <> n | Incr _ _ _ => True | _ => False end.
