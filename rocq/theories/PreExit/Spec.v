(** Specification: handlers as trees of registrations. *)
From stdpp Require Import list.
From Verif.PreExit Require Import Model.

(** A handler that registers the given handlers, in order, when invoked, and does nothing else. *)
Inductive plan := P (id : nat) (regs : list plan).
Fixpoint to_handler (p : plan) : handler :=
  match p with P i regs => H i (map (fun q => Register (to_handler q)) regs) end.

(** The required order: most recent registration first, each followed at once by everything it
    registered. *)
Fixpoint porder (p : plan) : list nat :=
  match p with P i regs => i :: concat (rev (map porder regs)) end.
Definition order (ps : list plan) : list nat := concat (rev (map porder ps)).

(** All handlers that occur, counted with multiplicity. *)
Fixpoint pids (p : plan) : list nat :=
  match p with P i regs => i :: concat (map pids regs) end.
Definition ids (ps : list plan) : list nat := concat (map pids ps).

(** A stack automaton's log: replay of pushes and pops on an abstract stack; [takes st ls] is the
    sequence popped. *)
Fixpoint takes (st : list nat) (ls : list label) : list nat :=
  match ls with
  | [] => []
  | LPush h :: ls => takes (h :: st) ls
  | LPop :: ls => match st with [] => takes [] ls | h :: st => h :: takes st ls end
  end.
