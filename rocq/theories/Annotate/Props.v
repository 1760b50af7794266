(** C52: combining a process with an executor and a buffer size. *)
From stdpp Require Import list.
From Verif.Annotate Require Import Model Expr.

(** The twelve ways of writing the combination of one executor, one buffer size and one function. *)
Definition forms (e b f : val) : list val :=
  [ amp (amp b e) f; amp (amp e b) f; amp f (amp b e); amp f (amp e b);
    amp (amp b f) e; amp (amp f b) e; amp (amp e f) b; amp (amp f e) b;
    amp b (amp e f); amp b (amp f e); amp e (amp b f); amp e (amp f b) ].

(** Executor and buffer size combined with each other first: both arrive, in any order. *)
Theorem C52_annotations_first_partial d e b f v :
  v ∈ take 4 (forms (VExec e) (VBs b) (VFn f)) -> attach d v = Some (f, e, b).
Proof. intros H. apply elem_of_list_In in H. simpl in H. destruct H as [<-|[<-|[<-|[<-|[]]]]]; reflexivity. Qed.

(** One annotation alone arrives, whichever side it is on. *)
Theorem C52_single_annotation d e b f :
  attach d (amp (VExec e) (VFn f)) = Some (f, e, 1) /\ attach d (amp (VFn f) (VExec e)) = Some (f, e, 1) /\
  attach d (amp (VBs b) (VFn f)) = Some (f, d, b) /\ attach d (amp (VFn f) (VBs b)) = Some (f, d, b).
Proof. repeat split. Qed.

(** (process & buffer_size) & executor compiles and silently drops the executor, for all arguments. *)
Theorem C52_executor_lost_refuted d e b f :
  attach d (amp (amp (VFn f) (VBs b)) (VExec e)) = Some (f, d, b) /\
  attach d (amp (amp (VBs b) (VFn f)) (VExec e)) = Some (f, d, b).
Proof. split; reflexivity. Qed.

(** Re-annotating with another buffer size is dropped likewise. *)
Theorem C52_buffer_size_lost_refuted d oe b b' f :
  attach d (amp (VProc (VFn f) oe (Some b)) (VBs b')) = Some (f, default d oe, b).
Proof. reflexivity. Qed.

(** The remaining six forms cannot be attached to a receiver at all. *)
Theorem C52_other_forms_do_not_compile d e b f v :
  v ∈ drop 6 (forms (VExec e) (VBs b) (VFn f)) -> attach d v = None.
Proof. intros H. apply elem_of_list_In in H. simpl in H. destruct H as [<-|[<-|[<-|[<-|[<-|[<-|[]]]]]]]; reflexivity. Qed.

(** Expressions of any shape: what is attached was written in the expression, or is the default. *)
Theorem C52_nothing_invented d x f e b : attach d (eval x) = Some (f, e, b) -> fns x = [f] /\
  (e ∈ execs x \/ e = d) /\ (b ∈ sizes x \/ sizes x = [] /\ b = 1).
Proof. exact (nothing_invented d x f e b). Qed.
Example C52_ex_nested : attach 0 (eval (EAmp (EAmp (EAmp (EBs 3) (EFn 9)) (EBs 4)) (EExec 7))) = Some (9, 0, 3). Proof. reflexivity. Qed.

Example C52_ex : attach 0 (amp (amp (VBs 3) (VExec 7)) (VFn 9)) = Some (9, 7, 3). Proof. reflexivity. Qed.
Example C52_lost_ex : attach 0 (amp (amp (VFn 9) (VBs 3)) (VExec 7)) <> attach 0 (amp (amp (VBs 3) (VExec 7)) (VFn 9)).
Proof. discriminate. Qed.

Print Assumptions C52_annotations_first_partial.
Print Assumptions C52_single_annotation.
Print Assumptions C52_executor_lost_refuted.
Print Assumptions C52_buffer_size_lost_refuted.
Print Assumptions C52_other_forms_do_not_compile.
Print Assumptions C52_nothing_invented.
