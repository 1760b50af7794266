(** What each command does, as a relation on lists of trees; and what it means for a world to
    present such an abstract state. *)
From stdpp Require Import gmap list.
From Coq Require Import ZArith.
From Verif.Forest Require Import Model Spec Rep World.

Section worldspec.
Context {V : Type}.

(** Every live forest object, by name: its sentinel and its trees. *)
Notation aworld := (gmap nat (nat * list (tree V))).
Implicit Types (M : aworld) (l k a b c d : list (tree V)) (C D : list (@frame V)).

Definition afresh M (n : nat) : Prop :=
  forall x t l, M !! x = Some (t, l) -> n <> t /\ n ∉ fnodes l.

(** The commands with their preconditions (positions lie where the API wants them) and effects. *)
Inductive sstep M : op V -> aworld -> Prop :=
  | s_new x t : M !! x = None -> afresh M t ->
      sstep M (ONew x) (<[x := (t, [])]> M)
  | s_destroy x t l : M !! x = Some (t, l) ->
      sstep M (ODestroy x) (delete x M)
  | s_copy x y t l t' l' : M !! x = None -> M !! y = Some (t, l) ->
      map strip l' = map strip l -> (forall n, n ∈ t' :: fnodes l' -> afresh M n) ->
      sstep M (OCopy x y) (<[x := (t', l')]> M)
  | s_move x y t l t' : M !! x = None -> M !! y = Some (t, l) -> afresh M t' ->
      sstep M (OMove x y) (<[x := (t', l)]> (<[y := (t, [])]> M))
  | s_copy_assign x y s k t l l' : x <> y -> M !! x = Some (s, k) -> M !! y = Some (t, l) ->
      map strip l' = map strip l -> (forall n, n ∈ fnodes l' -> afresh (delete x M) n) ->
      sstep M (OCopyAssign x y) (<[x := (s, l')]> M)
  | s_move_assign x y s k t l : x <> y -> M !! x = Some (s, k) -> M !! y = Some (t, l) ->
      sstep M (OMoveAssign x y) (<[x := (s, l)]> (<[y := (t, [])]> M))
  | s_move_self x s k : M !! x = Some (s, k) ->
      sstep M (OMoveAssign x x) M
  | s_swap x y s k t l : x <> y -> M !! x = Some (s, k) -> M !! y = Some (t, l) ->
      sstep M (OSwap x y) (<[x := (s, l)]> (<[y := (t, k)]> M))
  | s_size x t l : M !! x = Some (t, l) ->
      sstep M (OSize x) M
  | s_clear x t l : M !! x = Some (t, l) ->
      sstep M (OClear x) (<[x := (t, [])]> M)
  | s_insert x t C l r n v : M !! x = Some (t, plug C (l ++ r)) -> afresh M n ->
      sstep M (OInsert x (gap t C r) v) (<[x := (t, plug C (l ++ Node n v [] :: r))]> M)
  | s_erase x t C l n v cs r e : M !! x = Some (t, plug C (l ++ Node n v cs :: r)) ->
      sstep M (OErase x (Iter n e)) (<[x := (t, plug C (l ++ cs ++ r))]> M)
  | s_erase_range x t l p r q : M !! x = Some (t, l) -> fword l = p ++ r ++ q ->
      sstep M (OEraseRange x (firstp t (r ++ q)) (firstp t q)) (<[x := (t, prune (both r) l)]> M)
  | s_splice x y t1 t2 C a s b D c d count : x <> y ->
      M !! y = Some (t2, plug C (a ++ s ++ b)) -> M !! x = Some (t1, plug D (c ++ d)) ->
      s <> [] -> count = 0%Z \/ count = Z.of_nat (fcount s) ->
      sstep M (OSplice x y (gap t1 D d) (gap t2 C (s ++ b)) (gap t2 C b) count)
        (<[x := (t1, plug D (c ++ s ++ d))]> (<[y := (t2, plug C (a ++ b))]> M))
  | s_splice_same x t C a s b D c d count :
      M !! x = Some (t, plug C (a ++ s ++ b)) -> plug C (a ++ b) = plug D (c ++ d) -> s <> [] ->
      sstep M (OSplice x x (gap t D d) (gap t C (s ++ b)) (gap t C b) count)
        (<[x := (t, plug D (c ++ s ++ d))]> M)
  | s_splice_none x y pos i last count : is_Some (M !! x) -> is_Some (M !! y) ->
      i = last \/ i = pos ->
      sstep M (OSplice x y pos i last count) M
  | s_splice_all x y t1 t2 k D c d : x <> y -> M !! y = Some (t2, k) ->
      M !! x = Some (t1, plug D (c ++ d)) ->
      sstep M (OSpliceAll x y (gap t1 D d))
        (<[x := (t1, plug D (c ++ k ++ d))]> (<[y := (t2, [])]> M))
  | s_splice_one x y t1 t2 C a n v cs b D c d e : x <> y ->
      M !! y = Some (t2, plug C (a ++ Node n v cs :: b)) -> M !! x = Some (t1, plug D (c ++ d)) ->
      sstep M (OSpliceOne x y (gap t1 D d) (Iter n e))
        (<[x := (t1, plug D (c ++ Node n v cs :: d))]> (<[y := (t2, plug C (a ++ b))]> M))
  | s_splice_one_same x t C a n v cs b D c d e :
      M !! x = Some (t, plug C (a ++ Node n v cs :: b)) -> plug C (a ++ b) = plug D (c ++ d) ->
      sstep M (OSpliceOne x x (gap t D d) (Iter n e))
        (<[x := (t, plug D (c ++ Node n v cs :: d))]> M)
  | s_splice_one_none x t C a n v cs b e : M !! x = Some (t, plug C (a ++ Node n v cs :: b)) ->
      sstep M (OSpliceOne x x (Iter n leading) (Iter n e)) M
  | s_insert_parent x t C a s b n v : M !! x = Some (t, plug C (a ++ s ++ b)) -> afresh M n ->
      sstep M (OInsertParent x (gap t C (s ++ b)) (gap t C b) v)
        (<[x := (t, plug C (a ++ Node n v s :: b))]> M)
  | s_insert_range x y t1 t2 C a s b D c d s' : x <> y ->
      M !! y = Some (t2, plug C (a ++ s ++ b)) -> M !! x = Some (t1, plug D (c ++ d)) ->
      map strip s' = map strip s -> (forall n, n ∈ fnodes s' -> afresh M n) ->
      sstep M (OInsertRange x y (gap t1 D d) (gap t2 C (s ++ b)) (gap t2 C b))
        (<[x := (t1, plug D (c ++ s' ++ d))]> M).

(** A command may be issued in the abstract state [M]. *)
Definition allowed M (o : op V) : Prop := exists M', sstep M o M'.

(** The world [w] presents [M]: the same names; each object represents its trees; no cell belongs
    to two objects; and every live cell belongs to some object. *)
Record view (w : world V) M : Prop := {
  view_objs : forall x, match M !! x, w_objs w !! x with
    | Some (t, l), Some f => f_tail f = t /\ Rep (w_heap w) f l
    | None, None => True
    | _, _ => False
    end;
  view_disj : forall x y t l s k, x <> y -> M !! x = Some (t, l) -> M !! y = Some (s, k) ->
    forall n, n ∈ t :: fnodes l -> n ∈ s :: fnodes k -> False;
  view_owned : forall n, is_Some (w_heap w !! n) ->
    exists x t l, M !! x = Some (t, l) /\ n ∈ t :: fnodes l }.

(** The worlds that programs of allowed commands can reach. *)
Inductive reach (al : allocator V) : world V -> Prop :=
  | reach_0 : reach al world0
  | reach_S w M o w' : reach al w -> view w M -> allowed M o -> exec al w o = Ok w' -> reach al w'.

End worldspec.
Notation aworld V := (gmap nat (nat * list (tree V))).
