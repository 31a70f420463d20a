(** Specification vocabulary for cell trees: an ordered rooted tree whose nodes are cell
    numbers.  Nothing here mentions the arithmetic used by the code. *)
From Verif Require Import Prelude.
Local Open Scope Z_scope.

Inductive rtree := RNode (c : Z) (kids : list rtree).

Definition root (t : rtree) : Z := match t with RNode c _ => c end.
Definition kids (t : rtree) : list rtree := match t with RNode _ ks => ks end.

(** Depth-first (preorder) sequence of the cells. *)
Fixpoint preorder (t : rtree) : list Z :=
  match t with RNode c ks => c :: flat_map preorder ks end.

(** Cells without children, in depth-first order. *)
Fixpoint leaves (t : rtree) : list Z :=
  match t with
  | RNode c [] => [c]
  | RNode c ks => flat_map leaves ks
  end.

(** Two cell numbers continue a walk over [Ncell] cells in the same way: they are equal
    or both end it. *)
Definition same_exit (Ncell x y : Z) : Prop := x = y \/ (Ncell <= x /\ Ncell <= y).

(** The link fields of a cell array represent tree [t] when the cell visited after the
    whole of [t] is [next]:  [copen] is the first child (or -1) and [cnext] is the cell
    that follows the subtree in depth-first order. *)
Fixpoint linked (Ncell : Z) (copen cnext : Z -> res Z) (t : rtree) (next : Z) {struct t} : Prop :=
  match t with
  | RNode c ks =>
      (exists x, cnext c = Ok x /\ same_exit Ncell x next) /\
      copen c = Ok (match ks with [] => -1 | k :: _ => root k end) /\
      (fix linked_kids (ks : list rtree) : Prop :=
         match ks with
         | [] => True
         | k :: ks' =>
             linked Ncell copen cnext k (match ks' with [] => next | k' :: _ => root k' end) /\
             linked_kids ks'
         end) ks
  end.

(** Every inner node has exactly two children and every leaf is at depth [d]. *)
Fixpoint perfect (d : nat) (t : rtree) : Prop :=
  match d, t with
  | O, RNode _ [] => True
  | S d', RNode _ [a; b] => perfect d' a /\ perfect d' b
  | _, _ => False
  end.

(** [depth_of t c l]: the cell [c] occurs in [t] at depth [l]. *)
Inductive depth_of : rtree -> Z -> Z -> Prop :=
| depth_root : forall c ks, depth_of (RNode c ks) c 0
| depth_kid  : forall c ks k x l, In k ks -> depth_of k x l -> depth_of (RNode c ks) x (l + 1).

(** The integers [a, a+1, ..., a+n-1]. *)
Fixpoint zseq (a : Z) (n : nat) : list Z :=
  match n with O => [] | S m => a :: zseq (a + 1) m end.

(** Consecutive elements of [ps] are linked by the array [inext]. *)
Fixpoint links (inext : list Z) (ps : list Z) : Prop :=
  match ps with
  | p :: ((q :: _) as t) => aget inext p = Ok q /\ links inext t
  | _ => True
  end.

(** The singly linked list that starts at [first], ends at [last] and follows [inext] is
    [ps]; an empty list is represented by first = last = -1. *)
Definition chain (inext : list Z) (first last : Z) (ps : list Z) : Prop :=
  match ps with
  | [] => first = -1 /\ last = -1
  | p :: _ => first = p /\ last = List.last ps (-1) /\ links inext ps
  end.

(** A tree of cells with the particles of each cell: [P c ps] holds for every cell [c],
    where [ps] is the list of particles below it, and [L c ps] for every leaf.  The
    particles of an inner cell are those of its children. *)
Inductive ctree (P L : Z -> list Z -> Prop) : rtree -> list Z -> Prop :=
| ctree_leaf : forall c ps, P c ps -> L c ps -> ctree P L (RNode c []) ps
| ctree_node : forall c ks pss, ks <> [] -> ctrees P L ks pss -> P c (concat pss) ->
    ctree P L (RNode c ks) (concat pss)
with ctrees (P L : Z -> list Z -> Prop) : list rtree -> list (list Z) -> Prop :=
| ctrees_nil : ctrees P L [] []
| ctrees_cons : forall k ks ps pss, ctree P L k ps -> ctrees P L ks pss -> ctrees P L (k :: ks) (ps :: pss).

(** [subseq l m]: [l] is [m] with some elements left out. *)
Inductive subseq : list Z -> list Z -> Prop :=
| sub_nil : subseq [] []
| sub_skip : forall a l m, subseq l m -> subseq l (a :: m)
| sub_take : forall a l m, subseq l m -> subseq (a :: l) (a :: m).
