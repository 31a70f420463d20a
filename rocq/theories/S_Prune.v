(** What pruning a tree means. *)
From Verif Require Import Prelude S_Tree.
Local Open Scope Z_scope.

(** The tree that is left when the cells for which [op] is false lose their children. *)
Fixpoint prune (op : Z -> bool) (t : rtree) : rtree :=
  match t with RNode c ks => RNode c (if op c then map (prune op) ks else []) end.
(** The same tree with other cell numbers. *)
Fixpoint relabel (f : Z -> Z) (t : rtree) : rtree :=
  match t with RNode c ks => RNode (f c) (map (relabel f) ks) end.
(** [content c] is the list of particles of cell [c]: those of a cell with children are those of the children. *)
Inductive contents (content : Z -> list Z) : rtree -> Prop :=
| contents_node : forall c ks, (ks <> [] -> content c = flat_map (fun k => content (root k)) ks) ->
    Forall (contents content) ks -> contents content (RNode c ks).

From Verif Require Import M_Prune.
(** Everything but the links is the same. *)
Definition same_data (a b : pcell) : Prop :=
  k_level b = k_level a /\ k_N b = k_N a /\ k_r b = k_r a /\ k_rmax b = k_rmax a /\ k_hmax b = k_hmax a /\
  k_cdistsqd b = k_cdistsqd a /\ k_mac b = k_mac a /\ k_data b = k_data a.
Definition co_of (cells : list pcell) (c : Z) : res Z := let! k := aget cells c in Ok (k_copen k).
Definition cn_of (cells : list pcell) (c : Z) : res Z := let! k := aget cells c in Ok (k_cnext k).
(** The first [n] entries of [cells] hold the tree [p] cut out of the full tree with cells [celldata]:
    they are numbered in depth-first order, entry [i] holds the data of the [i]-th cell of [p], the links
    describe the same tree and lead forward inside the array or to [n], and the two lists give the leaves
    in the new and in the old numbering. *)
Definition pruned_copy (celldata : list pcell) (p : rtree) (cells : list pcell) (lf ll : list Z) (n : Z) : Prop :=
  n = zlen (preorder p) /\
  (exists t', relabel (fun i => nth (Z.to_nat i) (preorder p) 0) t' = p /\ preorder t' = zseq 0 (Z.to_nat n) /\
     linked n (co_of cells) (cn_of cells) t' n /\ lf = leaves t') /\
  ll = leaves p /\
  (forall i, 0 <= i < n -> exists k k', aget celldata (nth (Z.to_nat i) (preorder p) 0) = Ok k /\ aget cells i = Ok k' /\
     same_data k k' /\ i < k_cnext k' <= n /\ (k_copen k' = -1 \/ k_copen k' = i + 1)).
