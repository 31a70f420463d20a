(** What a user of the KD-tree relies on, independent of how it is built. *)
From Verif Require Import Prelude S_Tree.
Local Open Scope Z_scope.

(** [info c n first last]: count and end points of the linked list stored in cell [c].
    [pos]: one coordinate array per dimension. *)
Inductive kdcell (info : Z -> Z -> Z -> Z -> Prop) (inext : list Z) (pos : list (list Z))
    (Nleafmax : Z) : rtree -> list Z -> Prop :=
| kd_leaf : forall c ps n first last,
    info c n first last -> n = zlen ps -> chain inext first last ps ->
    zlen ps <= Nleafmax ->
    kdcell info inext pos Nleafmax (RNode c []) ps
| kd_node : forall c a b ps1 ps2 n first last axis key,
    info c n first last -> n = zlen (ps1 ++ ps2) -> chain inext first last (ps1 ++ ps2) ->
    kdcell info inext pos Nleafmax a ps1 ->
    kdcell info inext pos Nleafmax b ps2 ->
    (* halves of equal size, up to one particle *)
    zlen ps1 <= zlen ps2 <= zlen ps1 + 1 ->
    (* separated by a plane perpendicular to one axis *)
    aget pos axis = Ok key ->
    (forall p q x y, In p ps1 -> In q ps2 -> aget key p = Ok x -> aget key q = Ok y -> x <= y) ->
    kdcell info inext pos Nleafmax (RNode c [a; b]) (ps1 ++ ps2).
