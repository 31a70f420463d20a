(** Specification vocabulary for the oct-tree: what the cell array, the linked lists and the boxes
    have to represent.  It speaks about the stored data only, not about how they are computed. *)
From Verif Require Import Prelude Vec S_Tree M_Oct.
From Coq Require Import Reals Permutation.
Local Open Scope Z_scope.

(** Every inner cell has exactly [n] children. *)
Inductive branching (n : nat) : rtree -> Prop :=
| br_leaf : forall c, branching n (RNode c [])
| br_node : forall c ks, length ks = n -> (forall k, In k ks -> branching n k) -> branching n (RNode c ks).

Definition inside (ndim : nat) (r lo hi : vec) : Prop := forall d, (d < ndim)%nat -> (lo d <= r d <= hi d)%R.
(** [r] is in the cube with centre [c] and half side [s]. *)
Definition near (ndim : nat) (r c : vec) (s : R) : Prop := forall d, (d < ndim)%nat -> (Rabs (r d - c d) <= s)%R.

Definition copen_of (t : octree) (c : Z) : res Z := let! x := aget (o_cells t) c in Ok (o_copen x).
Definition cnext_of (t : octree) (c : Z) : res Z := let! x := aget (o_cells t) c in Ok (o_cnext x).

(** Facts on the links and levels. *)
Record oct_shape (t : octree) (T : rtree) : Prop := {
  os_root : root T = 0;
  os_room : o_Ncell t <= zlen (o_cells t);
  os_cells : Permutation (preorder T) (zseq 0 (Z.to_nat (o_Ncell t)));
  os_links : linked (o_Ncell t) (copen_of t) (cnext_of t) T (zlen (o_cells t));
  os_eight : branching 8 T;
  os_depth : forall d n, depth_of T d n -> n <= o_ltot t /\ exists x, aget (o_cells t) d = Ok x /\ o_level x = n;
  os_levels : 0 <= o_ltot t < 40;
  os_first : forall l d x, 0 <= l <= o_ltot t -> 0 <= d < o_Ncell t -> aget (o_cells t) d = Ok x ->
    (o_level x = l <-> exists a b, aget (o_first t) l = Ok a /\ aget (o_last t) l = Ok b /\ a <= d <= b) }.

(** The particles [q] of a cell of the tree before stocking, and of a leaf cell; [q0] are all
    particles. *)
Definition holds (ndim : nat) (ps : list opart) (boxed : Prop) (t : octree) (c : Z) (q : list Z) : Prop :=
  exists x, aget (o_cells t) c = Ok x /\ o_N x = zlen q /\
    (boxed -> forall p y, In p q -> aget ps p = Ok y -> inside ndim (op_r y) (o_min x) (o_max x)).
Definition leaf_list (Nleafmax : Z) (q0 : list Z) (t : octree) (c : Z) (q : list Z) : Prop :=
  exists x, aget (o_cells t) c = Ok x /\ chain (o_inext t) (o_ifirst x) (o_ilast x) q /\ subseq q q0 /\ zlen q <= Nleafmax.

(** A stocked cell with live particles [q]: their number and their bounding box, which is as small
    as possible. *)
Definition tight (ndim : nat) (ps : list opart) (q : list Z) (lo hi : vec) : Prop :=
  forall d, (d < ndim)%nat ->
    (forall p y, In p q -> aget ps p = Ok y -> (lo d <= op_r y d <= hi d)%R) /\
    (q <> [] -> (forall p y, In p q -> aget ps p = Ok y -> (- big_number < op_r y d < big_number)%R) ->
     (exists p y, In p q /\ aget ps p = Ok y /\ lo d = op_r y d) /\
     (exists p y, In p q /\ aget ps p = Ok y /\ hi d = op_r y d)).
Definition stocked (ndim : nat) (ps : list opart) (t : octree) (c : Z) (q : list Z) : Prop :=
  exists x, aget (o_cells t) c = Ok x /\ o_N x = zlen q /\ tight ndim ps q (o_min x) (o_max x).
Definition alive (ps : list opart) (p : Z) : bool := match aget ps p with Ok y => negb (op_dead y) | _ => false end.
(** The list of a leaf cell afterwards: live particles only, in the order of [q0]. *)
Definition live_list (Nleafmax : Z) (ps : list opart) (q0 : list Z) (t : octree) (c : Z) (q : list Z) : Prop :=
  exists x, aget (o_cells t) c = Ok x /\ chain (o_inext t) (o_ifirst x) (o_ilast x) q /\ subseq q q0 /\ zlen q <= Nleafmax /\ (forall p, In p q -> alive ps p = true).

(** The arguments of BuildTree: particles ifirst .. ifirst+Npart-1 of arrays that are large enough. *)
Definition args (ps : list opart) (Nleafmax ifirst Npart Npartmax : Z) : Prop :=
  1 <= Nleafmax /\ 0 <= ifirst /\ 0 < Npart /\ ifirst + Npart <= Npartmax /\ ifirst + Npart <= zlen ps.
(** The trees a program can hold: new ones, and those left by earlier calls of BuildTree. *)
Inductive used (ndim : nat) : octree -> Prop :=
| us_new : used ndim new_octree
| us_build : forall ps Nleafmax ifirst Npart Npartmax t t', used ndim t -> args ps Nleafmax ifirst Npart Npartmax ->
    BuildTree ndim ps Nleafmax ifirst Npart Npartmax t = Ok t' -> used ndim t'.
(** Of any Nleafmax+1 particles two are further apart than [w] in some direction. *)
Definition spread (ndim : nat) (ps : list opart) (Nleafmax : Z) (q0 : list Z) (w : R) : Prop :=
  forall q, subseq q q0 -> Nleafmax < zlen q ->
  exists p p' y y' d, In p q /\ In p' q /\ aget ps p = Ok y /\ aget ps p' = Ok y' /\ (d < ndim)%nat /\ (w < Rabs (op_r y d - op_r y' d))%R.
