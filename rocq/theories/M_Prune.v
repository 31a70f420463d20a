(** Pruned copies of the local tree for other MPI nodes: src/Tree/Tree.cpp:1149-1335,
    src/Tree/HydroTree.cpp:1112-1141.  FLOAT values are reals, int values integers. *)
From Verif Require Import Prelude Vec M_Walk M_Box M_Util M_Periodic.
From Coq Require Import Reals.
Local Open Scope R_scope.

(** The fields of TreeCell (Tree.h:45-104, KDTree.h:43-59) read by the routine; [k_data] stands for
    the other fields, which are only copied. *)
Record pcell := mkpcell { k_copen : Z; k_cnext : Z; k_level : Z; k_N : Z;
  k_r : vec; k_rmax : R; k_hmax : R; k_cdistsqd : R; k_mac : R; k_data : Z }.
Definition set_copen (x : Z) (k : pcell) : pcell :=
  mkpcell x (k_cnext k) (k_level k) (k_N k) (k_r k) (k_rmax k) (k_hmax k) (k_cdistsqd k) (k_mac k) (k_data k).
Definition set_cnext (x : Z) (k : pcell) : pcell :=
  mkpcell (k_copen k) x (k_level k) (k_N k) (k_r k) (k_rmax k) (k_hmax k) (k_cdistsqd k) (k_mac k) (k_data k).

Section Prune.
Variables (ndim : nat) (simbox : dombox) (kernrange macfactor : R) (localNode : bool)
  (pruning_level_min pruning_level_max : Z).
(** MpiNode::hbox of the node the tree is made for. *)
Variables (hmin hmax_ : vec).

(** Lines 1181-1182. *)
Definition rnode : vec := fun k => 1/2 * (hmin k + hmax_ k).
Definition rsize : vec := fun k => hmax_ k - rnode k.
(** Lines 1218-1222, one component. *)
Definition to_edge (d s : R) : R := if rltb s d then d - s else if rltb d (- s) then d + s else 0.
(** Lines 1214-1223. *)
Definition node_distsqd (k : pcell) : R :=
  let '(dr, _) := NearestPeriodicVector ndim simbox (vsub (k_r k) rnode) (fun _ => 0) in
  let dr := fun j => to_edge (dr j) (rsize j) in
  dot ndim dr dr.
(** Lines 1252-1254. *)
Definition near_node (k : pcell) : bool :=
  let drsqd := node_distsqd k in
  rleb drsqd ((k_rmax k + kernrange * k_hmax k) ^ 2) ||
  (negb (rltb (k_cdistsqd k) drsqd && rltb (k_mac k * macfactor) drsqd) && (0 <? k_N k)%Z).
(** The five branches of lines 1229-1264: [true] if the walk continues with copen. *)
Definition opens (k : pcell) : bool :=
  if localNode && (k_level k =? pruning_level_min)%Z then false
  else if ((k_level k =? pruning_level_max) || (k_copen k =? -1))%Z then false
  else if ((k_level k <? pruning_level_min) && negb (k_copen k =? -1))%Z then true
  else near_node k.

(** newCellIds, prunedcells, Nprunedcell, leaf_indices, leaf_indices_local. *)
Record pstate := mkps { q_ids : list Z; q_cells : list pcell; q_n : Z; q_leaf : list Z; q_local : list Z }.
(** Lines 1201-1269. *)
Definition prune_visit (celldata : list pcell) (Nprunedcellmax : Z) (c : Z) (s : pstate) : res (pstate * ctl) :=
  if (q_n s =? Nprunedcellmax)%Z then Ok (s, Stop)
  else
    let! ids := aset (q_ids s) c (q_n s) in
    let! k := aget celldata c in
    if opens k then
      let! cells := aset (q_cells s) (q_n s) k in
      Ok (mkps ids cells (q_n s + 1) (if (k_copen k =? -1)%Z then q_leaf s ++ [q_n s] else q_leaf s) (q_local s), Down)
    else
      let! cells := aset (q_cells s) (q_n s) (set_copen (-1) k) in
      Ok (mkps ids cells (q_n s + 1) (q_leaf s ++ [q_n s]) (q_local s ++ [c]), Skip).
(** Lines 1279-1291: cells [c], [c+1], ... ([n] of them). *)
Fixpoint renumber (n : nat) (c : Z) (ids : list Z) (cells : list pcell) : res (list pcell) :=
  match n with
  | O => Ok cells
  | S m =>
      let! k := aget cells c in
      let! o := (if negb (k_copen k =? -1)%Z then aget ids (k_copen k) else Ok (-1)%Z) in
      let! x := aget ids (k_cnext k) in
      if ((x <=? 0) || (x <=? o))%Z then Raise
      else
        let! cells := aset cells c (set_cnext x (set_copen o k)) in
        renumber m (c + 1)%Z ids cells
  end.
(** The whole routine.  [celldata] has Ncellmax entries, of which Ncell are in use; [pruned] is the
    cell array of the pruned tree before the call.  Result: the array, the two lists of leaf cells and
    the value returned (the number of cells, or -1). *)
Definition CreatePrunedTreeForMpiNode (celldata : list pcell) (Ncell Ncellmax Nprunedcellmax : Z) (pruned : list pcell) :
    res (list pcell * list Z * list Z * Z) :=
  let ids := repeat (-1)%Z (Z.to_nat (Ncellmax + 1)) in
  let! (s, stopped) := walk (fun c => let! k := aget celldata c in Ok (k_copen k)) (fun c => let! k := aget celldata c in Ok (k_cnext k))
      Ncell (prune_visit celldata Nprunedcellmax) (Z.to_nat Ncell) 0%Z (mkps ids pruned 0 [] []) in
  if stopped : bool then Ok (q_cells s, q_leaf s, q_local s, (-1)%Z)
  else
    let! ids := aset (q_ids s) Ncell (q_n s) in
    let! ids := aset ids Ncellmax (q_n s) in
    let! cells := renumber (Z.to_nat (q_n s)) 0 ids (q_cells s) in
    Ok (cells, q_leaf s, q_local s, q_n s).

(** HydroTree.cpp:1119-1141: the number of cells asked for is doubled until the pruned tree fits.
    AllocateTreeMemory gives at least as many cells as asked for, with arbitrary contents
    ([alloc] is the array obtained). *)
Fixpoint prune_retry (fuel : nat) (alloc : Z -> list pcell) (celldata : list pcell) (Ncell Ncellmax max_cells : Z) :
    res (list pcell * list Z * list Z * Z) :=
  let! (cells, lf, ll, n) := CreatePrunedTreeForMpiNode celldata Ncell Ncellmax max_cells (alloc max_cells) in
  if (n =? -1)%Z then
    match fuel with
    | O => NoFuel
    | S f => prune_retry f alloc celldata Ncell Ncellmax (2 * max_cells)
    end
  else Ok (cells, lf, ll, n).
End Prune.

(** KDTree.h:146 and OctTree.h:155: the number of cells assumed when the receive is posted
    (HydroTree.cpp:1078-1088). *)
Definition kd_GetMaxCellNumber (level : Z) : Z := (2 ^ (level + 1) - 1)%Z.
Definition oct_GetMaxCellNumber (ndim : Z) (level : Z) : Z := ((2 ^ ndim) ^ level)%Z.

(** Tree.cpp:1317-1335 UpdateLeafCells: the leaves of the pruned tree take the current data of the
    full tree but keep their own links. *)
Fixpoint UpdateLeafCells (leafs locals : list Z) (localcells cells : list pcell) : res (list pcell) :=
  match leafs with
  | [] => Ok cells
  | ileaf :: leafs' =>
      match locals with
      | [] => UB
      | ilocal :: locals' =>
          let! cell := aget cells ileaf in
          let! k := aget localcells ilocal in
          let! cells := aset cells ileaf (set_cnext (k_cnext cell) (set_copen (k_copen cell) k)) in
          UpdateLeafCells leafs' locals' localcells cells
      end
  end.
