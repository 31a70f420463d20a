(** Which cells are sent to other MPI processes: src/Tree/Tree.cpp:1381-1549 (walks of a pruned tree),
    src/Tree/HydroTree.cpp:770-925 and 930-1035 (loops over active cells and processes).
    FLOAT values are reals, int values integers. *)
From Verif Require Import Prelude Vec M_Walk M_Box M_Periodic M_Prune.
From Coq Require Import Reals.
Local Open Scope R_scope.

(** Tree.h:52-56. *)
Inductive MAC_Type := geometric | eigenmac | gadget2.

Section Export.
Variables (ndim : nat) (simbox : dombox) (kernrange : R).
(** Data members gravity_mac and macerror of the tree; [cell_m] reads the mass from the fields of a cell
    that M_Prune does not list. *)
Variables (gravity_mac : MAC_Type) (macerror : R) (cell_m : Z -> R).
(** celldata of the pruned tree. *)
Variable celldata : list pcell.
Definition get_copen (c : Z) : res Z := let! k := aget celldata c in Ok (k_copen k).
Definition get_cnext (c : Z) : res Z := let! k := aget celldata c in Ok (k_cnext k).

(** Lines 1420-1422 and 1514-1516: squared distance of the closest replicas of two cell centres. *)
Definition pair_distsqd (cell k : pcell) : R :=
  let '(dr, _) := NearestPeriodicVector ndim simbox (vsub (k_r k) (k_r cell)) (fun _ => 0) in
  dot ndim dr dr.
(** Lines 1426-1427. *)
Definition spheres_grav (cell k : pcell) : bool :=
  let hrangemax := k_rmax cell + kernrange * k_hmax cell in
  rleb (pair_distsqd cell k) ((k_rmax k + hrangemax) ^ 2) ||
  rleb (pair_distsqd cell k) ((k_rmax cell + k_rmax k + kernrange * k_hmax k) ^ 2).
(** Lines 1520-1521. *)
Definition spheres_hydro (cell k : pcell) : bool :=
  rleb (pair_distsqd cell k) ((k_rmax k + k_rmax cell + kernrange * k_hmax cell) ^ 2) ||
  rleb (pair_distsqd cell k) ((k_rmax cell + k_rmax k + kernrange * k_hmax k) ^ 2).

(** Tree.h:413-432. *)
Definition open_cell_for_gravity (k : pcell) (drsqd macfactor amag : R) : bool :=
  if rltb drsqd (k_cdistsqd k) then true
  else match gravity_mac with
       | eigenmac => rltb drsqd (k_mac k * macfactor)
       | gadget2 => rltb (drsqd * drsqd * amag * macerror) (k_rmax k * k_rmax k * cell_m (k_data k))
       | geometric => false
       end.

(** Body of the loop of ComputeHydroTreeCellOverlap, lines 1511-1543; [Stop] is "return true".  The three
    cases of an overlapping cell are exhaustive because k_N is never negative; a negative one would make
    the code loop for ever (modelled as [NoFuel]). *)
Definition overlap_visit (cell : pcell) (c : Z) (s : unit) : res (unit * ctl) :=
  let! k := aget celldata c in
  if spheres_hydro cell k then
    if negb (k_copen k =? -1)%Z then Ok (s, Down)
    else if (k_N k =? 0)%Z then Ok (s, Skip)
    else if (0 <? k_N k)%Z then Ok (s, Stop)
    else NoFuel
  else Ok (s, Skip).
Definition ComputeHydroTreeCellOverlap (Ncell : Z) (cell : pcell) : res bool :=
  let! (_, stopped) := walk get_copen get_cnext Ncell (overlap_visit cell) (Z.to_nat Ncell) 0%Z tt in
  Ok stopped.

(** Body of the loop of ComputeDistantGravityInteractionList, lines 1417-1469; the list gets a copy of the
    cell (MultipoleMoment(cell) keeps its mass, centre of mass and moments).  [Stop] is "return -1".  The two
    final assertions hold whenever the walk goes on (theorem). *)
Definition distant_visit (cell : pcell) (amin macfactor : R) (c : Z) (l : list pcell) : res (list pcell * ctl) :=
  let! k := aget celldata c in
  if spheres_grav cell k then
    if negb (k_copen k =? -1)%Z then Ok (l, Down)
    else if (k_N k =? 0)%Z then Ok (l, Skip)
    else Ok (l, Stop)
  else if (k_N k =? 0)%Z then Ok (l, Skip)
  else if negb (open_cell_for_gravity k (pair_distsqd cell k) macfactor amin) then Ok (l ++ [k], Skip)
  else if negb (k_copen k =? -1)%Z then Ok (l, Down)
  else Ok (l, Stop).
(** Result: gravcelllist and the value returned, 0 or -1. *)
Definition ComputeDistantGravityInteractionList (Ncell : Z) (cell : pcell) (amin macfactor : R) (gravcelllist : list pcell) :
    res (list pcell * Z) :=
  let! (l, stopped) := walk get_copen get_cnext Ncell (distant_visit cell amin macfactor) (Z.to_nat Ncell) 0%Z gravcelllist in
  Ok (l, if stopped : bool then (-1)%Z else 0%Z).
End Export.

(** An active cell as the loops see it: its data, id, amin, macfactor and the number of active particles
    found in it. *)
Record acell := mkacell { a_cell : pcell; a_id : Z; a_amin : R; a_macf : R; a_Nactive : Z }.

Section Loops.
Variables (ndim : nat) (simbox : dombox) (kernrange : R) (gravity_mac : MAC_Type) (macerror : R) (cell_m : Z -> R).
(** prunedtree[j]: its cells and Ncell, for all processes. *)
Variables (trees : list (list pcell * Z)) (rank : Z).

(** HydroTree.cpp:848-869: the loop over processes for one active cell.  State: gravcelllist,
    cellexportlist and Npartexport; [todo] trees from process [j] on. *)
Fixpoint grav_procs (todo : list (list pcell * Z)) (j : Z) (a : acell)
    (s : list pcell * list (list Z) * list Z) : res (list pcell * list (list Z) * list Z) :=
  match todo with
  | [] => Ok s
  | (cells, Ncell) :: todo' =>
      if (j =? rank)%Z then grav_procs todo' (j + 1)%Z a s
      else
        let '(gl, exps, np) := s in
        let! (gl', r) := ComputeDistantGravityInteractionList ndim simbox kernrange gravity_mac macerror cell_m
                           cells Ncell (a_cell a) (a_amin a) (a_macf a) gl in
        if (r =? -1)%Z then
          let! e := aget exps j in
          let! exps := aset exps j (e ++ [a_id a]) in
          let! n := aget np j in
          let! np := aset np j (n + a_Nactive a)%Z in
          (* gravcelllist.resize(Ngravcellold) *)
          grav_procs todo' (j + 1)%Z a (firstn (length gl) gl', exps, np)
        else grav_procs todo' (j + 1)%Z a (gl', exps, np)
  end.
(** HydroTree.cpp:796-802 and 823-923: all active cells one after the other (with several threads the ids
    of an export list may come in another order).  The multipole list used for each active cell is recorded;
    the forces computed from it are not modelled here. *)
Fixpoint grav_cells (cells : list acell) (s : list (list Z) * list Z) : res (list (list pcell) * list (list Z) * list Z) :=
  match cells with
  | [] => Ok ([], fst s, snd s)
  | a :: cells' =>
      let! (gl, exps, np) := grav_procs trees 0%Z a ([], fst s, snd s) in
      let! (gls, exps, np) := grav_cells cells' (exps, np) in
      Ok (gl :: gls, exps, np)
  end.
Definition UpdateGravityExportList (celllist : list acell) : res (list (list pcell) * list (list Z) * list Z) :=
  grav_cells celllist (repeat [] (length trees), repeat 0%Z (length trees)).

(** HydroTree.cpp:988-1016. *)
Fixpoint hydro_procs (todo : list (list pcell * Z)) (j : Z) (a : acell) (s : list (list Z) * list Z) : res (list (list Z) * list Z) :=
  match todo with
  | [] => Ok s
  | (cells, Ncell) :: todo' =>
      if (j =? rank)%Z then hydro_procs todo' (j + 1)%Z a s
      else
        let '(exps, np) := s in
        let! overlapflag := ComputeHydroTreeCellOverlap ndim simbox kernrange cells Ncell (a_cell a) in
        if overlapflag : bool then
          let! e := aget exps j in
          let! exps := aset exps j (e ++ [a_id a]) in
          let! n := aget np j in
          let! np := aset np j (n + a_Nactive a)%Z in
          hydro_procs todo' (j + 1)%Z a (exps, np)
        else hydro_procs todo' (j + 1)%Z a (exps, np)
  end.
Fixpoint hydro_cells (cells : list acell) (s : list (list Z) * list Z) : res (list (list Z) * list Z) :=
  match cells with
  | [] => Ok s
  | a :: cells' => let! s := hydro_procs trees 0%Z a s in hydro_cells cells' s
  end.
Definition UpdateHydroExportList (celllist : list acell) : res (list (list Z) * list Z) :=
  hydro_cells celllist (repeat [] (length trees), repeat 0%Z (length trees)).
End Loops.
