(** The point search over the tree of the real particles and the tree of the ghosts:
    HydroTree::GetGatherNeighbourList, src/Tree/HydroTree.cpp:451-471, built without MPI_PARALLEL. *)
From Verif Require Import Prelude Vec M_Walk M_KDTree M_Search M_Stock M_Box M_Gather.
From Coq Require Import Reals.
Local Open Scope Z_scope.

(** Tree.cpp:249-256 when the counter Nneib is -1 on entry: the first particle selected is
    written to neiblist[-1]. *)
Fixpoint push_neg (keep : Z -> res bool) (l : list Z) : res unit :=
  match l with
  | [] => Ok tt
  | p :: l' => let! k := keep p in if k then UB else push_neg keep l'
  end.
(** Tree.cpp:231-274 with Nneib = -1 (it stays -1 until the first write). *)
Definition gather_visit_neg (fuel : nat) (v : tview) (opn keep : Z -> res bool) (Nleafmax Nneibmax : Z)
    (c : Z) (u : unit) : res (unit * ctl) :=
  let! o := opn c in
  if o then
    let! co := vopen v c in
    if negb (co =? -1) then Ok (u, Down)
    else
      let! n := vN v c in
      if n =? 0 then Ok (u, Skip)
      else if -1 + Nleafmax <? Nneibmax then
        let! l := cell_list fuel v c in
        let! u := push_neg keep l in
        Ok (u, Skip)
      else Ok (u, Stop)
  else Ok (u, Skip).
Definition gather_point_neg (ndim : nat) (pd : list particle) (s : tstate) (Ncell Nleafmax Nneibmax : Z)
    (rp : vec) (rsearch : R) : res (option (list Z)) :=
  let v := view_of (ts_k s) in
  let! (_, _) :=
    walk (vopen v) (vnext v) Ncell
      (gather_visit_neg (tfuel (ts_k s)) v (point_opn ndim (ts_g s) rp rsearch) (point_keep ndim pd rp rsearch) Nleafmax Nneibmax)
      (Z.to_nat Ncell) 0 tt in
  Ok None.

(** [Nneib = tree->Compute...(..., Nneib, ...); Nneib = ghosttree->Compute...(..., Nneib, ...)]:
    the -1 of the first search becomes the counter of the second. *)
Definition GetGatherNeighbourList (ndim : nat) (pd : list particle) (s : tstate) (Ncell Nleafmax : Z)
    (sg : tstate) (Ncellg Nleafmaxg : Z) (Nneibmax : Z) (rp : vec) (rsearch : R) : res (option (list Z)) :=
  let! r := gather_point ndim pd s Ncell Nleafmax Nneibmax rp rsearch [] in
  match r with
  | Some l => gather_point ndim pd sg Ncellg Nleafmaxg Nneibmax rp rsearch l
  | None => gather_point_neg ndim pd sg Ncellg Nleafmaxg Nneibmax rp rsearch
  end.
