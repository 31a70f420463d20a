(** Load balancing between MPI processes: src/Mpi/MpiKDTreeDecomposition.cpp:288-480, src/Mpi/MpiTree.cpp:132-240 and
    466-507, src/Tree/HydroTree.cpp:1462-1485 and 1553-1612, src/Tree/Tree.cpp:1556-1608 and 1687-1731,
    src/Mpi/MpiNode.cpp:99-138, src/Mpi/MpiControl.cpp:318-358.  Reals for FLOAT. *)
From Verif Require Import Prelude Vec S_Tree M_Walk M_KDTree M_Search M_Stock M_Box M_Gather M_Store M_League.
From Coq Require Import Reals.
Local Open Scope Z_scope.

Record box := mkbox { bmin : vec; bmax : vec }.
Definition setv (f : vec) (k : nat) (x : R) : vec := fun j => if Nat.eqb j k then x else f j.

(** ** The MPI tree *)
(** MpiTreeCell: the fields used here.  [mc2] is -1 for leaves. *)
Record mcell := mkmc { mlevel : Z; mc2 : Z; mk : nat; mr : R; mbox : box }.

(** MpiTree.cpp:138-156 ComputeTreeSize: ltot is the least level with 2^ltot >= Nmpi. *)
Fixpoint tree_levels (fuel : nat) (ltot Nmpi : Z) : res Z :=
  if 2 ^ ltot <? Nmpi then match fuel with O => NoFuel | S f => tree_levels f (ltot + 1) Nmpi end else Ok ltot.
Definition ComputeMpiTreeSize (Nmpi : Z) : res (Z * Z) :=
  let! ltot := tree_levels (Z.to_nat Nmpi) 0 Nmpi in Ok (ltot, 2 * 2 ^ ltot - 1).

(** MpiTree.cpp:196-222: one pass of the loop of CreateTreeStructure.  State: cells and g2c as the list of the cells
    recorded so far (g2c[g++] = c). *)
Definition structure_step (ltot : Z) (c : Z) (st : list mcell * list Z) : res (list mcell * list Z) :=
  let '(cs, g2c) := st in
  let! x := aget cs c in
  if mlevel x =? ltot then Ok (cs, g2c ++ [c])
  else
    let! y := aget cs (c + 1) in
    let! cs := aset cs (c + 1) (mkmc (mlevel x + 1) (mc2 y) (mk y) (mr y) (mbox y)) in
    let! x := aget cs c in
    let c2 := c + 2 ^ (ltot - mlevel x) in
    let! cs := aset cs c (mkmc (mlevel x) c2 (mk x) (mr x) (mbox x)) in
    let! z := aget cs c2 in
    let! cs := aset cs c2 (mkmc (mlevel x + 1) (mc2 z) (mk z) (mr z) (mbox z)) in
    Ok (cs, g2c).
Fixpoint loop {A} (f : Z -> A -> res A) (l : list Z) (a : A) : res A :=
  match l with [] => Ok a | c :: t => let! a := f c a in loop f t a end.
(** Lines 185-194 reset the cells and set the level of the root. *)
Definition clear_cell (x : mcell) : mcell := mkmc (mlevel x) (-1) (mk x) (mr x) (mbox x).
Definition CreateTreeStructure (ltot Ncell : Z) (cs : list mcell) : res (list mcell * list Z) :=
  let cs := map clear_cell cs in
  let! x := aget cs 0 in
  let! cs := aset cs 0 (mkmc 0 (mc2 x) (mk x) (mr x) (mbox x)) in
  loop (structure_step ltot) (zseq 0 (Z.to_nat Ncell)) (cs, []).

(** MpiTree.cpp:482-502: the boxes of the children. *)
Definition set_mbox (x : mcell) (b : box) : mcell := mkmc (mlevel x) (mc2 x) (mk x) (mr x) b.
Definition update_step (ltot : Z) (c : Z) (cs : list mcell) : res (list mcell) :=
  let! x := aget cs c in
  if mlevel x =? ltot then Ok cs
  else
    let c1 := c + 1 in
    let c2 := mc2 x in
    let! y := aget cs c1 in
    let! cs := aset cs c1 (set_mbox y (mkbox (bmin (mbox x)) (setv (bmax (mbox x)) (mk x) (mr x)))) in
    let! z := aget cs c2 in
    aset cs c2 (set_mbox z (mkbox (setv (bmin (mbox x)) (mk x) (mr x)) (bmax (mbox x)))).
Definition UpdateBoundingBoxes (ltot Ncell : Z) (cs : list mcell) : res (list mcell) :=
  loop (update_step ltot) (zseq 0 (Z.to_nat Ncell)) cs.

(** ** The divisions *)
Section Division.
(** Work found in a box, summed over the pruned trees of all processes (HydroTree.cpp:1587-1596). *)
Variable work : vec -> vec -> R.
(** HydroTree.cpp:1580-1608: the bisection.  In real arithmetic 0/0 does not exist; with no work on either side the C++
    quotient is a NaN, both comparisons are false and the loop is left. *)
Fixpoint bisect (fuel : nat) (k : nat) (lo hi : vec) (r r_min r_max : R) : res R :=
  match fuel with
  | O => NoFuel
  | S f =>
      let workleft := work lo (setv hi k r) in
      let workright := work (setv lo k r) hi in
      if Req_EM_T (workleft + workright)%R 0%R then Ok r
      else
        let workfrac := (workleft / (workleft + workright))%R in
        if rltb workfrac (1/2 - 1/1000)%R then bisect f k lo hi (1/2 * (r + r_max))%R r r_max
        else if rltb (1/2 + 1/1000)%R workfrac then bisect f k lo hi (1/2 * (r_min + r))%R r_min r
        else Ok r
  end.
Definition FindLoadBalancingDivision (fuel : nat) (k : nat) (r_old : R) (b : box) : res R :=
  bisect fuel k (bmin b) (bmax b) r_old (bmin b k) (bmax b k).

(** MpiKDTreeDecomposition.cpp:326-357: cell [c] on level [l].  The two assertions follow from the guard for boxes with
    min < max and are kept. *)
Definition divide_step (fuel : nat) (l : Z) (c : Z) (cs : list mcell) : res (list mcell) :=
  let! x := aget cs c in
  if negb (mlevel x =? l) then Ok cs
  else
    let lo := bmin (mbox x) (mk x) in let hi := bmax (mbox x) (mk x) in
    let r := if rleb (mr x) lo || rleb hi (mr x) then (1/2 * (lo + hi))%R else mr x in
    if rltb lo r && rltb r hi then
      let! r := FindLoadBalancingDivision fuel (mk x) r (mbox x) in
      aset cs c (mkmc (mlevel x) (mc2 x) (mk x) r (mbox x))
    else Raise.
(** Lines 322-372: the levels; domains are the boxes of the leaves g2c[0..Nmpi-1]. *)
Fixpoint balance_levels (fuel : nat) (n : nat) (l ltot Ncell : Z) (cs : list mcell) : res (list mcell) :=
  match n with
  | O => Ok cs
  | S m =>
      let! cs := loop (divide_step fuel l) (zseq 0 (Z.to_nat Ncell)) cs in
      let! cs := UpdateBoundingBoxes ltot Ncell cs in
      balance_levels fuel m (l + 1) ltot Ncell cs
  end.
Fixpoint read_domains (cs : list mcell) (g2c : list Z) (n : nat) (inode : Z) : res (list box) :=
  match n with
  | O => Ok []
  | S m => let! c := aget g2c inode in let! x := aget cs c in let! t := read_domains cs g2c m (inode + 1) in Ok (mbox x :: t)
  end.
(** Lines 312-372. *)
Definition NewDomains (fuel : nat) (Nmpi ltot Ncell : Z) (partbox : box) (cs : list mcell) (g2c : list Z) : res (list mcell * list box) :=
  let! x := aget cs 0 in
  let! cs := aset cs 0 (set_mbox x partbox) in
  let! cs := balance_levels fuel (Z.to_nat ltot) 0 ltot Ncell cs in
  let! d := read_domains cs g2c (Z.to_nat Nmpi) 0 in
  Ok (cs, d).
End Division.

(** Tree.cpp:1687-1731 ComputeWorkInBox on a tree given by the fields it reads.  The literals 0.999999999999999999 and
    1.0 - small_number are 1 as doubles, small_number is 1.0e-20. *)
Record wcell := mkw { w_hbox : box; w_work : R; w_copen : Z; w_cnext : Z }.
Fixpoint work_walk (fuel : nat) (ndim : nat) (lo hi : vec) (cs : list wcell) (c : Z) (worktot : R) : res R :=
  if c <? zlen cs then
    match fuel with
    | O => NoFuel
    | S f =>
        let! x := aget cs c in
        let fo := FractionalBoxOverlap ndim lo hi (bmin (w_hbox x)) (bmax (w_hbox x)) in
        if rltb fo (1 / 10 ^ 20)%R || rltb 1%R fo then work_walk f ndim lo hi cs (w_cnext x) (worktot + fo * w_work x)%R
        else if negb (w_copen x =? -1) then work_walk f ndim lo hi cs (w_copen x) worktot
        else if rleb (1 / 10 ^ 20)%R fo && rleb fo 1%R then work_walk f ndim lo hi cs (w_cnext x) (worktot + fo * w_work x)%R
        else Raise
    end
  else Ok worktot.
Definition ComputeWorkInBox (ndim : nat) (cs : list wcell) (lo hi : vec) : res R := work_walk (S (length cs)) ndim lo hi cs 0 0%R.

(** flags.set(dead), and what DoDeleteDeadParticles does with the slots it empties (Hydrodynamics.h:178-181). *)
Definition set_dead (p : particle) : particle :=
  mkpart (p_r p) (p_v p) (p_h p) (p_m p) (p_sound p) true (p_active p) (p_grav p).
Definition kill_slot (p : particle) : particle :=
  mkpart (p_r p) (p_v p) (p_h p) 0%R (p_sound p) true (p_active p) (p_grav p).
(** ** Bounding boxes *)
(** MpiNode.cpp:107-127: the box of the positions of the first Npart particles. *)
Definition grow_box (b : box) (p : particle) : box :=
  mkbox (fun k => Rmin (bmin b k) (p_r p k)) (fun k => Rmax (bmax b k) (p_r p k)).
Definition particle_box (ps : list particle) : box :=
  fold_left grow_box ps (mkbox (fun _ => big_number) (fun _ => (- big_number)%R)).
(** MpiControl.cpp:345-354: the box of everything. *)
Definition merge_box (a b : box) : box :=
  mkbox (fun k => Rmin (bmin a k) (bmin b k)) (fun k => Rmax (bmax a k) (bmax b k)).
Definition global_box (simbox : box) (rboxes : list box) : box := fold_left merge_box rboxes simbox.

(** ** Particles that change their process *)
Section Transfer.
Variables (ndim : nat).
(** Tree.cpp:1574-1606 with the test of the cell (1574) and of the particles (1590). *)
Definition box_opn (gs : list gcell) (b : box) (c : Z) : res bool :=
  let! g := aget gs c in Ok (BoxOverlap ndim (gbmin g) (gbmax g) (bmin b) (bmax b)).
Definition box_keep (pd : list particle) (b : box) (i : Z) : res bool :=
  let! p := aget pd i in Ok (ParticleInBox ndim (p_r p) (bmin b) (bmax b)).
Fixpoint filter_ids (keep : Z -> res bool) (l : list Z) : res (list Z) :=
  match l with
  | [] => Ok []
  | i :: t => let! k := keep i in let! r := filter_ids keep t in Ok (if k : bool then i :: r else r)
  end.
Definition box_visit (fuel : nat) (v : tview) (opn keep : Z -> res bool) (c : Z) (out : list Z) : res (list Z * ctl) :=
  let! o := opn c in
  if o : bool then
    let! co := vopen v c in
    if negb (co =? -1) then Ok (out, Down)
    else
      let! n := vN v c in
      if n =? 0 then Ok (out, Skip)
      else let! l := cell_list fuel v c in let! l := filter_ids keep l in Ok (out ++ l, Skip)
  else Ok (out, Skip).
Definition FindBoxOverlapParticles (pd : list particle) (s : tstate) (Ncell : Z) (b : box) (out : list Z) : res (list Z) :=
  let v := view_of (ts_k s) in
  let! (out, _) := walk (vopen v) (vnext v) Ncell (box_visit (tfuel (ts_k s)) v (box_opn (ts_g s) b) (box_keep pd b)) (Z.to_nat Ncell) 0 out in
  Ok out.

(** MpiKDTreeDecomposition.cpp:392-397. *)
Definition potential_nodes (Nmpi rank : Z) (domain : Z -> box) (rbox : box) : list Z :=
  filter (fun inode => negb (inode =? rank) &&
            BoxesOverlap ndim (bmin (domain inode)) (bmax (domain inode)) (bmin rbox) (bmax rbox)) (zseq 0 (Z.to_nat Nmpi)).
(** HydroTree.cpp:1479-1495: [out] is particles_to_export, as a function of the node. *)
Fixpoint find_transfers (pd : list particle) (s : tstate) (Ncell : Z) (domain : Z -> box) (nodes : list Z)
    (out : Z -> list Z) (all : list Z) : res ((Z -> list Z) * list Z) :=
  match nodes with
  | [] => Ok (out, all)
  | inode :: t =>
      let! l := FindBoxOverlapParticles pd s Ncell (domain inode) (out inode) in
      find_transfers pd s Ncell domain t (set1 out inode l) (all ++ l)
  end.
(** MpiKDTreeDecomposition.cpp:389-403: what process [rank] does before it sends; rbox is the box of its particles,
    updated at the start of the step (MpiControl.cpp:318-358). *)
Definition prepare (Nmpi rank : Z) (domain : Z -> box) (s : tstate) (Ncell : Z) (st : @store particle) : res ((Z -> list Z) * list Z) :=
  let rbox := particle_box (firstn (Z.to_nat (Nhydro st)) (data st)) in
  find_transfers (data st) s Ncell domain (potential_nodes Nmpi rank domain rbox) (fun _ => []) [].
End Transfer.

(** MpiKDTreeDecomposition.cpp:417-420: the send buffer. *)
Fixpoint send_buffer {P} (pd : list P) (l : list Z) : res (list P) :=
  match l with [] => Ok [] | i :: t => let! p := aget pd i in let! r := send_buffer pd t in Ok (p :: r) end.
(** Lines 444-464: storage for the received particles is made when needed; they are put behind the others. *)
Section Receive.
Context {P : Type} (default : P).
Fixpoint put (l : list P) (i : Z) (d : list P) : res (list P) :=
  match l with [] => Ok d | p :: t => let! d := aset d i p in put t (i + 1) d end.
Definition receive (buf : list P) (s : store) : res store :=
  let! s := (if Nhydromax s <? Nhydro s + zlen buf then AllocateMemory default (Nhydro s + zlen buf) s else Ok s) in
  let! d := put buf (Nhydro s) (data s) in
  Ok (mkstore (Nhydro s + zlen buf) (Nghost s) (Nhydromax s) d).
Fixpoint receive_all (bufs : list (list P)) (s : store) : res store :=
  match bufs with [] => Ok s | b :: t => let! s := receive b s in receive_all t s end.
(** Lines 469-473: the exported particles are marked and removed. *)
Variables (isdead : P -> bool) (kill set_dead : P -> P).
Fixpoint mark_dead (l : list Z) (d : list P) : res (list P) :=
  match l with [] => Ok d | i :: t => let! p := aget d i in let! d := aset d i (set_dead p) in mark_dead t d end.
Definition finish_transfer (bufs : list (list P)) (all : list Z) (s : store) : res store :=
  let! s := receive_all bufs s in
  let! d := mark_dead all (data s) in
  let! (d, n, _) := DoDeleteDeadParticles isdead kill (Nhydro s) d in
  Ok (mkstore n (Nghost s) (Nhydromax s) d).
End Receive.
