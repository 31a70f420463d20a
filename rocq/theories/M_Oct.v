(** The oct-tree: src/Tree/OctTree.cpp:99-128 (AllocateTreeMemory), 210-445 (BuildTree) and the
    parts of 455-726 (StockTree) that deal with the lists of particles, their numbers and the
    bounding boxes.  FLOAT values are reals.  The assertions are left out (they are compiled in
    only with DEBUG_LEVEL 1 or 2, src/Makefile:163-169). *)
From Verif Require Import Prelude Vec M_Box.
From Coq Require Import Reals.
Local Open Scope Z_scope.

(** The fields of a particle read here. *)
Record opart := { op_r : vec; op_dead : bool }.
(** The fields of an OctTreeCell (Headers/TreeCell.h:17-49, Headers/OctTree.h:54-69) used here. *)
Record ocell := { o_N : Z; o_ifirst : Z; o_ilast : Z; o_copen : Z; o_cnext : Z; o_level : Z;
                  o_rc : vec; o_min : vec; o_max : vec }.
(** The members of the tree. *)
Record octree := { o_cells : list ocell; o_inext : list Z; o_first : list Z; o_last : list Z;
                   o_Ncell : Z; o_ltot : Z; o_Ntotmax : Z }.
Definition o_Ncellmax (t : octree) : Z := zlen (o_cells t).

(** Headers/OctTree.h:45, OctTree.cpp:63, Constants.h:72. *)
Definition Noctchild : Z := 8.
Definition lmax : Z := 40.
Definition big_number : R := (99 * 10 ^ 19)%R.

Definition set_N (x : Z) (c : ocell) : ocell :=
  {| o_N := x; o_ifirst := o_ifirst c; o_ilast := o_ilast c; o_copen := o_copen c; o_cnext := o_cnext c; o_level := o_level c;
     o_rc := o_rc c; o_min := o_min c; o_max := o_max c |}.
Definition set_ifirst (x : Z) (c : ocell) : ocell :=
  {| o_N := o_N c; o_ifirst := x; o_ilast := o_ilast c; o_copen := o_copen c; o_cnext := o_cnext c; o_level := o_level c;
     o_rc := o_rc c; o_min := o_min c; o_max := o_max c |}.
Definition set_ilast (x : Z) (c : ocell) : ocell :=
  {| o_N := o_N c; o_ifirst := o_ifirst c; o_ilast := x; o_copen := o_copen c; o_cnext := o_cnext c; o_level := o_level c;
     o_rc := o_rc c; o_min := o_min c; o_max := o_max c |}.
Definition set_copen (x : Z) (c : ocell) : ocell :=
  {| o_N := o_N c; o_ifirst := o_ifirst c; o_ilast := o_ilast c; o_copen := x; o_cnext := o_cnext c; o_level := o_level c;
     o_rc := o_rc c; o_min := o_min c; o_max := o_max c |}.
Definition set_cnext (x : Z) (c : ocell) : ocell :=
  {| o_N := o_N c; o_ifirst := o_ifirst c; o_ilast := o_ilast c; o_copen := o_copen c; o_cnext := x; o_level := o_level c;
     o_rc := o_rc c; o_min := o_min c; o_max := o_max c |}.
Definition set_box (lo hi : vec) (c : ocell) : ocell :=
  {| o_N := o_N c; o_ifirst := o_ifirst c; o_ilast := o_ilast c; o_copen := o_copen c; o_cnext := o_cnext c; o_level := o_level c;
     o_rc := o_rc c; o_min := lo; o_max := hi |}.

(** A cell of a new array: the boxes are initialised by their constructor (DomainBox.h:53-58), the
    integers are overwritten by BuildTree before they are read, and so is rcentre. *)
Definition fresh_cell : ocell :=
  {| o_N := 0; o_ifirst := 0; o_ilast := 0; o_copen := 0; o_cnext := 0; o_level := 0;
     o_rc := fun _ => 0%R; o_min := fun _ => (- big_number)%R; o_max := fun _ => big_number |}.
(** Lines 46-76: a tree for which no memory has been allocated. *)
Definition new_octree : octree :=
  {| o_cells := []; o_inext := []; o_first := []; o_last := []; o_Ncell := 0; o_ltot := 0; o_Ntotmax := 0 |}.

(** Lines 99-128 with force_realloc = false; the tree is allocated when Ncellmax > 0.  The new
    integer arrays hold unknown values; here zeros. *)
Definition AllocateTreeMemory (Nparticles Ncells : Z) (t : octree) : octree :=
  if (o_Ncellmax t =? 0) || (o_Ntotmax t <? Nparticles) || (o_Ncellmax t <? Ncells) then
    let Ncells := Z.max Ncells (o_Ncellmax t) in
    let Nparticles := Z.max Nparticles (o_Ntotmax t) in
    let Ncells := Z.max (2 * Ncells) (4 * Nparticles) in
    {| o_cells := repeat fresh_cell (Z.to_nat Ncells); o_inext := repeat 0 (Z.to_nat Nparticles);
       o_first := repeat 0 (Z.to_nat lmax); o_last := repeat 0 (Z.to_nat lmax);
       o_Ncell := o_Ncell t; o_ltot := o_ltot t; o_Ntotmax := Nparticles |}
  else t.

(** Lines 239-246. *)
Definition reset_cell (Ncellmax : Z) (c : ocell) : ocell :=
  {| o_N := 0; o_ifirst := -1; o_ilast := -1; o_copen := -1; o_cnext := Ncellmax; o_level := o_level c;
     o_rc := o_rc c; o_min := o_min c; o_max := o_max c |}.

(** Lines 262-264 (the bounding box computed in 249-261 is not used): inext[i] = i+1 for
    ifirst <= i < ilast, inext[ilast] = -1. *)
Fixpoint link_all (n : nat) (i : Z) (inext : list Z) : res (list Z) :=
  match n with
  | O => Ok inext
  | S m =>
      let! inext := aset inext i (match m with O => -1 | _ => i + 1 end) in
      link_all m (i + 1) inext
  end.

Section Build.
Variables (ndim : nat) (ps : list opart) (Nleafmax : Z).

(** Lines 276-288: the root cell; returns cellSize too. *)
Definition root_centre (c : ocell) : vec := fun k => ((1/2) * (o_min c k + o_max c k))%R.
Fixpoint root_size (n : nat) (c : ocell) : R :=
  match n with O => 0%R | S k => Rmax (root_size k c) (o_max c k - root_centre c k) end.
Definition root_cell (Ntot ifirst ilast : Z) (c : ocell) : ocell :=
  {| o_N := Ntot; o_ifirst := ifirst; o_ilast := ilast; o_copen := -1; o_cnext := o_cnext c; o_level := 0;
     o_rc := root_centre c; o_min := o_min c; o_max := o_max c |}.

(** Lines 318-357: centre and box of child [k] in each dimension. *)
Definition low (k : Z) (d : nat) : bool :=
  match d with
  | 0%nat => (k =? 0) || (k =? 2) || (k =? 4) || (k =? 6)
  | 1%nat => (k =? 0) || (k =? 1) || (k =? 4) || (k =? 5)
  | _ => k <? 4
  end.
Definition new_child (cellSize : R) (level : Z) (cell : ocell) (k : Z) (old : ocell) : ocell :=
  {| o_N := o_N old; o_ifirst := o_ifirst old; o_ilast := o_ilast old; o_copen := o_copen old; o_cnext := o_cnext old; o_level := level;
     o_rc := fun d => if (d <? ndim)%nat then (if low k d then o_rc cell d - cellSize else o_rc cell d + cellSize)%R else o_rc old d;
     o_min := fun d => if (d <? ndim)%nat then (if low k d then o_min cell d else o_rc cell d) else o_min old d;
     o_max := fun d => if (d <? ndim)%nat then (if low k d then o_rc cell d else o_max cell d) else o_max old d |}.
Fixpoint make_children (n : nat) (k base : Z) (cellSize : R) (level : Z) (cell : ocell) (cells : list ocell) : res (list ocell) :=
  match n with
  | O => Ok cells
  | S m =>
      let! old := aget cells (base + k) in
      let! cells := aset cells (base + k) (new_child cellSize level cell k old) in
      make_children m (k + 1) base cellSize level cell cells
  end.

(** Lines 369-379: the child of a particle. *)
Definition child_of (rc r : vec) : Z :=
  (if rltb (rc 0%nat) (r 0%nat) then 1 else 0) +
  (if (1 <? ndim)%nat then if rltb (rc 1%nat) (r 1%nat) then 2 else 0 else 0) +
  (if (ndim =? 3)%nat then if rltb (rc 2%nat) (r 2%nat) then 4 else 0 else 0).
(** Lines 362-392: the linked list of the cell is distributed over the children. *)
Fixpoint distribute (fuel : nat) (base ilast : Z) (rc : vec) (i : Z) (cells : list ocell) (inext : list Z) :
  res (list ocell * list Z) :=
  match fuel with
  | O => NoFuel
  | S f =>
      if i =? -1 then Ok (cells, inext)
      else
        let! p := aget ps i in
        let cnew := base + child_of rc (op_r p) in
        let! ch := aget cells cnew in
        let! (ch, inext) :=
          (if o_ifirst ch =? -1 then Ok (set_ifirst i ch, inext)
           else let! inext := aset inext (o_ilast ch) i in Ok (ch, inext)) in
        let! cells := aset cells cnew (set_N (o_N ch + 1) (set_ilast i ch)) in
        if i =? ilast then Ok (cells, inext)
        else
          let! i := aget inext i in
          distribute f base ilast rc i cells inext
  end.
(** Lines 397-401. *)
Fixpoint link_children (n : nat) (c : Z) (cells : list ocell) : res (list ocell) :=
  match n with
  | O => Ok cells
  | S m =>
      let! ch := aget cells c in
      let! cells := aset cells c (set_cnext (c + 1) ch) in
      link_children m (c + 1) cells
  end.
(** Lines 309-404: the cell [c] is divided; its children are the cells from [base] on. *)
Definition divide (cellSize : R) (level base c : Z) (cells : list ocell) (inext : list Z) : res (list ocell * list Z) :=
  let! cell := aget cells c in
  let! cells := make_children (Z.to_nat Noctchild) 0 base cellSize level cell cells in
  let! cell := aget cells c in
  let! (cells, inext) := distribute (S (length inext)) base (o_ilast cell) (o_rc cell) (o_ifirst cell) cells inext in
  let! cell := aget cells c in
  let! cells := aset cells c (set_copen base cell) in
  let! cells := link_children (Z.to_nat Noctchild) base cells in
  let! ch := aget cells (base + (Noctchild - 1)) in
  let! cell := aget cells c in
  let! cells := aset cells (base + (Noctchild - 1)) (set_cnext (o_cnext cell) ch) in
  Ok (cells, inext).
(** Lines 307-406: the loop over the list of unfinished cells, [base] = Ncell + cc*Noctchild. *)
Fixpoint divide_all (cellSize : R) (level base : Z) (l : list Z) (cells : list ocell) (inext : list Z) : res (list ocell * list Z) :=
  match l with
  | [] => Ok (cells, inext)
  | c :: r =>
      let! (cells, inext) := divide cellSize level base c cells inext in
      divide_all cellSize level (base + Noctchild) r cells inext
  end.
(** Lines 417-425: the cells c .. c+n-1 that need to be divided; the array holds [room] entries. *)
Fixpoint unfinished (n : nat) (c : Z) (room : Z) (cells : list ocell) : res (list Z) :=
  match n with
  | O => Ok []
  | S m =>
      let! ch := aget cells c in
      if Nleafmax <? o_N ch then
        if room =? 0 then UB
        else let! l := unfinished m (c + 1) (room - 1) cells in Ok (c :: l)
      else unfinished m (c + 1) room cells
  end.
(** Lines 302-433. *)
Fixpoint levels (fuel : nat) (Npartmax : Z) (cellSize : R) (l : list Z) (t : octree) : res octree :=
  match fuel with
  | O => NoFuel
  | S f =>
      let cellSize := (cellSize * (1/2))%R in
      let! (cells, inext) := divide_all cellSize (o_ltot t + 1) (o_Ncell t) l (o_cells t) (o_inext t) in
      let Ncell := o_Ncell t + Noctchild * zlen l in
      let ltot := o_ltot t + 1 in
      let! x := aget (o_last t) (ltot - 1) in
      let! first := aset (o_first t) ltot (x + 1) in
      let! last := aset (o_last t) ltot (Ncell - 1) in
      let! l := unfinished (Z.to_nat (Ncell - 1 - (x + 1) + 1)) (x + 1) Npartmax cells in
      let t := {| o_cells := cells; o_inext := inext; o_first := first; o_last := last; o_Ncell := Ncell; o_ltot := ltot;
                  o_Ntotmax := o_Ntotmax t |} in
      if lmax <=? ltot then Raise
      else match l with [] => Ok t | _ => levels f Npartmax cellSize l t end
  end.

(** Lines 210-436, for Npart > 0; the member Ntot has been set to Npart (HydroTree.cpp:342, 412,
    1395) and _ilast = _ifirst + Npart - 1. *)
Definition grow_tree (ifirst Npart Npartmax : Z) (t : octree) : res octree :=
  let t := AllocateTreeMemory Npartmax 0 t in
  let cells := map (reset_cell (o_Ncellmax t)) (o_cells t) in
  let! inext := link_all (Z.to_nat Npart) ifirst (o_inext t) in
  let! c0 := aget cells 0 in
  let! cells := aset cells 0 (root_cell Npart ifirst (ifirst + Npart - 1) c0) in
  let cellSize := root_size ndim c0 in
  if Npartmax =? 0 then UB
  else
    let! first := aset (o_first t) 0 0 in
    let! last := aset (o_last t) 0 0 in
    levels (S (Z.to_nat lmax)) Npartmax cellSize [0]
      {| o_cells := cells; o_inext := inext; o_first := first; o_last := last; o_Ncell := 1; o_ltot := 0; o_Ntotmax := o_Ntotmax t |}.

(** ** StockTree *)

(** Lines 514-531: dead particles are taken out of the list of a leaf cell; [iaux] is the last
    live one so far, [first] the first one. *)
Fixpoint relink (fuel : nat) (ilast i iaux first : Z) (inext : list Z) : res (Z * Z * list Z) :=
  match fuel with
  | O => NoFuel
  | S f =>
      if i =? -1 then Ok (first, iaux, inext)
      else
        let! p := aget ps i in
        let! (iaux, first, inext) :=
          (if op_dead p then Ok (iaux, first, inext)
           else if iaux =? -1 then Ok (i, i, inext)
           else let! inext := aset inext iaux i in Ok (i, first, inext)) in
        if i =? ilast then Ok (first, iaux, inext)
        else let! i := aget inext i in relink f ilast i iaux first inext
  end.
(** Lines 534-562: number and bounding box of the live particles. *)
Definition grow_box (r : vec) (b : vec * vec) : vec * vec :=
  (fun d => if (d <? ndim)%nat then if rltb (r d) (fst b d) then r d else fst b d else fst b d,
   fun d => if (d <? ndim)%nat then if rltb (snd b d) (r d) then r d else snd b d else snd b d).
Fixpoint sum_leaf (fuel : nat) (inext : list Z) (ilast i : Z) (N : Z) (b : vec * vec) : res (Z * (vec * vec)) :=
  match fuel with
  | O => NoFuel
  | S f =>
      if i =? -1 then Ok (N, b)
      else
        let! p := aget ps i in
        let '(N, b) := if op_dead p then (N, b) else (N + 1, grow_box (op_r p) b) in
        if i =? ilast then Ok (N, b)
        else let! i := aget inext i in sum_leaf f inext ilast i N b
  end.
(** Lines 500-503. *)
Definition empty_box (c : ocell) : vec * vec :=
  (fun d => if (d <? ndim)%nat then big_number else o_min c d, fun d => if (d <? ndim)%nat then (- big_number)%R else o_max c d).
(** Lines 626-655: from the children. *)
Definition join_box (a b : vec * vec) : vec * vec :=
  (fun d => if (d <? ndim)%nat then Rmin (fst b d) (fst a d) else fst a d,
   fun d => if (d <? ndim)%nat then Rmax (snd b d) (snd a d) else snd a d).
Fixpoint sum_children (fuel : nat) (cells : list ocell) (cend cc : Z) (N : Z) (b : vec * vec) : res (Z * (vec * vec)) :=
  match fuel with
  | O => NoFuel
  | S f =>
      if cc =? cend then Ok (N, b)
      else
        let! ch := aget cells cc in
        let '(N, b) := if 0 <? o_N ch then (N + o_N ch, join_box b (o_min ch, o_max ch)) else (N, b) in
        sum_children f cells cend (o_cnext ch) N b
  end.
Definition stock_cell (c : Z) (cells : list ocell) (inext : list Z) : res (list ocell * list Z) :=
  let! cell := aget cells c in
  if o_copen cell =? -1 then
    let! (x, inext) := relink (S (length inext)) (o_ilast cell) (o_ifirst cell) (-1) (-1) inext in
    let (first, iaux) := x in
    let! (N, b) := sum_leaf (S (length inext)) inext iaux first 0 (empty_box cell) in
    let! cells := aset cells c (set_box (fst b) (snd b) (set_N N (set_ilast iaux (set_ifirst first cell)))) in
    Ok (cells, inext)
  else
    let! (N, b) := sum_children (S (length cells)) cells (o_cnext cell) (o_copen cell) 0 (empty_box cell) in
    let! cells := aset cells c (set_box (fst b) (snd b) (set_N N cell)) in
    Ok (cells, inext).
Fixpoint stock_cells (n : nat) (c : Z) (cells : list ocell) (inext : list Z) : res (list ocell * list Z) :=
  match n with
  | O => Ok (cells, inext)
  | S m => let! (cells, inext) := stock_cell c cells inext in stock_cells m (c + 1) cells inext
  end.
(** Lines 482-488: the levels from the deepest to the root. *)
Fixpoint stock_levels (n : nat) (t : octree) (cells : list ocell) (inext : list Z) : res (list ocell * list Z) :=
  match n with
  | O => Ok (cells, inext)
  | S l =>
      let! a := aget (o_first t) (Z.of_nat l) in
      let! b := aget (o_last t) (Z.of_nat l) in
      let! (cells, inext) := stock_cells (Z.to_nat (b - a + 1)) a cells inext in
      stock_levels l t cells inext
  end.
Definition StockTree (t : octree) : res octree :=
  let! (cells, inext) := stock_levels (S (Z.to_nat (o_ltot t))) t (o_cells t) (o_inext t) in
  Ok {| o_cells := cells; o_inext := inext; o_first := o_first t; o_last := o_last t; o_Ncell := o_Ncell t; o_ltot := o_ltot t;
        o_Ntotmax := o_Ntotmax t |}.

(** Lines 210-445. *)
Definition BuildTree (ifirst Npart Npartmax : Z) (t : octree) : res octree :=
  let! t := grow_tree ifirst Npart Npartmax t in StockTree t.
End Build.
