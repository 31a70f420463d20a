(** Model of the KD-tree construction, src/Tree/KDTree.cpp. *)
From Verif Require Import Prelude.
Local Open Scope Z_scope.

(** Three-assignment exchange of two array entries, as written in
    KDTree.cpp:705-707, 716-718, 727-729. *)
Definition swap (l : list Z) (i j : Z) : res (list Z) :=
  let! x := aget l i in
  let! y := aget l j in
  let! l1 := aset l i y in
  aset l1 j x.

(** The k-coordinate of the particle whose id is stored at position [j]:
    [partdata[ids[j]].r[k]].  [key] is the array of k-coordinates of all particles
    (coordinates are only compared, hence [Z]). *)
Definition keyat (key ids : list Z) (j : Z) : res Z :=
  let! a := aget ids j in aget key a.

(** KDTree.cpp:713-722, the partition loop, from [j] for [n] = right-j iterations. *)
Fixpoint qs_partition (key ids : list Z) (rpivot jguess j : Z) (n : nat) : res (list Z * Z) :=
  match n with
  | O => Ok (ids, jguess)
  | S n' =>
      let! v := keyat key ids j in
      if v <=? rpivot then
        let! ids' := swap ids j jguess in
        qs_partition key ids' rpivot (jguess + 1) (j + 1) n'
      else qs_partition key ids rpivot jguess (j + 1) n'
  end.

(** KDTree.cpp:682-750, QuickSelect(left, right, jpivot, k, partdata).
    Returns the new [ids] array and the value [rpivot].  One unit of fuel per
    iteration of the do-while loop.  C integer division truncates ([Z.quot]). *)
Fixpoint QuickSelect (fuel : nat) (key ids : list Z) (left right jpivot : Z) : res (list Z * Z) :=
  match fuel with
  | O => NoFuel
  | S fuel' =>
      let jguess0 := Z.quot (left + right) 2 in
      let! rpivot := keyat key ids jguess0 in
      let! ids1 := swap ids jguess0 right in
      let! (ids2, jguess) := qs_partition key ids1 rpivot left left (Z.to_nat (right - left)) in
      let! ids3 := swap ids2 right jguess in
      if jguess <? jpivot then QuickSelect fuel' key ids3 (jguess + 1) right jpivot
      else if jpivot <? jguess then QuickSelect fuel' key ids3 left (jguess - 1) jpivot
      else Ok (ids3, rpivot)
  end.

(** The fields of KDTreeCell / TreeCellBase (src/Headers/KDTree.h:40-70,
    src/Headers/TreeCell.h) that describe the structure of the tree.  [level] is not
    initialised by [new], hence an [option].  The remaining (geometric and physical)
    fields are modelled in M_Stock.v. *)
Record kcell := mkcell {
  level  : option Z;
  c2g    : Z;  copen  : Z;  cnext : Z;  c1 : Z;  c2 : Z;
  ifirst : Z;  ilast  : Z;  cN    : Z;
  bbmin  : list Z;  bbmax : list Z }.

Definition set_level (x : Z) (k : kcell) :=
  mkcell (Some x) (c2g k) (copen k) (cnext k) (c1 k) (c2 k) (ifirst k) (ilast k) (cN k) (bbmin k) (bbmax k).
Definition set_links (g o n a b : Z) (k : kcell) :=
  mkcell (level k) g o n a b (ifirst k) (ilast k) (cN k) (bbmin k) (bbmax k).
Definition set_cnext (n : Z) (k : kcell) :=
  mkcell (level k) (c2g k) (copen k) n (c1 k) (c2 k) (ifirst k) (ilast k) (cN k) (bbmin k) (bbmax k).
Definition set_range (f l : Z) (k : kcell) :=
  mkcell (level k) (c2g k) (copen k) (cnext k) (c1 k) (c2 k) f l (cN k) (bbmin k) (bbmax k).
Definition set_N (n : Z) (k : kcell) :=
  mkcell (level k) (c2g k) (copen k) (cnext k) (c1 k) (c2 k) (ifirst k) (ilast k) n (bbmin k) (bbmax k).
Definition set_bb (a b : list Z) (k : kcell) :=
  mkcell (level k) (c2g k) (copen k) (cnext k) (c1 k) (c2 k) (ifirst k) (ilast k) (cN k) a b.

(** [celldata[i].field = ...] *)
Definition cmod (cs : list kcell) (i : Z) (f : kcell -> kcell) : res (list kcell) :=
  let! k := aget cs i in aset cs i (f k).

(** Reading [celldata[c].level]: undefined when never written. *)
Definition get_level (k : kcell) : res Z :=
  match level k with Some l => Ok l | None => UB end.

(** KDTree.cpp:328-331 and 336-339: the loop [while (Nleafmax*pow(2,l) < n) l++]
    ([pow] of 2 and a small integer is exact). *)
Fixpoint tree_levels (fuel : nat) (Nleafmax n l : Z) : res Z :=
  match fuel with
  | O => NoFuel
  | S f => if Nleafmax * 2 ^ l <? n then tree_levels f Nleafmax n (l + 1) else Ok l
  end.

(** KDTree.cpp:322-352 ComputeTreeSize; returns (lmax, gmax, Ncellmax, ltot, gtot, Ncell). *)
Definition ComputeTreeSize (fuel : nat) (Nleafmax Ntotmax Ntot : Z) : res (Z * Z * Z * Z * Z * Z) :=
  let! lmax := tree_levels fuel Nleafmax Ntotmax 0 in
  let! ltot := tree_levels fuel Nleafmax Ntot 0 in
  Ok (lmax, 2 ^ lmax, 2 * 2 ^ lmax - 1, ltot, 2 ^ ltot, 2 * 2 ^ ltot - 1).

(** KDTree.cpp:376-379: the tables c2L and cNL have ltot+1 entries, of which the
    first ltot are written. *)
Definition c2L (ltot l : Z) : res Z :=
  if ((0 <=? l) && (l <? ltot))%bool then Ok (2 ^ (ltot - l)) else UB.
Definition cNL (ltot l : Z) : res Z :=
  let! x := c2L ltot l in Ok (2 * x - 1).

(** KDTree.cpp:383-394: reset of the first Ncell cells. *)
Definition reset_cell (k : kcell) : kcell :=
  mkcell (level k) 0 (-1) (-1) (-1) (-1) (-1) (-1) 0 (bbmin k) (bbmax k).
Fixpoint reset_cells (cs : list kcell) (c : Z) (n : nat) : res (list kcell) :=
  match n with
  | O => Ok cs
  | S n' => let! cs' := cmod cs c reset_cell in reset_cells cs' (c + 1) n'
  end.

(** KDTree.cpp:401-425: one iteration of the loop over cells.  State: the cells, the
    table g2c (of length gmax) and the counter g. *)
Definition cts_step (ltot gmax c : Z) (s : list kcell * list Z * Z) : res (list kcell * list Z * Z) :=
  let '(cs, g2c, g) := s in
  let! k := aget cs c in
  let! lv := get_level k in
  let! (s' : list kcell * list Z * Z) :=
    if lv =? ltot then
      let! cs := cmod cs c (set_links g (copen k) (c + 1) (c1 k) (c2 k)) in
      if negb (g <? gmax) then Raise
      else let! g2c' := aset g2c g c in Ok (cs, g2c', g + 1)
    else
      let! cs := cmod cs (c + 1) (set_level (lv + 1)) in
      let! s2 := c2L ltot lv in
      let! sN := cNL ltot lv in
      let! cs := cmod cs c (set_links (c2g k) (c + 1) (c + sN) (c + 1) (c + s2)) in
      let! cs := cmod cs (c + s2) (set_level (lv + 1)) in
      Ok (cs, g2c, g) in
  if negb (lv <=? c) then Raise else Ok s'.

Fixpoint cts_loop (ltot gmax c : Z) (n : nat) (s : list kcell * list Z * Z)
  : res (list kcell * list Z * Z) :=
  match n with
  | O => Ok s
  | S n' => let! s' := cts_step ltot gmax c s in cts_loop ltot gmax (c + 1) n' s'
  end.

(** KDTree.cpp:362-433 CreateTreeStructure. *)
Definition CreateTreeStructure (ltot gmax Ncell : Z) (cs : list kcell) (g2c : list Z)
  : res (list kcell * list Z) :=
  let g2c0 := map (fun _ => 0) g2c in
  let! cs := reset_cells cs 0 (Z.to_nat Ncell) in
  let! cs := cmod cs 0 (set_level 0) in
  let! (cs, g2c', _) := cts_loop ltot gmax 0 (Z.to_nat Ncell) (cs, g2c0, 0) in
  Ok (cs, g2c').

(** Mutable state of the construction: the arrays [ids], [inext] and [celldata]. *)
Record kst := mkst { ids : list Z; inext : list Z; cells : list kcell }.

(** KDTree.cpp:463: [for (j=cell.ifirst; j<cell.ilast; j++) inext[ids[j]] = ids[j+1]]. *)
Fixpoint link_loop (ids inext : list Z) (j : Z) (n : nat) : res (list Z) :=
  match n with
  | O => Ok inext
  | S n' =>
      let! a := aget ids j in
      let! b := aget ids (j + 1) in
      let! inext' := aset inext a b in
      link_loop ids inext' (j + 1) n'
  end.

(** KDTree.cpp:861-873: dead particles are removed from the linked list of a leaf.
    Returns the new [inext], [ifirst] and [ilast]. *)
Fixpoint purge (fuel : nat) (dead : list bool) (inext : list Z) (i ilast first iaux : Z)
  : res (list Z * Z * Z) :=
  match fuel with
  | O => NoFuel
  | S f =>
      if i =? -1 then Ok (inext, first, iaux)
      else
        let! d := aget dead i in
        let! (s : list Z * Z * Z) :=
          if negb d then
            if iaux =? -1 then Ok (inext, i, i)
            else let! inext' := aset inext iaux i in Ok (inext', first, i)
          else Ok (inext, first, iaux) in
        let '(inext', first', iaux') := s in
        if i =? ilast then Ok (inext', first', iaux')
        else let! i' := aget inext' i in purge f dead inext' i' ilast first' iaux'
  end.

(** KDTree.cpp:876-907 restricted to the counter [cell.N]. *)
Fixpoint count_live (fuel : nat) (dead : list bool) (inext : list Z) (i ilast n : Z) : res Z :=
  match fuel with
  | O => NoFuel
  | S f =>
      if i =? -1 then Ok n
      else
        let! d := aget dead i in
        let n' := if negb d then n + 1 else n in
        if i =? ilast then Ok n'
        else let! i' := aget inext i in count_live f dead inext i' ilast n'
  end.

(** KDTree.cpp:808-, StockCellProperties(cell, partdata, true) restricted to the fields
    N, ifirst, ilast and the array inext (the physical fields are in M_Stock.v).  The
    bounding box is overwritten by the code; it is not read again during the build. *)
Definition StockLists (dead : list bool) (ltot : Z) (s : kst) (c : Z) : res kst :=
  let! k := aget (cells s) c in
  let! lv := get_level k in
  let fuel := S (length (inext s)) in
  if lv =? ltot then
    let! (r : list Z * Z * Z) := purge fuel dead (inext s) (ifirst k) (ilast k) (-1) (-1) in
    let '(inext', first, last) := r in
    let! n := count_live fuel dead inext' first last 0 in
    let! cs := cmod (cells s) c (fun k => set_N n (set_range first last k)) in
    Ok (mkst (ids s) inext' cs)
  else if negb (copen k =? -1) then
    let! k1 := aget (cells s) (copen k) in
    let! k2 := aget (cells s) (cnext k1) in
    let! cs := cmod (cells s) c (set_N (cN k1 + cN k2)) in
    Ok (mkst (ids s) (inext s) cs)
  else Ok s.

(** KDTree.cpp:490-497: the split axis is the longest side of the box (first one on
    ties).  Coordinates are integers here: every finite double is an integer multiple of
    2^-1074; the rounding of the subtraction is not modelled. *)
Fixpoint longest_axis (bmin bmax : list Z) (k kdiv rk : Z) : Z :=
  match bmin, bmax with
  | a :: bmin', b :: bmax' =>
      if rk <? b - a then longest_axis bmin' bmax' (k + 1) k (b - a)
      else longest_axis bmin' bmax' (k + 1) kdiv rk
  | _, _ => kdiv
  end.

(** KDTree.cpp:442-595 DivideTreeCell, without OpenMP and MPI.  [pos] holds one array of
    coordinates per dimension.  One unit of fuel per level. *)
Fixpoint DivideTreeCell (fuel : nat) (pos : list (list Z)) (dead : list bool) (ltot : Z)
    (fi la : Z) (c : Z) (s : kst) : res kst :=
  match fuel with
  | O => NoFuel
  | S f =>
    let! k := aget (cells s) c in
    let! lv := get_level k in
    if lv =? ltot then
      let! (s1 : kst) :=
        if 0 <? cN k then
          if negb (ilast k - ifirst k =? cN k - 1) then Raise
          else
            let! inext' := link_loop (ids s) (inext s) (ifirst k) (Z.to_nat (ilast k - ifirst k)) in
            let! a := aget (ids s) (ifirst k) in
            let! b := aget (ids s) (ilast k) in
            let! cs := cmod (cells s) c (set_range a b) in
            Ok (mkst (ids s) inext' cs)
        else
          let! cs := cmod (cells s) c (set_range (-1) (-1)) in
          Ok (mkst (ids s) (inext s) cs) in
      StockLists dead ltot s1 c
    else
      let kd := longest_axis (bbmin k) (bbmax k) 0 0 0 in
      let! key := aget pos kd in
      let N := cN k in
      let! (q : list Z * Z) := QuickSelect (S (Z.to_nat (ilast k - ifirst k))) key (ids s)
                                 (ifirst k) (ilast k) (ifirst k + Z.quot N 2) in
      let '(ids1, rdivide) := q in
      let N1 := Z.quot N 2 in
      let N2 := N - N1 in
      let! bmax1 := aset (bbmax k) kd rdivide in
      let! bmin2 := aset (bbmin k) kd rdivide in
      (* first child *)
      let! cs1 := cmod (cells s) (c1 k) (fun x => set_N N1 (set_bb (bbmin k) bmax1 x)) in
      let! cs2 := (if negb (N1 =? 0) then
                     if negb (fi + N1 - 1 - fi =? N1 - 1) then Raise
                     else cmod cs1 (c1 k) (set_range fi (fi + N1 - 1))
                   else Ok cs1) in
      (* second child *)
      let! cs3 := cmod cs2 (c2 k) (fun x => set_N N2 (set_bb bmin2 (bbmax k) x)) in
      let! cs4 := (if negb (N2 =? 0) then
                     if negb (la - (fi + N1) =? N2 - 1) then Raise
                     else cmod cs3 (c2 k) (set_range (fi + N1) la)
                   else Ok cs3) in
      (* recursion: lines 566-569 *)
      let! s5 := DivideTreeCell f pos dead ltot fi (fi + N1 - 1) (c1 k) (mkst ids1 (inext s) cs4) in
      let! s6 := DivideTreeCell f pos dead ltot (fi + N1) la (c2 k) s5 in
      (* lines 575-586 *)
      let! k1 := aget (cells s6) (c1 k) in
      let! k2 := aget (cells s6) (c2 k) in
      let! (r : list Z * Z) :=
        if 0 <? cN k1 then
          let! inext' := aset (inext s6) (ilast k1) (ifirst k2) in Ok (inext', ifirst k1)
        else Ok (inext s6, ifirst k2) in
      let '(inext7, first) := r in
      let! cs7 := cmod (cells s6) c (set_range first (ilast k2)) in
      if negb (N =? cN k1 + cN k2) then Raise
      else if ((first =? -1) && (ilast k2 =? -1))%bool then Raise
      else StockLists dead ltot (mkst (ids s6) inext7 cs7) c
  end.

(** KDTree.cpp:276-277: [for (i=ifirst; i<=ilast; i++) ids[i] = i;]
    and [inext[i] = i+1]; [n] iterations from [i]. *)
Fixpoint init_ids (l : list Z) (i : Z) (n : nat) : res (list Z) :=
  match n with O => Ok l | S n' => let! l' := aset l i i in init_ids l' (i + 1) n' end.
Fixpoint init_next (l : list Z) (i : Z) (n : nat) : res (list Z) :=
  match n with O => Ok l | S n' => let! l' := aset l i (i + 1) in init_next l' (i + 1) n' end.

(** KDTree.cpp:221-313 BuildTree after the arrays have been allocated (AllocateTreeMemory,
    101-134, provides [ids] and [inext] with Ntotmax entries, [celldata] with Ncellmax
    and g2c with gmax entries).  The callers (HydroTree.cpp) set Ntot = Npart before the
    call.  [bbmin0], [bbmax0]: bounding box of the root. *)
Definition BuildTree (pos : list (list Z)) (dead : list bool) (Nleafmax Ntotmax : Z)
    (first Npart : Z) (bbmin0 bbmax0 : list Z) (s : kst) (g2c : list Z) : res (kst * list Z) :=
  let Ntot := Npart in
  let! (sz : Z * Z * Z * Z * Z * Z) := ComputeTreeSize (S (Z.to_nat (Z.max Ntotmax Ntot))) Nleafmax Ntotmax Ntot in
  let '(lmax, gmax, Ncellmax, ltot, gtot, Ncell) := sz in
  let! (cs, g2c') := CreateTreeStructure ltot gmax Ncell (cells s) g2c in
  let! (r : list Z * list Z * Z * Z) :=
    if 0 <? Npart then
      let last := first + Npart - 1 in
      let! ids' := init_ids (ids s) first (Z.to_nat Npart) in
      let! inext' := init_next (inext s) first (Z.to_nat (Npart - 1)) in
      let! inext' := aset inext' last (-1) in
      Ok (ids', inext', first, last)
    else Ok (ids s, inext s, -1, -1) in
  let '(ids', inext', f, l) := r in
  let! cs := cmod cs 0 (fun k => set_bb bbmin0 bbmax0 (set_cnext Ncellmax (set_range f l (set_N Ntot k)))) in
  let s0 := mkst ids' inext' cs in
  if 0 <? Ntot then
    let! s1 := DivideTreeCell (S (Z.to_nat ltot)) pos dead ltot f l 0 s0 in Ok (s1, g2c')
  else Ok (s0, g2c').
