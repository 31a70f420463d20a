(** Model of the tree searches of src/Tree/Tree.cpp. *)
From Verif Require Import Prelude M_Walk.
Local Open Scope Z_scope.

(** Read access to the tree: the integer fields of celldata[c] and the array inext. *)
Record tview := mkview {
  vopen : Z -> res Z;  vnext : Z -> res Z;  vN : Z -> res Z;
  vfirst : Z -> res Z; vlast : Z -> res Z;  vinext : Z -> res Z }.

(** The loop [i = first; while (i != -1) { ...i...; if (i == last) break; i = inext[i]; }]
    (Tree.cpp:249-256, 338-343, 531-536, 668-674 and others), as the list of the ids it
    goes through. *)
Fixpoint read_list (fuel : nat) (inext : Z -> res Z) (i last : Z) : res (list Z) :=
  match fuel with
  | O => NoFuel
  | S f =>
      if i =? -1 then Ok []
      else if i =? last then Ok [i]
      else let! j := inext i in let! l := read_list f inext j last in Ok (i :: l)
  end.

Definition cell_list (fuel : nat) (v : tview) (c : Z) : res (list Z) :=
  let! f := vfirst v c in let! l := vlast v c in read_list fuel (vinext v) f l.

(** [neiblist[Nneib++] = i] for the ids selected by [keep], in a buffer of [cap] entries. *)
Fixpoint push_all (cap : Z) (keep : Z -> res bool) (l : list Z) (neib : list Z) : res (list Z) :=
  match l with
  | [] => Ok neib
  | p :: l' =>
      let! k := keep p in
      if k then
        if zlen neib <? cap then push_all cap keep l' (neib ++ [p]) else UB
      else push_all cap keep l' neib
  end.

(** Body of the gather walks, Tree.cpp:231-274 and 324-361 and 424-462 (without the
    periodic images).  [opn c] is the geometric test of cell [c]; [keep p] the test
    applied to the particles of a leaf while they are added (constant [true] when the
    list is trimmed afterwards).  [neib] is the buffer filled so far. *)
Definition gather_visit (fuel : nat) (v : tview) (opn keep : Z -> res bool) (Nleafmax Nneibmax : Z)
    (c : Z) (neib : list Z) : res (list Z * ctl) :=
  let! o := opn c in
  if o then
    let! co := vopen v c in
    if negb (co =? -1) then Ok (neib, Down)
    else
      let! n := vN v c in
      if n =? 0 then Ok (neib, Skip)
      else if zlen neib + Nleafmax <? Nneibmax then
        let! l := cell_list fuel v c in
        let! neib' := push_all Nneibmax keep l neib in
        Ok (neib', Skip)
      else Ok (neib, Stop)
  else Ok (neib, Skip).

(** The same without a buffer limit (the NeighbourManager grows its own storage),
    Tree.cpp:512-551 and 578-615. *)
Definition manager_visit (fuel : nat) (v : tview) (opn : Z -> res bool) (c : Z) (neib : list Z)
    : res (list Z * ctl) :=
  let! o := opn c in
  if o then
    let! co := vopen v c in
    if negb (co =? -1) then Ok (neib, Down)
    else
      let! n := vN v c in
      if n =? 0 then Ok (neib, Skip)
      else let! l := cell_list fuel v c in Ok (neib ++ l, Skip)
  else Ok (neib, Skip).

(** The gravity walk, Tree.cpp:650-731.  State: neighbours, direct-sum particles and
    cells accepted as multipoles.  [near c]: the spheres overlap (657-658); [opn c]:
    open_cell_for_gravity (Tree.h:413-432). *)
Definition grav_visit (fuel : nat) (v : tview) (near opn : Z -> res bool) (c : Z)
    (s : list Z * list Z * list Z) : res ((list Z * list Z * list Z) * ctl) :=
  let '(neib, direct, gcells) := s in
  let! b := near c in
  let! n := vN v c in
  let! co := vopen v c in
  if b then
    if negb (co =? -1) then Ok (s, Down)
    else if n =? 0 then Ok (s, Skip)
    else let! l := cell_list fuel v c in Ok ((neib ++ l, direct, gcells), Skip)
  else if n =? 0 then Ok (s, Skip)
  else
    let! o := opn c in
    if negb o then
      if ((co =? -1) && (n =? 1))%bool then
        let! f := vfirst v c in Ok ((neib, direct ++ [f], gcells), Skip)
      else Ok ((neib, direct, gcells ++ [c]), Skip)
    else if negb (co =? -1) then Ok (s, Down)
    else let! l := cell_list fuel v c in Ok ((neib, direct ++ l, gcells), Skip).

(** The walk of one star, Tree.cpp:785-876, with its three buffers.  [near]: 792-793;
    [far]: [drsqd > cdistsqd] (819); [keep]: not dead. *)
Definition star_visit (fuel : nat) (v : tview) (near far keep : Z -> res bool)
    (Nleafmax Nneibmax Ndirectmax Ngravcellmax : Z) (c : Z)
    (s : list Z * list Z * list Z) : res ((list Z * list Z * list Z) * ctl) :=
  let '(neib, direct, gcells) := s in
  let! b := near c in
  let! co := vopen v c in
  if b then
    if negb (co =? -1) then Ok (s, Down)
    else if zlen neib + Nleafmax <=? Nneibmax then
      let! l := cell_list fuel v c in
      let! neib' := push_all Nneibmax keep l neib in
      Ok ((neib', direct, gcells), Skip)
    else Ok (s, Stop)
  else
    let! f := far c in
    let! n := vN v c in
    if (f && (0 <? n))%bool then
      if ((co =? -1) && (n =? 1) && (zlen direct + zlen neib <? Ndirectmax))%bool then
        let! i := vfirst v c in
        let! direct' := push_all Ndirectmax keep [i] direct in
        Ok ((neib, direct', gcells), Skip)
      else if ((zlen gcells <? Ngravcellmax) && (0 <? n))%bool then Ok ((neib, direct, gcells ++ [c]), Skip)
      else Ok (s, Stop)
    else if (negb f && (0 <? n))%bool then
      if negb (co =? -1) then Ok (s, Down)
      else if zlen direct + Nleafmax <=? Ndirectmax then
        let! l := cell_list fuel v c in
        let! direct' := push_all Ndirectmax keep l direct in
        Ok ((neib, direct', gcells), Skip)
      else Ok (s, Stop)
    else Ok (s, Skip).
