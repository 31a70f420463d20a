(** Geometric tests of the tree searches of src/Tree/Tree.cpp, on the stocked cells. *)
From Verif Require Import Prelude Vec M_Walk M_KDTree M_Search M_Stock M_Box.
From Coq Require Import Reals.
Local Open Scope Z_scope.

(** The integer fields of the cells and the array inext, as seen by the walks. *)
Definition kget {A} (cs : list kcell) (f : kcell -> A) (c : Z) : res A := let! k := aget cs c in Ok (f k).
Definition view_of (s : kst) : tview :=
  mkview (kget (cells s) copen) (kget (cells s) cnext) (kget (cells s) cN)
         (kget (cells s) ifirst) (kget (cells s) ilast) (aget (inext s)).
Definition tfuel (s : kst) : nat := S (length (inext s)).

Section Tests.
Variables (ndim : nat) (kernrange : R) (pd : list particle) (gs : list gcell).
Local Open Scope R_scope.

(** Tree.cpp:231-237. *)
Definition point_opn (rp : vec) (rsearch : R) (c : Z) : res bool :=
  let! g := aget gs c in
  let dr := vsub (grcell g) rp in
  Ok (rltb (dot ndim dr dr) ((rsearch + grmax g) * (rsearch + grmax g))).
(** Tree.cpp:253-255. *)
Definition point_keep (rp : vec) (rsearch : R) (i : Z) : res bool :=
  let! p := aget pd i in
  let dr := vsub (p_r p) rp in
  Ok (rltb (dot ndim dr dr) (rsearch * rsearch) && negb (p_dead p)).

(** Tree.cpp:318-319, 328. *)
Definition cell_opn (g0 : gcell) (hmax : R) (c : Z) : res bool :=
  let! g := aget gs c in
  Ok (BoxOverlap ndim (fun k => gbmin g0 k - kernrange * hmax) (fun k => gbmax g0 k + kernrange * hmax)
                 (gbmin g) (gbmax g)).
(** Tree.cpp:310, 370-374. *)
Definition cell_keep (g0 : gcell) (hmax : R) (i : Z) : res bool :=
  let! p := aget pd i in
  if p_dead p then Ok false
  else
    let dr := vsub (p_r p) (grcell g0) in
    Ok (rltb (dot ndim dr dr) ((grmax g0 + kernrange * hmax) ^ 2)).

(** Tree.cpp:432-433 and 516-517. *)
Definition neib_opn (g0 : gcell) (c : Z) : res bool :=
  let! g := aget gs c in
  Ok (BoxOverlap ndim (gbmin g0) (gbmax g0) (ghbmin g) (ghbmax g) ||
      BoxOverlap ndim (ghbmin g0) (ghbmax g0) (gbmin g) (gbmax g)).
(** Tree.cpp:478-483. *)
Definition neib_keep (g0 : gcell) (i : Z) : res bool :=
  let! p := aget pd i in
  if p_dead p then Ok false
  else
    let dr := vsub (p_r p) (grcell g0) in
    Ok (rltb (dot ndim dr dr) ((grmax g0 + kernrange * ghmax g0) ^ 2) ||
        rltb (dot ndim dr dr) ((grmax g0 + kernrange * p_h p) * (grmax g0 + kernrange * p_h p))).

(** Tree.cpp:652-658; [wrap] is GhostFinder.NearestPeriodicVector (the identity in a
    domain without periodic boundaries). *)
Definition grav_near (wrap : vec -> vec) (g0 : gcell) (c : Z) : res bool :=
  let! g := aget gs c in
  let dr := wrap (vsub (grcell g) (grcell g0)) in
  let d2 := dot ndim dr dr in
  Ok (rleb d2 ((grmax g + grmax g0 + kernrange * ghmax g0) ^ 2) ||
      rleb d2 ((grmax g0 + grmax g + kernrange * ghmax g) ^ 2)).
(** Tree.h:413-432 open_cell_for_gravity, geometric criterion (default case). *)
Definition grav_opn (wrap : vec -> vec) (g0 : gcell) (c : Z) : res bool :=
  let! g := aget gs c in
  let dr := wrap (vsub (grcell g) (grcell g0)) in
  Ok (rltb (dot ndim dr dr) (gcdistsqd g)).
End Tests.

(** In-place removal of unwanted entries, Tree.cpp:367-375 and 471-488:
    [for (j=Nneib; j<Ntemp; j++) { i = neiblist[j]; if (keep i) neiblist[Nneib++] = i; }] *)
Fixpoint trim (keep : Z -> res bool) (buf : list Z) (j : Z) (n : nat) (Nneib : Z) : res (list Z * Z) :=
  match n with
  | O => Ok (buf, Nneib)
  | S n' =>
      let! i := aget buf j in
      let! k := keep i in
      if k then
        let! buf' := aset buf Nneib i in
        trim keep buf' (j + 1) n' (Nneib + 1)
      else trim keep buf (j + 1) n' Nneib
  end.

(** Result of a search: [Some l] is the contents of neiblist[0..Nneib-1], [None] the
    return value -1. *)
Definition gather_point (ndim : nat) (pd : list particle) (s : tstate) (Ncell Nleafmax Nneibmax : Z)
    (rp : vec) (rsearch : R) (neib : list Z) : res (option (list Z)) :=
  let v := view_of (ts_k s) in
  let! (neib', stopped) :=
    walk (vopen v) (vnext v) Ncell
      (gather_visit (tfuel (ts_k s)) v (point_opn ndim (ts_g s) rp rsearch) (point_keep ndim pd rp rsearch) Nleafmax Nneibmax)
      (Z.to_nat Ncell) 0 neib in
  Ok (if stopped : bool then None else Some neib').

(** Tree.cpp:291-381 and 394-493 (opn/keep differ). *)
Definition gather_trim (s : kst) (Ncell Nleafmax Nneibmax : Z) (opn keep : Z -> res bool) (neib : list Z)
    : res (option (list Z)) :=
  let v := view_of s in
  let! (buf, stopped) :=
    walk (vopen v) (vnext v) Ncell
      (gather_visit (tfuel s) v opn (fun _ => Ok true) Nleafmax Nneibmax)
      (Z.to_nat Ncell) 0 neib in
  if stopped : bool then Ok None
  else
    let! (buf', n) := trim keep buf (zlen neib) (Z.to_nat (zlen buf - zlen neib)) (zlen neib) in
    Ok (Some (firstn (Z.to_nat n) buf')).

Definition gather_cell (ndim : nat) (kernrange : R) (pd : list particle) (s : tstate)
    (Ncell Nleafmax Nneibmax : Z) (g0 : gcell) (hmax : R) (neib : list Z) : res (option (list Z)) :=
  gather_trim (ts_k s) Ncell Nleafmax Nneibmax (cell_opn ndim kernrange (ts_g s) g0 hmax)
              (cell_keep ndim kernrange pd g0 hmax) neib.
Definition neighbour_list (ndim : nat) (kernrange : R) (pd : list particle) (s : tstate)
    (Ncell Nleafmax Nneibmax : Z) (g0 : gcell) (neib : list Z) : res (option (list Z)) :=
  gather_trim (ts_k s) Ncell Nleafmax Nneibmax (neib_opn ndim (ts_g s) g0)
              (neib_keep ndim kernrange pd g0) neib.

(** Tree.cpp:503-552: neighbour list through the neighbour manager. *)
Definition neighbour_manager (ndim : nat) (s : tstate) (Ncell : Z) (g0 : gcell) (neib : list Z)
    : res (list Z) :=
  let v := view_of (ts_k s) in
  let! (neib', _) :=
    walk (vopen v) (vnext v) Ncell (manager_visit (tfuel (ts_k s)) v (neib_opn ndim (ts_g s) g0))
      (Z.to_nat Ncell) 0 neib in
  Ok neib'.

(** Tree.cpp:628-735: the gravity interaction lists. *)
Definition grav_lists (s : tstate) (Ncell : Z) (near opn : Z -> res bool)
    : res (list Z * list Z * list Z) :=
  let v := view_of (ts_k s) in
  let! (r, _) :=
    walk (vopen v) (vnext v) Ncell (grav_visit (tfuel (ts_k s)) v near opn)
      (Z.to_nat Ncell) 0 ([], [], []) in
  Ok r.

(** Tree.cpp:789-793 and 819. *)
Definition star_near (ndim : nat) (kernrange : R) (gs : list gcell) (rs : vec) (h : R) (c : Z) : res bool :=
  let! g := aget gs c in
  let dr := vsub (grcell g) rs in
  Ok (rltb (dot ndim dr dr) ((1/2 * (kernrange * h) + grmax g + 1/2 * kernrange * ghmax g) ^ 2)%R).
Definition star_far (ndim : nat) (gs : list gcell) (rs : vec) (c : Z) : res bool :=
  let! g := aget gs c in
  let dr := vsub (grcell g) rs in
  Ok (rltb (gcdistsqd g) (dot ndim dr dr)).
Definition alive (pd : list particle) (i : Z) : res bool :=
  let! p := aget pd i in Ok (negb (p_dead p)).

(** Tree.cpp:748-885 ComputeStarGravityInteractionList: [None] is the return value -1.
    The three assertions on the counters (879-881) are kept; note that the second compares
    Ndirect with Nneibmax. VerifyUniqueIds (882) is property C35. *)
Definition star_lists (pd : list particle) (s : tstate) (Ncell Nleafmax Nneibmax Ndirectmax Ngravcellmax : Z)
    (near far : Z -> res bool) : res (option (list Z * list Z * list Z)) :=
  let v := view_of (ts_k s) in
  let! (r, stopped) :=
    walk (vopen v) (vnext v) Ncell
      (star_visit (tfuel (ts_k s)) v near far (alive pd) Nleafmax Nneibmax Ndirectmax Ngravcellmax)
      (Z.to_nat Ncell) 0 ([], [], []) in
  if stopped : bool then Ok None
  else
    let '(neib, direct, gcells) := r in
    if ((zlen neib <=? Nneibmax) && (zlen direct <=? Nneibmax) && (zlen gcells <=? Ngravcellmax))%bool
    then Ok (Some (neib, direct, gcells)) else Raise.

(** HydroTree.cpp:593-627: the caller passes Nneibmax = Ndirectmax = Ntot and, while the
    walk returns -1, doubles Ngravcellmax only.  [n] tries. *)
Fixpoint star_retry (n : nat) (pd : list particle) (s : tstate) (Ncell Nleafmax Ntot Ngravcellmax : Z)
    (near far : Z -> res bool) : res (list Z * list Z * list Z) :=
  match n with
  | O => NoFuel
  | S n' =>
      let! r := star_lists pd s Ncell Nleafmax Ntot Ntot Ngravcellmax near far in
      match r with
      | Some x => Ok x
      | None => star_retry n' pd s Ncell Nleafmax Ntot (2 * Ngravcellmax) near far
      end
  end.
