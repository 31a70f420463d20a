(** A stocked tree, and what its searches must return. *)
From Verif Require Import Prelude Vec S_Tree M_KDTree M_Stock S_Stock S_Box.
From Coq Require Import Reals Permutation.
Local Open Scope Z_scope.

(** The cells of tree [t] (numbered 0..Ncell-1) are linked, every cell describes the
    particles [ps] below it, and every leaf owns a linked list of at most [Nl] of them. *)
Definition cell_field {A} (cs : list kcell) (f : kcell -> A) (c : Z) : res A :=
  let! k := aget cs c in Ok (f k).
Definition cell_ok (ndim : nat) (kr th2 : R) (quad : bool) (pd : list particle) (s : tstate) (c : Z) (ps : list Z) : Prop :=
  exists k g xs, aget (cells (ts_k s)) c = Ok k /\ cN k = zlen ps /\ aget (ts_g s) c = Ok g /\
    parts_of pd ps = Ok xs /\ describes ndim kr th2 quad g xs.
Definition list_ok (Nl : Z) (s : tstate) (c : Z) (ps : list Z) : Prop :=
  exists k, aget (cells (ts_k s)) c = Ok k /\ chain (inext (ts_k s)) (ifirst k) (ilast k) ps /\ zlen ps <= Nl.
Record stocked (ndim : nat) (kr th2 : R) (quad : bool) (pd : list particle) (Nl : Z)
    (s : tstate) (Ncell : Z) (t : rtree) (ps : list Z) : Prop := {
  st_root : root t = 0;
  st_cells : preorder t = zseq 0 (Z.to_nat Ncell);
  st_links : linked Ncell (cell_field (cells (ts_k s)) copen) (cell_field (cells (ts_k s)) cnext) t Ncell;
  st_desc : ctree (cell_ok ndim kr th2 quad pd s) (list_ok Nl s) t ps;
  st_nodup : NoDup ps;
  st_range : forall p, In p ps -> 0 <= p < zlen (inext (ts_k s)) }.

Local Open Scope R_scope.
(** Cell [g0], for which neighbours are sought, covers the position [x]: it is in the box
    and in the bounding sphere of the cell. *)
Definition covers (ndim : nat) (g0 : gcell) (x : vec) : Prop :=
  in_box ndim (gbmin g0) (gbmax g0) x /\ norm ndim (vsub x (grcell g0)) <= grmax g0.
(** [x], [hx] are position and smoothing length of a particle of the cell [g0]. *)
Definition cell_member (ndim : nat) (kr : R) (g0 : gcell) (x : vec) (hx : R) : Prop :=
  covers ndim g0 x /\ 0 <= hx <= ghmax g0 /\
  (forall k, (k < ndim)%nat -> ghbmin g0 k <= x k - kr * hx /\ x k + kr * hx <= ghbmax g0 k).
