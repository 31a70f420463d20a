(** When a cell of one process must be sent to another. *)
From Verif Require Import Prelude Vec S_Tree S_Box M_Box M_Periodic S_Periodic M_Prune S_Prune M_Export.
From Coq Require Import Reals.
Local Open Scope R_scope.

(** The sphere of the cell holds the particles [l] and its hmax is at least their smoothing lengths. *)
Definition encloses (ndim : nat) (pos : Z -> vec) (hsm : Z -> R) (l : list Z) (k : pcell) : Prop :=
  0 <= k_rmax k /\ 0 <= k_hmax k /\
  (forall i, In i l -> norm ndim (vsub (pos i) (k_r k)) <= k_rmax k /\ 0 <= hsm i <= k_hmax k).
(** The first [Ncell] entries of [cells] are the tree [t] and describe the particles [content c] of each cell. *)
Record described (ndim : nat) (pos : Z -> vec) (hsm : Z -> R) (cells : list pcell) (Ncell : Z) (t : rtree) (content : Z -> list Z) : Prop := {
  ds_root : root t = 0%Z;
  ds_nodup : NoDup (preorder t);
  ds_range : forall c, In c (preorder t) -> (0 <= c < Ncell)%Z;
  ds_links : exists next, (Ncell <= next)%Z /\ linked Ncell (co_of cells) (cn_of cells) t next;
  ds_contents : contents content t;
  ds_cells : forall c, In c (preorder t) -> exists k, aget cells c = Ok k /\ k_N k = zlen (content c) /\ encloses ndim pos hsm (content c) k }.
(** The domain and the cells are such that looking at the neighbouring replicas is enough. *)
Definition within (ndim : nat) (b : dombox) (x y : vec) : Prop :=
  forall j, (j < ndim)%nat -> periodic_dir b j -> Rabs (y j - x j) <= 3 * dhalf b j.

(** No replica of particle [b] is within the kernel range of particle [a], with either smoothing length. *)
Definition out_of_reach (ndim : nat) (bx : dombox) (kernrange : R) (ra : vec) (ha : R) (rb : vec) (hb : R) : Prop :=
  forall rb', image_of ndim bx rb rb' -> kernrange * Rmax ha hb < norm ndim (vsub rb' ra).

(** [d] is the shortest separation of two cells over all replicas. *)
Definition shortest (ndim : nat) (bx : dombox) (cell k : pcell) (d : vec) : Prop :=
  image_of ndim bx (vsub (k_r k) (k_r cell)) d /\
  (forall d', image_of ndim bx (vsub (k_r k) (k_r cell)) d' -> norm ndim d <= norm ndim d').
(** Two cells some of whose particles could be neighbours, *)
Definition may_touch (ndim : nat) (kernrange : R) (cell k : pcell) (d : vec) : Prop :=
  norm ndim d <= k_rmax cell + k_rmax k + kernrange * Rmax (k_hmax cell) (k_hmax k).
(** and cells for which the multipole of [k] is not good enough. *)
Definition too_coarse (ndim : nat) (mac : MAC_Type) (macerror m amin macfactor : R) (k : pcell) (d : vec) : Prop :=
  norm ndim d ^ 2 < k_cdistsqd k \/
  match mac with
  | geometric => False
  | eigenmac => norm ndim d ^ 2 < k_mac k * macfactor
  | gadget2 => norm ndim d ^ 4 * amin * macerror < k_rmax k ^ 2 * m
  end.

(** What was decided for one cell and one process: [None] to send the cell, [Some l] to use the multipoles [l]. *)
Definition is_none {A} (o : option A) : bool := match o with None => true | _ => false end.
Definition kept_cells (o : option (list pcell)) : list pcell := match o with Some l => l | None => [] end.
(** The entries of [l] whose companion in [rows] passes the test. *)
Fixpoint marked {A B} (f : B -> bool) (l : list A) (rows : list B) : list A :=
  match l, rows with
  | x :: l', r :: rows' => if f r then x :: marked f l' rows' else marked f l' rows'
  | _, _ => []
  end.
Definition total (l : list Z) : Z := fold_right Z.add 0%Z l.
Definition flag_at {B} (f : B -> bool) (j : Z) (row : list B) : bool := match aget row j with Ok o => f o | _ => false end.

(** The particles of the other process are all out of reach of those of the cell. *)
Definition clear_of (ndim : nat) (bx : dombox) (kernrange : R) (pa : Z -> vec) (ha : Z -> R) (la : list Z)
    (pb : Z -> vec) (hb : Z -> R) (lb : list Z) : Prop :=
  forall i j, In i la -> In j lb -> out_of_reach ndim bx kernrange (pa i) (ha i) (pb j) (hb j).
(** The walk for [cell] has replaced the tree by the cells [ks]: together they hold all its particles, each
    once; none of them could hold neighbours; all are far enough to be used as a multipole. *)
Definition replaced (ndim : nat) (bx : dombox) (kernrange : R) (mac : MAC_Type) (macerror : R) (cm : Z -> R) (amin macf : R)
    (cell : pcell) (cells : list pcell) (t : rtree) (content : Z -> list Z) (ks : list pcell) : Prop :=
  exists acc, flat_map content acc = content 0%Z /\
    Forall (fun c => In c (preorder t) /\ content c <> []) acc /\
    Forall2 (fun c k => aget cells c = Ok k /\ exists d, shortest ndim bx cell k d /\ ~ may_touch ndim kernrange cell k d /\
               ~ too_coarse ndim mac macerror (cm (k_data k)) amin macf k d) acc ks.
(** A non-empty leaf of the tree is too near: its particles may be neighbours, or (with gravity) its multipole is
    not good enough. *)
Definition leaf_touches (ndim : nat) (bx : dombox) (kernrange : R) (cell : pcell) (cells : list pcell) (t : rtree) (content : Z -> list Z) : Prop :=
  exists c k d, In c (leaves t) /\ content c <> [] /\ aget cells c = Ok k /\ shortest ndim bx cell k d /\ may_touch ndim kernrange cell k d.
Definition leaf_too_near (ndim : nat) (bx : dombox) (kernrange : R) (mac : MAC_Type) (macerror : R) (cm : Z -> R) (amin macf : R)
    (cell : pcell) (cells : list pcell) (t : rtree) (content : Z -> list Z) : Prop :=
  exists c k d, In c (leaves t) /\ content c <> [] /\ aget cells c = Ok k /\ shortest ndim bx cell k d /\
    (may_touch ndim kernrange cell k d \/ too_coarse ndim mac macerror (cm (k_data k)) amin macf k d).
