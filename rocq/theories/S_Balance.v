(** What load balancing must achieve. *)
From Verif Require Import Prelude Vec S_Box S_Tree M_Stock S_Search M_Store M_Balance.
From Coq Require Import Reals Permutation.
Local Open Scope Z_scope.

Definition inside (ndim : nat) (b : box) (x : vec) : Prop := in_hbox ndim (bmin b) (bmax b) x.
Definition insideb (ndim : nat) (b : box) (x : vec) : bool :=
  forallb (fun k => (if Rle_dec (bmin b k) (x k) then true else false) && (if Rlt_dec (x k) (bmax b k) then true else false)) (seq 0 ndim).

(** The boxes of a list fill the box [B] without gaps and without overlap. *)
Definition owner (ndim : nat) (doms : list box) (x : vec) (g : Z) : Prop := exists b, aget doms g = Ok b /\ inside ndim b x.
Definition tiles (ndim : nat) (doms : list box) (B : box) : Prop := forall x,
  (inside ndim B x -> exists! g, owner ndim doms x g) /\ (forall g, owner ndim doms x g -> inside ndim B x).

(** The live particles of a process. *)
Definition live (s : store) : list particle := filter (fun p => negb (p_dead p)) (firstn (Z.to_nat (Nhydro s)) (data s)).
(** What process [r] knows before the exchange: its storage is sound and its tree describes its live particles. *)
Record ready (ndim : nat) (kr th2 : R) (quad : bool) (Nl : Z) (s : store) (ts : tstate) (Ncell : Z) (t : rtree) (ps : list Z) : Prop := {
  rd_size : zlen (data s) = Nhydromax s /\ 0 <= Nhydro s <= Nhydromax s;
  rd_tree : stocked ndim kr th2 quad (data s) Nl ts Ncell t ps;
  rd_live : Permutation ps (filter (fun i => match aget (data s) i with Ok p => negb (p_dead p) | _ => false end) (zseq 0 (Z.to_nat (Nhydro s))));
  rd_h : forall p, In p (live s) -> (0 <= p_h p)%R }.

(** [p] stays on process [r]: it is in no other domain that [r] knows of. *)
Definition stays (ndim : nat) (Nmpi : Z) (dom : Z -> box) (r : Z) (p : particle) : bool :=
  forallb (fun q => (q =? r) || negb (insideb ndim (dom q) (p_r p))) (zseq 0 (Z.to_nat Nmpi)).
Definition leaves_for (ndim : nat) (dom : Z -> box) (q : Z) (p : particle) : bool := insideb ndim (dom q) (p_r p).
(** The particles of process [r] afterwards: those that stay and those that the others send. *)
Definition after_exchange (ndim : nat) (Nmpi : Z) (dom : Z -> Z -> box) (L : Z -> list particle) (r : Z) : list particle :=
  filter (stays ndim Nmpi (dom r) r) (L r) ++
  flat_map (fun p => if p =? r then [] else filter (leaves_for ndim (dom p) r) (L p)) (zseq 0 (Z.to_nat Nmpi)).

(** ** Divisions *)
(** Work on the two sides of a division of box [b] at [r] across direction [k]. *)
Definition left_work (work : vec -> vec -> R) (b : box) (k : nat) (r : R) : R := work (bmin b) (setv (bmax b) k r).
Definition right_work (work : vec -> vec -> R) (b : box) (k : nat) (r : R) : R := work (setv (bmin b) k r) (bmax b).
Definition share (work : vec -> vec -> R) (b : box) (k : nat) (r : R) : R := (left_work work b k r / (left_work work b k r + right_work work b k r))%R.
(** Each side has half of the work up to one part in a thousand, or there is no work at all. *)
Definition even (work : vec -> vec -> R) (b : box) (k : nat) (r : R) : Prop :=
  (left_work work b k r + right_work work b k r = 0)%R \/ (1/2 - 1/1000 <= share work b k r <= 1/2 + 1/1000)%R.
(** The work in [b] is spread out in direction [k]: none at all, or the share of the left side grows from at most one
    half to at least one half, with no jump above 1/2000. *)
Definition spread (work : vec -> vec -> R) (b : box) (k : nat) : Prop :=
  (forall r, (bmin b k < r < bmax b k)%R -> (left_work work b k r + right_work work b k r = 0)%R) \/
  exists K e, (0 <= K)%R /\ (e <= 1/2000)%R /\ (share work b k (bmin b k) <= 1/2 <= share work b k (bmax b k))%R /\
    forall x y, (bmin b k <= x <= y)%R -> (y <= bmax b k)%R -> (share work b k y <= share work b k x + K * (y - x) + e)%R.
