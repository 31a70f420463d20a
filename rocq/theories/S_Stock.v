(** What a tree cell must say about its particles. *)
From Verif Require Import Prelude Vec M_Stock.
From Coq Require Import Reals.
Local Open Scope R_scope.

(** Sum of [f] over a list. *)
Fixpoint lsum {A} (f : A -> R) (l : list A) : R :=
  match l with [] => 0 | x :: t => f x + lsum f t end.

(** [lo] and [hi] are lower and upper bounds of [f] and [g] over the list, *)
Definition bounds {A} (lo hi : R) (f g : A -> R) (l : list A) : Prop :=
  forall x, In x l -> lo <= f x /\ g x <= hi.
(** and they are attained when no value exceeds [big]. *)
Definition attained {A} (big lo hi : R) (f g : A -> R) (l : list A) : Prop :=
  l <> [] -> (forall x, In x l -> f x <= big /\ - big <= g x) ->
  (exists x, In x l /\ f x = lo) /\ (exists x, In x l /\ g x = hi).
Definition extent {A} (big lo hi : R) (f g : A -> R) (l : list A) : Prop :=
  bounds lo hi f g l /\ attained big lo hi f g l.

(** Second moments of a set of point masses about [c]: sum of m (3 d_i d_j - delta_ij d^2). *)
Definition kron (i j : nat) : R := if Nat.eqb i j then 1 else 0.
Definition second_moment {A} (ndim : nat) (m : A -> R) (r : A -> vec) (c : vec) (i j : nat) (l : list A) : R :=
  lsum (fun x => m x * (3 * (r x i - c i) * (r x j - c j)
                        - kron i j * dot ndim (vsub (r x) c) (vsub (r x) c))) l.

(** Gravitating mass of a particle. *)
Definition gmass (p : particle) : R := if p_grav p then p_m p else 0.

(** Which components of the tensor are kept, and where. *)
Definition q_index (ndim k : nat) : option (nat * nat) :=
  match k with
  | 0 => Some (0, 0) | 1 => Some (0, 1) | 2 => Some (1, 1) | 3 => Some (2, 0) | 4 => Some (2, 1)
  | _ => None
  end%nat.

(** The cell describes the set of (live) particles [ps]. *)
Record describes (ndim : nat) (kernrange thetamaxsqd : R) (quad : bool) (g : gcell) (ps : list particle) : Prop := {
  d_N : gN g = zlen ps;
  d_Nactive : gNactive g = zlen (filter p_active ps);
  d_bb : forall k, (k < ndim)%nat -> extent big_number (gbmin g k) (gbmax g k) (fun p => p_r p k) (fun p => p_r p k) ps;
  d_hb : forall k, (k < ndim)%nat ->
           extent big_number (ghbmin g k) (ghbmax g k)
                  (fun p => p_r p k - kernrange * p_h p) (fun p => p_r p k + kernrange * p_h p) ps;
  d_vb : forall k, (k < ndim)%nat -> extent big_number (gvmin g k) (gvmax g k) (fun p => p_v p k) (fun p => p_v p k) ps;
  (* largest smoothing length and sound speed (0 if all are negative) *)
  d_h : forall p, In p ps -> p_h p <= ghmax g;
  d_sound : forall p, In p ps -> p_sound p <= gmaxsound g;
  d_h0 : 0 <= ghmax g;
  d_hatt : ghmax g = 0 \/ exists p, In p ps /\ p_h p = ghmax g;
  d_satt : gmaxsound g = 0 \/ exists p, In p ps /\ p_sound p = gmaxsound g;
  (* the bounding sphere around the middle of the box holds every particle *)
  d_rmax : forall p, In p ps -> norm ndim (vsub (p_r p) (grcell g)) <= grmax g;
  d_rmax0 : 0 <= grmax g;
  d_rcell : ps <> [] -> forall k, grcell g k = (gbmin g k + gbmax g k) / 2;
  d_diag : ps <> [] -> 4 * grmax g ^ 2 = sumf ndim (fun k => (gbmax g k - gbmin g k) ^ 2);
  (* the cell is to be opened from distances whose square is less than this *)
  d_cdist : ps <> [] -> thetamaxsqd <> 0 -> gcdistsqd g * thetamaxsqd = Rmax (grmax g ^ 2) (ghmax g ^ 2);
  d_m : gm g = lsum gmass ps;
  d_com : forall k, gm g * gr g k = lsum (fun p => gmass p * p_r p k) ps;
  d_cov : forall k, gm g * gv g k = lsum (fun p => gmass p * p_v p k) ps;
  d_quad : quad = true -> (1 <= ndim <= 3)%nat -> forall k i j, q_index ndim k = Some (i, j) ->
           (i < ndim)%nat -> (j < ndim)%nat ->
           gq g k = second_moment ndim gmass p_r (gr g) i j ps }.
