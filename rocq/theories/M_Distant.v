(** The limit on time steps set by distant particles (the "conservative" limiter of the
    meshless scheme): Tree.cpp:888-1040 ComputeSignalVelocityFromDistantInteractions, called
    from HydroTree.cpp:673-766, and the time step that uses its result,
    MeshlessFV/MfvIntegration.cpp:8-35.  FLOAT values are reals. *)
From Verif Require Import Prelude Vec M_Walk M_KDTree M_Search M_Stock M_Box M_Gather M_Util M_Periodic M_Ghost.
From Coq Require Import Reals.
Local Open Scope R_scope.

(** Constants.h: small_number. *)
Definition small_number : R := / 10 ^ 20.

(** The fields of the local copies activepart[] that are read or written. *)
Record apart := mka { a_r : vec; a_v : vec; a_h : R; a_sound : R; a_vsig : R }.
Definition set_vsig (a : apart) (x : R) : apart := mka (a_r a) (a_v a) (a_h a) (a_sound a) x.

(** Tree.cpp:916-923 and 1025-1033: the guess of the minimum time step. *)
Definition dt_guess (acts : list apart) : R :=
  fold_left (fun dt a => if rltb 0 (a_vsig a) then Rmax dt (a_h a / a_vsig a) else big_number) acts 0.

Section Walk.
Variables (ndim : nat) (tg : target).

(** Tree.cpp:911-912, 932-971: is the cell [g] opened for the active cell [g0]? *)
Definition box_open (g0 g : gcell) (dt_min : R) : bool :=
  let rcell k := 1 / 2 * (gbmax g0 k + gbmin g0 k) in
  let half k := 1 / 2 * (gbmax g0 k - gbmin g0 k) in
  let dr := snd (GF_NearestPeriodicVector ndim (t_f tg) (fun k => 1 / 2 * (gbmax g k + gbmin g k) - rcell k)) in
  let width k := half k + 1 / 2 * (gbmax g k - gbmin g k) in
  if loopk ndim (fun k open => open && rltb (Rabs (dr k)) (width k)) true then true
  else
    let drk k := if rltb 0 (dr k) then dr k - width k else dr k + width k in
    let dvk k := if rltb 0 (dr k) then gvmin g k - gvmax g0 k else gvmax g k - gvmin g0 k in
    let rmin := sqrt (sumf ndim (fun k => drk k * drk k)) in
    let dvdr := sumf ndim (fun k => drk k * dvk k) / (rmin + small_number) in
    let vsig := gmaxsound g0 + gmaxsound g - dvdr in
    rltb rmin (dt_min * vsig).

(** Tree.cpp:1003-1018: one active particle and one image [q] of a particle with sound speed
    [cs].  A failed assertion is [Raise]. *)
Definition update_pair (cs : R) (a : apart) (q : gpart) : res apart :=
  let dvdr := sumf ndim (fun k => (a_r a k - gp_r q k) * (a_v a k - gp_v q k)) in
  let drsqd := sumf ndim (fun k => (a_r a k - gp_r q k) * (a_r a k - gp_r q k)) in
  if rltb 0 drsqd then
    let dr := sqrt drsqd in
    let dvdr := dvdr / (dr + small_number) in
    let dr := Rmax dr (a_h a) in
    let vsig := a_sound a + cs - dvdr in
    let vm := Rmax (a_vsig a) (vsig * a_h a / dr) in
    if rltb vm 0 then Raise else Ok (set_vsig a vm)
  else Ok a.
Fixpoint update_images (cs : R) (l : list gpart) (a : apart) : res apart :=
  match l with
  | [] => Ok a
  | q :: l' => let! a' := update_pair cs a q in update_images cs l' a'
  end.
Fixpoint update_acts (cs : R) (l : list gpart) (acts : list apart) : res (list apart) :=
  match acts with
  | [] => Ok []
  | a :: acts' => let! a1 := update_images cs l a in let! r := update_acts cs l acts' in Ok (a1 :: r)
  end.

(** Tree.cpp:996-1023: all particles of a leaf.  neibpart has room for MaxNumGhosts images
    (its default contents are [blank]). *)
Definition blank : gpart := {| gp_id := 0; gp_r := zerov; gp_v := zerov; gp_a := zerov; gp_h2 := 0; gp_fl := 0%N |}.
Definition as_gpart (i : Z) (p : particle) : gpart :=
  {| gp_id := i; gp_r := p_r p; gp_v := p_v p; gp_a := zerov; gp_h2 := 0; gp_fl := 0%N |}.
Fixpoint update_leaf (pd : list particle) (l : list Z) (acts : list apart) : res (list apart) :=
  match l with
  | [] => Ok acts
  | i :: l' =>
      let! p := aget pd i in
      let! (ngbs, n) := ConstructAllGhosts ndim tg (as_gpart i p) (repeat blank (Z.to_nat (MaxNumGhosts ndim (t_f tg)))) in
      let! acts' := update_acts (p_sound p) (firstn (Z.to_nat n) ngbs) acts in
      update_leaf pd l' acts'
  end.

(** Tree.cpp:928-1037: the body of the walk; the state is activepart[] and dt_min.
    [pruned] is IAmPruned. *)
Definition distant_visit (fuel : nat) (v : tview) (gs : list gcell) (pd : list particle) (pruned : bool) (g0 : gcell)
    (c : Z) (s : list apart * R) : res ((list apart * R) * ctl) :=
  let '(acts, dt_min) := s in
  let! g := aget gs c in
  if box_open g0 g dt_min then
    let! co := vopen v c in
    if negb (co =? -1)%Z then Ok (s, Down)
    else
      let! n := vN v c in
      if (n =? 0)%Z then Ok (s, Skip)
      else if pruned then Ok (s, Stop)
      else
        let! l := cell_list fuel v c in
        let! acts' := update_leaf pd l acts in
        Ok ((acts', dt_guess acts'), Skip)
  else Ok (s, Skip).

(** Tree.cpp:897-1040: the active particles after the walk and the value returned. *)
Definition distant (pruned : bool) (pd : list particle) (s : tstate) (Ncell : Z) (g0 : gcell) (acts : list apart)
    : res (list apart * bool) :=
  let v := view_of (ts_k s) in
  let! (r, stopped) :=
    walk (vopen v) (vnext v) Ncell (distant_visit (tfuel (ts_k s)) v (ts_g s) pd pruned g0)
      (Z.to_nat Ncell) 0%Z (acts, dt_guess acts) in
  Ok (fst r, stopped : bool).
End Walk.

(** The finder of a cell, Tree.cpp:914 and GhostNeighbours.hpp:71-116. *)
Definition target_of (ndim : nat) (b : dombox) (g0 : gcell) : res target :=
  let! f := mk_finder ndim b in
  Ok (SetTargetCell ndim f (grcell g0) (gbmin g0) (gbmax g0) (ghbmin g0) (ghbmax g0)).

(** MfvIntegration.cpp:8-35, with vsig_max > 0 (the caller divides by it); [a0] is part.a0.
    The message printed for very small steps has no effect on the result. *)
Definition mfv_timestep (ndim : nat) (courant_mult accel_mult visc_coeff visc_mult : R)
    (hydro_forces self_gravity : bool) (a : apart) (a0 : vec) : R :=
  let dt_cfl := 2 * courant_mult * a_h a / a_vsig a in
  let dt_grav := accel_mult * sqrt (a_h a / sqrt (dot ndim a0 a0 + small_number)) in
  let dt_cfl := if rltb 0 visc_coeff then Rmin dt_cfl (visc_mult * (1 / 2) * a_h a * a_h a / visc_coeff) else dt_cfl in
  if hydro_forces then Rmin dt_cfl dt_grav
  else if self_gravity then dt_grav
  else big_number.

(** OctTree.cpp:511-515, 555-556: the velocity box of a leaf of the octal tree is not reset, so
    that it starts from the values of the constructor Box() (DomainBox.h:53-58). *)
Definition oct_vbox (vs : list R) : R * R :=
  fold_left (fun b x => (lower (fst b) x, raise (snd b) x)) vs (- big_number, big_number).
