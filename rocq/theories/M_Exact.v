(** The exact Riemann solver, src/Hydrodynamics/RiemannSolver.cpp.  FLOAT is R; pow is [Rpower] for a base > 0.  Output to the screen
    is left out; what the code reports as invalid (NaN, negative pressure) is Raise. *)
From Verif Require Import Prelude Vec M_Box.
From Coq Require Import Reals.
Local Open Scope R_scope.

(** Constants.h: small_number; RiemannSolver.cpp:18-19. *)
Definition small_number : R := / 10 ^ 20.
Definition Niterationmax : nat := 100.
Definition tol : R := / 10 ^ 6.
(** pow(b,e) for e > 0 and any b.  Raise for a negative base: NaN, or a number without meaning should e be an integer. *)
Definition pw (b e : R) : res R := if rltb 0 b then Ok (Rpower b e) else if Req_EM_T b 0 then Ok 0 else Raise.
(** Density, velocity along the normal, pressure. *)
Record fluid := mkfl { f_d : R; f_u : R; f_p : R }.

Section Exact.
Variable gamma : R.
(** Lines 27-40. *)
Definition invgamma := 1 / gamma.
Definition g1 := 1 / 2 * (gamma - 1) / gamma.
Definition g2 := 1 / 2 * (gamma + 1) / gamma.
Definition g3 := 2 * gamma / (gamma - 1).
Definition g4 := 2 / (gamma - 1).
Definition g5 := 2 / (gamma + 1).
Definition g6 := (gamma - 1) / (gamma + 1).
Definition g7 := 1 / 2 * (gamma - 1).

(** Lines 213-220 and 223-230: fl and flprime (fr and frprime) at pstar for the side with pressure [p], density [d], sound speed [c]. *)
Definition fside (p d c pstar : R) : R :=
  if rltb p pstar then (pstar - p) * sqrt (g5 / d / (pstar + p * g6))
  else g4 * c * (Rpower (pstar / p) g1 - 1).
Definition fprime (p d c pstar : R) : R :=
  if rltb p pstar then sqrt (g5 / d / (pstar + p * g6)) * (1 - 1 / 2 * (pstar - p) / (pstar + p * g6))
  else Rpower (pstar / p) (- g2) / (d * c).

Section Star.
Variables (pl pr dl dr cl cr ul ur : R).
(** Lines 209-252; [k] is the number of iterations left after this one.  Result: pstar, fl, fr. *)
Fixpoint newton (k : nat) (pstar : R) : R * R * R :=
  let fl := fside pl dl cl pstar in let fr := fside pr dr cr pstar in
  let pold := pstar in
  let pstar := pstar - (fl + fr + ur - ul) / (fprime pl dl cl pold + fprime pr dr cr pold) in
  if rltb pstar small_number then
    match k with 0%nat => (small_number, fl, fr) | S k => newton k small_number end
  else if rltb (2 * Rabs (pstar - pold) / (pstar + pold)) tol then (pstar, fl, fr)
  else match k with 0%nat => (pstar, fl, fr) | S k => newton k pstar end.
(** Lines 170-173. *)
Definition ppv : R := let cup := 1 / 4 * (dl + dr) * (cl + cr) in Rmax 0 (1 / 2 * (pl + pr) + 1 / 2 * (ul - ur) * cup).
(** Lines 184-204. *)
Definition guess : res R :=
  let pmin := Rmin pl pr in let pmax := Rmax pl pr in
  let! p :=
    if (rleb (pmax / pmin) 2 && rleb pmin ppv && rleb ppv pmax)%bool then Ok ppv
    else if rltb ppv pmin then
      let pq := Rpower (pl / pr) g1 in
      let um := (pq * ul / cl + ur / cr + g4 * (pq - 1)) / (pq / cl + 1 / cr) in
      let ptl := 1 + g7 * (ul - um) / cl in let ptr := 1 + g7 * (um - ur) / cr in
      let! a := pw ptl g3 in let! b := pw ptr g3 in
      Ok (1 / 2 * (pl * a + pr * b))
    else
      let gel := sqrt (g5 / dl / (g6 * pl + ppv)) in let ger := sqrt (g5 / dr / (g6 * pr + ppv)) in
      Ok ((gel * pl + ger * pr - (ur - ul)) / (gel + ger)) in
  Ok (Rmax p small_number).
(** Lines 135-260 ComputeStarRegion: pstar and ustar. *)
Definition ComputeStarRegion : res (R * R) :=
  if rleb (cl + cr - g7 * (ur - ul)) 0 then Ok (0, 0)
  else
    let! p0 := guess in
    let '(pstar, fl, fr) := newton (Niterationmax - 1) p0 in
    Ok (pstar, 1 / 2 * (ul + ur) + 1 / 2 * (fr - fl)).

(** Lines 269-421 SampleExactSolution. *)
Definition sample_left (pstar ustar s : R) : res fluid :=
  if rleb pstar pl then
    if rleb s (ul - cl) then Ok (mkfl dl ul pl)
    else
      let! x := pw (pstar / pl) g1 in
      let cm := cl * x in
      if rltb (ustar - cm) s then let! y := pw (pstar / pl) invgamma in Ok (mkfl (dl * y) ustar pstar)
      else
        let u := g5 * (cl + g7 * ul + s) in let c := g5 * (cl + g7 * (ul - s)) in
        let! y := pw (c / cl) g4 in let! z := pw (c / cl) g3 in
        Ok (mkfl (dl * y) u (pl * z))
  else
    let pml := pstar / pl in
    if rleb s (ul - cl * sqrt (g2 * pml + g1)) then Ok (mkfl dl ul pl)
    else Ok (mkfl (dl * (pml + g6) / (pml * g6 + 1)) ustar pstar).
Definition sample_right (pstar ustar s : R) : res fluid :=
  if rleb pr pstar then
    let pmr := pstar / pr in
    if rleb (ur + cr * sqrt (g2 * pmr + g1)) s then Ok (mkfl dr ur pr)
    else Ok (mkfl (dr * (pmr + g6) / (pmr * g6 + 1)) ustar pstar)
  else
    if rleb (ur + cr) s then Ok (mkfl dr ur pr)
    else
      let! x := pw (pstar / pr) g1 in
      let cm := cr * x in
      if rleb s (ustar + cm) then let! y := pw (pstar / pr) invgamma in Ok (mkfl (dr * y) ustar pstar)
      else
        let u := g5 * (- cr + g7 * ur + s) in let c := g5 * (cr - g7 * (ur - s)) in
        let! y := pw (c / cr) g4 in let! z := pw (c / cr) g3 in
        Ok (mkfl (dr * y) u (pr * z)).
Definition SampleExactSolution (pstar ustar s : R) : res fluid :=
  let! w := if rleb s ustar then sample_left pstar ustar s else sample_right pstar ustar s in
  if rltb (f_p w) 0 then Raise else Ok w.
End Star.

(** Lines 563-624: ShocktubeSolution at position s = (x-x0)/t. *)
Definition shocktube (rhol rhor vl vr pl pr s : R) : res fluid :=
  let cl := sqrt (gamma * pl / rhol) in let cr := sqrt (gamma * pr / rhor) in
  let! x := ComputeStarRegion pl pr rhol rhor cl cr vl vr in
  SampleExactSolution pl pr rhol rhor cl cr vl vr (fst x) (snd x) s.

(** ** Fluxes *)
(** atan2(y, x) of the C library for finite arguments, without signed zeros. *)
Definition atan2 (y x : R) : R :=
  if rltb 0 x then atan (y / x)
  else if rltb x 0 then (if rleb 0 y then atan (y / x) + PI else atan (y / x) - PI)
  else if rltb 0 y then PI / 2 else if rltb y 0 then - (PI / 2) else 0.
(** Lines 51-95 ComputeRotationMatrices: invRotMat; rotMat is its transpose, entry by entry. *)
Definition invRotMat (ndim : nat) (n : vec) (i j : nat) : R :=
  match ndim with
  | 1%nat => n 0%nat
  | 2%nat =>
    let theta := atan2 (n 1%nat) (n 0%nat) in
    match i, j with 0%nat, 0%nat => cos theta | 0%nat, _ => sin theta | _, 0%nat => - sin theta | _, _ => cos theta end
  | _ =>
    let phi := atan2 (n 1%nat) (n 0%nat) in
    let delta := atan2 (n 2%nat) (sqrt (n 0%nat * n 0%nat + n 1%nat * n 1%nat)) in
    match i, j with
    | 0%nat, 0%nat => cos delta * cos phi | 0%nat, 1%nat => cos delta * sin phi | 0%nat, _ => sin delta
    | 1%nat, 0%nat => - sin phi | 1%nat, 1%nat => cos phi | 1%nat, _ => 0
    | _, 0%nat => - sin delta * cos phi | _, 1%nat => - sin delta * sin phi | _, _ => cos delta
    end
  end.
Definition rotMat (ndim : nat) (n : vec) (i j : nat) : R := invRotMat ndim n j i.
(** Lines 104-126 RotateVector. *)
Definition RotateVector (ndim : nat) (m : nat -> nat -> R) (v : vec) : vec := fun i => sumf ndim (fun j => m i j * v j).

(** Primitive state: velocity, density, pressure. *)
Record prim := mkpr { w_v : vec; w_d : R; w_p : R }.
(** flux[kv][k] for momentum, flux[irho][k], flux[ietot][k]; the velocity of the face as the code leaves it. *)
Record fluxes := mkfx { x_mom : nat -> vec; x_rho : vec; x_e : vec; x_vface : vec }.
(** Lines 430-554 ComputeFluxes; [zmf] is zeroMassFlux. *)
Definition ComputeFluxes (ndim : nat) (zmf : bool) (Wl Wr : prim) (n vface : vec) : res fluxes :=
  let cl := sqrt (gamma * w_p Wl / w_d Wl) in let cr := sqrt (gamma * w_p Wr / w_d Wr) in
  let uleft := RotateVector ndim (invRotMat ndim n) (w_v Wl) in
  let uright := RotateVector ndim (invRotMat ndim n) (w_v Wr) in
  let! x := ComputeStarRegion (w_p Wl) (w_p Wr) (w_d Wl) (w_d Wr) cl cr (uleft 0%nat) (uright 0%nat) in
  let pstar := fst x in let ustar := snd x in
  if rltb 0 pstar then
    let! w := SampleExactSolution (w_p Wl) (w_p Wr) (w_d Wl) (w_d Wr) cl cr (uleft 0%nat) (uright 0%nat) pstar ustar 0 in
    let d := f_d w in let u := f_u w in let p := f_p w in
    let vface' := if zmf then fun k => vface k + u * n k else vface in
    let W0 := if zmf then fun _ => 0
              else fun k => if Nat.eqb k 0 then u else if rltb 0 u then uleft k else uright k in
    let W := fun k => RotateVector ndim (rotMat ndim n) W0 k + vface' k in
    let etot := 1 / 2 * sumf ndim (fun k => W k * W k) + p / (gamma - 1) / d in
    Ok (mkfx (fun kv k => if Nat.eqb kv k then d * W k * (W k - vface' k) + p else d * (W k - vface' k) * W kv)
             (fun k => d * (W k - vface' k))
             (fun k => d * etot * (W k - vface' k) + p * W k) vface')
  else Ok (mkfx (fun _ _ => 0) (fun _ => 0) (fun _ => 0) vface).
End Exact.
