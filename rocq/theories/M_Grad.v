(** Gradients and slope limiters of the meshless scheme: src/MeshlessFV/MfvCommon.cpp:241-372 (ComputeGradients; the signal velocity and the levels are
    left out, the potential minimum is in M_Dens.v) and src/Headers/SlopeLimiter.h:44-389.  FLOAT and double values are reals.  A neighbour (GradNeib,
    FluxNeib) is a [gpart] of which position, Wprim and so on are read. *)
From Verif Require Import Prelude Vec M_Box M_Force M_Matrix M_Mfv.
From Coq Require Import Reals.
Local Open Scope R_scope.

Definition set_grad (p : gpart) (B : nat -> vec) (grad : nat -> vec) (bad : bool) : gpart :=
  mkgpart (g_r p) (g_v p) (g_a p) (g_h p) (g_ndens p) (g_hfactor p) (g_sound p) B (g_W p) grad (g_alpha p) bad.
Definition set_alpha (p : gpart) (alpha : vec) : gpart :=
  mkgpart (g_r p) (g_v p) (g_a p) (g_h p) (g_ndens p) (g_hfactor p) (g_sound p) (g_B p) (g_W p) (g_grad p) alpha (g_bad p).

Section Grad.
Variable ndim : nat.

(** ** Gradients *)
Section Matrix.
Variables (w0_s2 w1 : R -> R).
(** MfvCommon.cpp:282 w. *)
Definition weight (p q : gpart) : R :=
  let draux := vsub (g_r q) (g_r p) in
  g_hfactor p * w0_s2 (dot ndim draux draux * (1 / (g_h p * g_h p))) / g_ndens p.
(** Lines 274-297: E and grad_tmp after the neighbours [l]. *)
Fixpoint e_loop (p : gpart) (l : list gpart) (E : mat) : mat :=
  match l with
  | [] => E
  | q :: l => e_loop p l (fun k kk => E k kk + vsub (g_r q) (g_r p) k * vsub (g_r q) (g_r p) kk * weight p q)
  end.
Fixpoint tmp_loop (p : gpart) (l : list gpart) (G : nat -> vec) : nat -> vec :=
  match l with
  | [] => G
  | q :: l => tmp_loop p l (fun var k => G var k + vsub (g_r q) (g_r p) k * (g_W q var - g_W p var) * weight p q)
  end.
(** Lines 344-359: the gradients used if the matrix is badly conditioned. *)
Fixpoint sph_loop (p : gpart) (l : list gpart) (G : nat -> vec) : nat -> vec :=
  match l with
  | [] => G
  | q :: l =>
      let draux := vsub (g_r q) (g_r p) in
      let dr := sqrt (dot ndim draux draux) in
      if Req_EM_T dr 0 then sph_loop p l G
      else
        let w := g_hfactor p / g_ndens p * w1 (dr / g_h p) in
        sph_loop p l (fun var k => G var k - (g_W q var - g_W p var) * (draux k / dr) * w)
  end.
(** Lines 319-326. *)
Definition sqd_condition_number (E B : mat) : R :=
  sumf ndim (fun i => sumf ndim (fun j => E i j * E i j)) * sumf ndim (fun i => sumf ndim (fun j => B i j * B i j)) / (INR ndim * INR ndim).
(** The determinant by which InvertMatrix divides (InlineFuncs.h:578-606). *)
Definition determinant (A : mat) : R :=
  match ndim with
  | 1%nat => A 0%nat 0%nat
  | 2%nat => A 0%nat 0%nat * A 1%nat 1%nat - A 0%nat 1%nat * A 1%nat 0%nat
  | _ => A 0%nat 0%nat * (A 1%nat 1%nat * A 2%nat 2%nat - A 2%nat 1%nat * A 1%nat 2%nat) -
         A 0%nat 1%nat * (A 1%nat 0%nat * A 2%nat 2%nat - A 1%nat 2%nat * A 2%nat 0%nat) +
         A 0%nat 2%nat * (A 1%nat 0%nat * A 2%nat 1%nat - A 1%nat 1%nat * A 2%nat 0%nat)
  end.
(** ComputeGradients without the limiter of line 364.  A zero determinant makes the elements of B infinite or NaN, and the condition number, which then
    is not less than 1e4. *)
Definition ComputeGradients (p : gpart) (l : list gpart) : gpart :=
  let E := e_loop p l (fun _ _ => 0) in
  let B := InvertMatrix ndim E in
  if (if Req_EM_T (determinant E) 0 then false else rltb (sqd_condition_number E B) 10000) then set_grad p B (fun var k => dot ndim (B k) (tmp_loop p l (fun _ _ => 0) var)) false
  else set_grad p B (sph_loop p l (fun _ _ => 0)) true.
End Matrix.

(** ** Slope limiters *)
(** SlopeLimiter.h:53-58: the null and zero-slope limiters. *)
Definition NullCell (p : gpart) (l : list gpart) : gpart := set_alpha p (fun _ => 1).
(** Lines 143-174: TVDScalarLimiter; [edge] is _edge_limit. *)
Fixpoint tvd_loop (edge : bool) (p : gpart) (var : nat) (l : list gpart) (alpha : R) : R :=
  match l with
  | [] => alpha
  | q :: l =>
      let dW := dot ndim (g_grad p var) (vsub (g_r q) (g_r p)) in
      let dW := if edge then dW * (51 / 100) else dW in
      let dWcell := g_W q var - g_W p var in
      tvd_loop edge p var l (if Req_EM_T dW 0 then alpha else Rmin alpha (Rmax 0 (Rmin 1 (dWcell / dW))))
  end.
Definition TVDCell (edge : bool) (p : gpart) (l : list gpart) : gpart := set_alpha p (fun var => tvd_loop edge p var l 1).
(** Lines 206-254: ScalarLimiter. *)
Definition wmax (p : gpart) (l : list gpart) (var : nat) : R := fold_left (fun x q => Rmax x (g_W q var)) l (g_W p var).
Definition wmin (p : gpart) (l : list gpart) (var : nat) : R := fold_left (fun x q => Rmin x (g_W q var)) l (g_W p var).
Definition drmaxsqd (p : gpart) (l : list gpart) : R :=
  fold_left (fun x q => Rmax x (dot ndim (vsub (g_r q) (g_r p)) (vsub (g_r q) (g_r p)))) l 0.
Definition ScalarCell (edge : bool) (p : gpart) (l : list gpart) : gpart :=
  let drmax := Rmax (sqrt (drmaxsqd p l)) (2 * g_h p) in
  let drmax := if edge then drmax * (51 / 100) else drmax in
  set_alpha p (fun var =>
    let gradW := sqrt (dot ndim (g_grad p var) (g_grad p var)) in
    let dW := drmax * gradW in
    let dWmax := wmax p l var - g_W p var in
    let dWmin := g_W p var - wmin p l var in
    if Req_EM_T dW 0 then 1 else Rmax 0 (Rmin 1 (Rmin (dWmax / dW) (dWmin / dW)))).
(** Lines 280-329: Springel2009Limiter. *)
Fixpoint springel_loop (edge : bool) (p : gpart) (var : nat) (dWmax dWmin : R) (l : list gpart) (alpha : R) : R :=
  match l with
  | [] => alpha
  | q :: l =>
      let dW := dot ndim (g_grad p var) (vsub (g_r q) (g_r p)) in
      let dW := if edge then dW * (51 / 100) else dW in
      springel_loop edge p var dWmax dWmin l (if rltb 0 dW then Rmin alpha (dWmax / dW) else if rltb dW 0 then Rmin alpha (dWmin / dW) else alpha)
  end.
Definition SpringelCell (edge : bool) (p : gpart) (l : list gpart) : gpart :=
  set_alpha p (fun var => springel_loop edge p var (wmax p l var - g_W p var) (wmin p l var - g_W p var) l 1).

(** Lines 60-70: slopes of all limiters but the zero-slope and GIZMO ones. *)
Definition Slopes (p q : gpart) (draux : vec) : (nat -> vec) * vec :=
  (fun var k => g_alpha p var * g_grad p var k, fun var => g_alpha p var * dot ndim (g_grad p var) draux).
(** Lines 90-99. *)
Definition ZeroSlopes (p q : gpart) (draux : vec) : (nat -> vec) * vec := (fun _ _ => 0, fun _ => 0).
(** InlineFuncs.h:122-126. *)
Definition sgn (x : R) : Z := ((if rltb 0 x then 1 else 0) - (if rltb x 0 then 1 else 0))%Z.
(** Lines 343-388: the GIZMO limiter's slopes (its CellLimiter is ScalarLimiter's).  A double division by a zero |phimin| gives infinity, and phimin (zero)
    divided by it zero. *)
Definition damp (phi delta : R) : R := if Req_EM_T phi 0 then 0 else phi / (1 + delta / Rabs phi).
Definition gizmo_mid (wi wj phimid0 ratio : R) : R :=
  let delta1 := 1 / 2 * Rabs (wi - wj) in
  let delta2 := 375 / 1000 * Rabs (wi - wj) in
  let phimin := Rmin wi wj in
  let phimax := Rmax wi wj in
  let phibar := wi + (wj - wi) * ratio in
  let phiminus := if (sgn (phimin - delta1) =? sgn phimin)%Z then phimin - delta1 else damp phimin delta1 in
  let phiplus := if (sgn (phimax + delta1) =? sgn phimax)%Z then phimax + delta1 else damp phimax delta1 in
  if rltb wi wj then Rmax phiminus (Rmin (phibar + delta2) phimid0)
  else if rltb wj wi then Rmin phiplus (Rmax (phibar - delta2) phimid0)
  else wi.
Definition GizmoSlopes (p q : gpart) (draux : vec) : (nat -> vec) * vec :=
  let '(gradW, dW) := Slopes p q draux in
  let drmag := sqrt (dot ndim (vsub (g_r q) (g_r p)) (vsub (g_r q) (g_r p))) in
  (gradW, fun var => gizmo_mid (g_W p var) (g_W q var) (g_W p var + dW var) (sqrt (dot ndim draux draux) / drmag) - g_W p var).
End Grad.
