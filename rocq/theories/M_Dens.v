(** Density and smoothing length: src/GradhSph/GradhSph.cpp:134-326 (ComputeH), src/Headers/Sph.h:259-268,
    src/GradhSph/GradhSphTree.cpp:81-255 (UpdateAllSphProperties, one cell), src/MeshlessFV/MfvCommon.cpp:104-233 (ComputeH),
    src/MeshlessFV/MfvCommon.cpp:268,302-306 and src/SM2013/SM2012Sph.cpp:222-234 (potential minimum).
    FLOAT values are reals, except that the midpoint of an interval is rounded by a given function [rnd].  Assertions, the
    thermal properties set at the end and the Cullen and Dehnen viscosity are left out. *)
From Verif Require Import Prelude Vec M_Box M_Force.
From Coq Require Import Reals.
Local Open Scope R_scope.

(** DensityParticle, Sph.h: what the density loop reads of a neighbour. *)
Record dneib := mkdneib { nb_r : vec; nb_m : R; nb_gpot : R; nb_type : Z }.
(** The fields of a particle read or set; [p_insink]: sinkid is not -1. *)
Record dpart := mkdpart { p_r : vec; p_m : R; p_h : R; p_rho : R; p_ndens : R; p_invomega : R; p_zeta : R; p_hfactor : R; p_hrangesqd : R;
                  p_gpot : R; p_insink : bool; p_potmin : bool; p_type : Z }.
(** A star: position, mass and smoothing length. *)
Record dstar := mkdstar { s_r : vec; s_m : R; s_h : R }.
Definition set_h (p : dpart) (h : R) : dpart :=
  mkdpart (p_r p) (p_m p) h (p_rho p) (p_ndens p) (p_invomega p) (p_zeta p) (p_hfactor p) (p_hrangesqd p) (p_gpot p) (p_insink p) (p_potmin p) (p_type p).

(** What ComputeH does: it returns a value and the particle, or raises an exception. *)
Inductive outcome := Ret (flag : Z) (p : dpart) | Raised.
(** How the iteration ends: left for the end of the routine, with the last h for which the sums were made and the lower bound;
    with return 0; or with an exception. *)
Inductive iter := Left (h lo : R) | TooBig (h : R) | NoConv.

Section Dens.
Variable ndim : nat.
Variables (w0_s2 womega_s2 wzeta_s2 : R -> R) (kernrangesqd h_fac h_converge : R) (rnd : R -> R).
Definition invndim : R := 1 / INR ndim.
(** pow(x, invndim) for positive x. *)
Definition root (x : R) : R := Rpower x invndim.

(** Sph.h:259-263, 264-268. *)
Definition h_rho_func (m rho : R) : R := h_fac * root (m / rho).
Definition h_rho_deriv (h rho : R) : R := - invndim * h / rho.

(** The sums of lines 195-209 for the smoothing length [h]. *)
Definition ssqd (r : vec) (h : R) (q : dneib) : R := (1 / h) * (1 / h) * dot ndim (vsub (nb_r q) r) (vsub (nb_r q) r).
Fixpoint add_up (f : dneib -> R) (l : list dneib) (x : R) : R := match l with [] => x | q :: l => add_up f l (x + f q) end.
Definition rho_sum (r : vec) (l : list dneib) (h : R) : R := add_up (fun q => nb_m q * w0_s2 (ssqd r h q)) l 0 * (1 / h) ^ ndim.
Definition omega_sum (r : vec) (l : list dneib) (h : R) : R := add_up (fun q => nb_m q * (1 / h) * womega_s2 (ssqd r h q)) l 0 * (1 / h) ^ ndim.
Definition zeta_sum (r : vec) (l : list dneib) (h : R) : R := add_up (fun q => nb_m q * wzeta_s2 (ssqd r h q)) l 0 * ((1 / h) * (1 / h)).

(** Lines 184-257; [h] is parti.h, [n] = 150 - iteration + 1 when the loop body is entered; [m], [r] are those of the particle. *)
Fixpoint hloop (n : nat) (m : R) (r : vec) (l : list dneib) (hmax : R) (iteration : Z) (h lo hi : R) : iter :=
  match n with
  | O => NoConv
  | S n =>
      let iteration := (iteration + 1)%Z in
      let rho := rho_sum r l h in
      let hnew := h_rho_func m rho in
      if rltb 0 rho && rltb lo h && rltb (Rabs (h - hnew) * (1 / h)) h_converge then Left h lo
      else
        let next h' lo hi :=
          if rltb hmax h' then TooBig h'
          else if rltb lo h' && rltb h' hi then hloop n m r l hmax iteration h' lo hi else Left h lo in
        if (iteration <? 30)%Z then next hnew lo hi
        else if (iteration =? 30)%Z then next (rnd (1 / 2 * (lo + hi))) lo hi
        else if (iteration <? 150)%Z then
          if rltb rho small_number || rltb hnew h then next (rnd (1 / 2 * (lo + h))) lo h
          else next (rnd (1 / 2 * (h + hi))) h hi
        else NoConv
  end.

(** Lines 270-280: [dr] is the array dr as left by the preceding loop over the neighbours; drsqd is formed before dr is set. *)
Fixpoint potmin_loop (p : dpart) (invhsqd : R) (l : list dneib) (dr : vec) (b : bool) : bool :=
  match l with
  | [] => b
  | q :: l =>
      let drsqd := dot ndim dr dr in
      let dr := vsub (nb_r q) (p_r p) in
      let b := if rltb (1000000001 / 1000000000 * p_gpot p) (nb_gpot q) && rltb (drsqd * invhsqd) kernrangesqd then false else b in
      potmin_loop p invhsqd l dr b
  end.
Definition last_dr (p : dpart) (l : list dneib) : vec := match rev l with [] => fun _ => 0 | q :: _ => vsub (nb_r q) (p_r p) end.

(** Lines 288-306: the stars' part of zeta. *)
Definition star_zeta (softening : bool) (p : dpart) (h : R) (stars : list dstar) : R -> R :=
  fold_left (fun z s =>
    let invhsqd := if softening then (2 / (h + s_h s)) ^ 2 else 4 * (1 / h) * (1 / h) in
    let dr := vsub (s_r s) (p_r p) in
    z + s_m s * invhsqd * wzeta_s2 (dot ndim dr dr * invhsqd)) stars.

(** ComputeH.  [rho_sink]: rho_sink if sink_particles is set. *)
Definition ComputeH (rho_sink : option R) (create_sinks conservative softening : bool) (stars : list dstar) (p : dpart) (hmax : R) (l : list dneib) : outcome :=
  let lower := match rho_sink with Some rs => h_fac * root (p_m p / rs) | None => 0 end in
  if (match rho_sink with Some _ => true | None => false end) && rltb hmax lower then Ret (-1) p
  else
  match hloop 150 (p_m p) (p_r p) l hmax 0 (p_h p) lower hmax with
  | NoConv => Raised
  | TooBig h => Ret 0 (set_h p h)
  | Left h0 lo =>
      let rho := rho_sum (p_r p) l h0 in
      let h := Rmax (h_rho_func (p_m p) rho) lo in
      let potmin := if create_sinks then potmin_loop p ((1 / h0) * (1 / h0)) l (last_dr p l) true else p_potmin p in
      let invomega := 1 / (1 - h_rho_deriv h rho * omega_sum (p_r p) l h0) in
      let zeta := zeta_sum (p_r p) l h0 in
      let zeta := if conservative then star_zeta softening p h stars zeta else zeta in
      let zeta := h_rho_deriv h rho * zeta * invomega in
      let p' := mkdpart (p_r p) (p_m p) h rho (p_ndens p) (if p_insink p then 1 else invomega) (if p_insink p then 0 else zeta)
                  ((1 / h) ^ (S ndim)) (kernrangesqd * h * h) (p_gpot p) (p_insink p) potmin (p_type p) in
      if rleb h hmax then Ret 1 p' else Ret (-1) p'
  end.

(** GradhSphTree.cpp:177-201: the neighbours within the range of hmax. *)
Definition trim (hmask : Z -> Z -> bool) (p : dpart) (hmax : R) (l : list dneib) : list dneib :=
  filter (fun q => hmask (p_type p) (nb_type q) && rleb (dot ndim (vsub (nb_r q) (p_r p)) (vsub (nb_r q) (p_r p)) + small_number) (kernrangesqd * hmax * hmax)) l.
(** Lines 175-219: the active particles of a cell; [None]: celldone is 0. *)
Fixpoint do_active (comp : dpart -> R -> list dneib -> outcome) (hmask : Z -> Z -> bool) (hmax : R) (ngb : list dneib) (act : list dpart) : res (option (list dpart)) :=
  match act with
  | [] => Ok (Some [])
  | p :: act =>
      match comp p hmax (trim hmask p hmax ngb) with
      | Raised => Raise
      | Ret flag p' =>
          if (flag =? 0)%Z then Ok None
          else let! o := do_active comp hmask hmax ngb act in
               match o with None => Ok None | Some ps => Ok (Some (p' :: ps)) end
      end
  end.
(** Lines 126-222: the loop over hmax for a cell, at most [n] passes; [gather hmax] is the list of neighbours found by the trees
    for hmax (src/Tree/Tree.cpp ComputeGatherNeighbourList, see M_Gather.v). *)
Fixpoint dens_cell (n : nat) (comp : dpart -> R -> list dneib -> outcome) (hmask : Z -> Z -> bool) (gather : R -> list dneib) (act : list dpart) (hmax : R) : res (list dpart) :=
  match n with
  | O => NoFuel
  | S n =>
      let hmax := 105 / 100 * hmax in
      let! o := do_active comp hmask hmax (gather hmax) act in
      match o with Some ps => Ok ps | None => dens_cell n comp hmask gather act hmax end
  end.

(** ** The meshless scheme *)
(** MfvCommon.cpp:155-169; drsqd contains small_number (MeshlessFVTree.cpp:239). *)
Definition mssqd (r : vec) (h : R) (q : dneib) : R := (dot ndim (vsub (nb_r q) r) (vsub (nb_r q) r) + small_number) * ((1 / h) * (1 / h)).
Definition ndens_sum (r : vec) (l : list dneib) (h : R) : R := add_up (fun q => w0_s2 (mssqd r h q)) l 0 * (1 / h) ^ ndim.
(** Lines 144-209; [ph], [prho] are part.h and part.rho, which the loop does not change. *)
Fixpoint mloop (n : nat) (ph prho : R) (r : vec) (l : list dneib) (hmax : R) (iteration : Z) (h lo hi : R) : iter :=
  match n with
  | O => NoConv
  | S n =>
      let iteration := (iteration + 1)%Z in
      let ndens := ndens_sum r l h in
      let hnew := h_fac * root (1 / ndens) in
      if rltb 0 prho && rltb lo ph && rltb (Rabs (ph - hnew)) h_converge then Left h lo
      else
        let next h' lo hi :=
          if rltb hmax h' then TooBig h'
          else if rltb lo h' && rltb h' hi then mloop n ph prho r l hmax iteration h' lo hi else Left h lo in
        if (iteration <? 30)%Z then next hnew lo hi
        else if (iteration =? 30)%Z then next (rnd (1 / 2 * (lo + hi))) lo hi
        else if (iteration <? 150)%Z then
          if rltb ndens small_number || rltb (h_fac ^ ndim) (ndens * h ^ ndim) then next (rnd (1 / 2 * (lo + h))) lo h
          else next (rnd (1 / 2 * (h + hi))) h hi
        else NoConv
  end.
(** MfvCommon.cpp:104-233 ComputeH: the local sums invomega and zeta are formed and not used; lines 220-222 read the fields. *)
Definition MfvComputeH (hmin_sink : R) (p : dpart) (hmax : R) (l : list dneib) : outcome :=
  let lower := if p_insink p then hmin_sink else 0 in
  if p_insink p && rltb hmax hmin_sink then Ret (-1) p
  else
  match mloop 150 (p_h p) (p_rho p) (p_r p) l hmax 0 (p_h p) lower hmax with
  | NoConv => Raised
  | TooBig _ => Ret 0 p
  | Left h0 lo =>
      let ndens := ndens_sum (p_r p) l h0 in
      let rho := p_m p * ndens in
      let h := h_fac * root (1 / ndens) in
      let invomega := 1 / (1 + invndim * h * p_invomega p / ndens) in
      let zeta := - invndim * p_m p * h * p_zeta p * invomega / ndens in
      let p' := mkdpart (p_r p) (p_m p) h rho ndens invomega zeta ((1 / h) ^ (S ndim)) (kernrangesqd * h * h) (p_gpot p) (p_insink p) (p_potmin p) (p_type p) in
      if rleb h hmax then Ret 1 p' else Ret (-1) p'
  end.
(** MfvCommon.cpp:268, 274-278, 302-306 (ComputeGradients) and SM2012Sph.cpp:225-234: the same test with the distance of the
    neighbour itself; [invhsqd] is that of the final h in the first and of the last iteration in the second. *)
Fixpoint potmin_right (p : dpart) (invhsqd : R) (l : list dneib) (b : bool) : bool :=
  match l with
  | [] => b
  | q :: l =>
      let dr := vsub (nb_r q) (p_r p) in
      let drsqd := dot ndim dr dr in
      let b := if rltb (1000000001 / 1000000000 * p_gpot p) (nb_gpot q) && rltb (drsqd * invhsqd) kernrangesqd then false else b in
      potmin_right p invhsqd l b
  end.
End Dens.
