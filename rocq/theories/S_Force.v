(** Totals over a set of particles that act on each other. *)
From Verif Require Import Prelude Vec M_Box M_Force S_Stock.
From Coq Require Import Reals Permutation.
Local Open Scope R_scope.

(** The copy of [q] displaced by whole box lengths [L]. *)
Definition shift3 := (Z * Z * Z)%type.
Definition sh (s : shift3) (k : nat) : Z :=
  let '(a, b, c) := s in match k with 0%nat => a | 1%nat => b | 2%nat => c | _ => 0%Z end.
Definition copy (L : vec) (s : shift3) (q : fpart) : fpart :=
  {| f_m := f_m q; f_r := fun k => f_r q k + IZR (sh s k) * L k; f_v := f_v q; f_h := f_h q; f_rho := f_rho q;
     f_pressure := f_pressure q; f_invomega := f_invomega q; f_hfactor := f_hfactor q; f_sound := f_sound q;
     f_alpha := f_alpha q; f_u := f_u q; f_zeta := f_zeta q; f_hr2 := f_hr2 q; f_level := f_level q |}.

(** [(i,j,s)]: particle i has the copy [s] of particle j in its neighbour list. *)
Definition link := (nat * nat * shift3)%type.
Definition back (x : link) : link := let '(i, j, (a, b, c)) := x in (j, i, (- a, - b, - c)%Z).
(** Whenever i sees a copy of j, j sees the copy of i displaced the other way. *)
Definition mutual (N : nat) (P : list link) : Prop :=
  Permutation P (map back P) /\ forall i j s, In (i, j, s) P -> (i < N)%nat /\ (j < N)%nat.
Definition neibs_of (L : vec) (ps : list fpart) (P : list link) (i : nat) : list fpart :=
  flat_map (fun x => let '(i', j, s) := x in
    if Nat.eqb i' i then match nth_error ps j with Some q => [copy L s q] | None => [] end else []) P.

(** The sum over the particles of [f] applied to the particle and what was computed for it. *)
Definition total {A} (f : fpart -> A -> R) (comp : nat -> fpart -> A) (ps : list fpart) : R :=
  lsum (fun i => match nth_error ps i with Some p => f p (comp i p) | None => 0 end) (seq 0 (length ps)).
(** Components of force and torque and the power. *)
Definition force (k : nat) (p : fpart) (a : vec) : R := f_m p * a k.
Definition torque (k l : nat) (p : fpart) (a : vec) : R := f_m p * (f_r p k * a l - f_r p l * a k).
Definition power (n : nat) (p : fpart) (x : facc) : R := f_m p * (dot n (f_v p) (a_a x) + a_dudt x).

(** The distance between two particles is decreasing. *)
Definition approaching (n : nat) (p q : fpart) : Prop :=
  dot n (vsub (f_v q) (f_v p)) (vsub (f_r q) (f_r p)) < 0.
(** Zero accumulators. *)
Definition acc0 : facc :=
  {| a_a := fun _ => 0; a_atree := fun _ => 0; a_gpot := 0; a_dudt := 0; a_divv := 0; a_dalphadt := 0; a_lneib := 0 |}.

(** The same particle in units of length, mass and time smaller by [ul], [um], [ut]. *)
Definition rescale (n : nat) (ul um ut : R) (p : fpart) : fpart :=
  {| f_m := um * f_m p; f_r := fun k => ul * f_r p k; f_v := fun k => ul / ut * f_v p k; f_h := ul * f_h p;
     f_rho := um / ul ^ n * f_rho p; f_pressure := um / ul ^ n * (ul / ut) ^ 2 * f_pressure p; f_invomega := f_invomega p;
     f_hfactor := / (ul ^ n * ul) * f_hfactor p; f_sound := ul / ut * f_sound p; f_alpha := f_alpha p;
     f_u := (ul / ut) ^ 2 * f_u p; f_zeta := ul ^ n / ul * f_zeta p; f_hr2 := ul ^ 2 * f_hr2 p; f_level := f_level p |}.

(** Physical values. *)
Definition physical (p : fpart) : Prop :=
  0 <= f_m p /\ 0 < f_rho p /\ 0 <= f_hfactor p /\ 0 <= f_sound p /\ 0 <= f_alpha p /\ 0 < f_h p.

(** The rate of change of the viscosity parameter of Morris and Monaghan (1997): decay to the
    minimum over a few sound crossing times, growth where the flow converges. *)
Definition mm97_rate (almin almax : R) (p : fpart) (divv : R) : R :=
  1 / 10 * f_sound p * (almin - f_alpha p) / f_h p + Rmax (- divv) 0 * (almax - f_alpha p).

(** Softened potential at [p] due to [q], symmetrised over the two smoothing lengths, at distance [d]. *)
Definition soft_pot (wpot : R -> R) (p q : fpart) (d : R) : R :=
  f_m q * ((/ f_h p * wpot (d / f_h p) + / f_h q * wpot (d / f_h q)) / 2).
