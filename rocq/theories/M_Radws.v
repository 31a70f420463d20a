(** Gas that cools by diffusion of radiation through a table (src/Common/OpacityTable.cpp, src/Headers/OpacityTable.h,
    src/Thermal/RadwsEOS.cpp, src/Hydrodynamics/EnergyRadws.cpp, src/Headers/InlineFuncs.h:647-678) and heating by stars
    (src/Thermal/RadiativeFB.cpp).  FLOAT is R; pow is [Rpower] (base > 0); log10 x = ln x / ln 10.  Arrays are functions of an
    index with their sizes kept in the table; an access that may leave an array goes through [idx], which is UB there. *)
From Verif Require Import Prelude Vec M_Box M_Eos.
From Coq Require Import Reals.
Local Open Scope R_scope.

Definition log10 (x : R) : R := ln x / ln 10.
Definition idx (n : nat) (f : nat -> R) (i : Z) : res R :=
  if ((0 <=? i) && (i <? Z.of_nat n))%Z%bool then Ok (f (Z.to_nat i)) else UB.

(** std::lower_bound on f[first..first+len): the halving loop of the standard library. *)
Fixpoint lower_bound (fuel : nat) (f : nat -> R) (v : R) (first len : nat) : nat :=
  match fuel with
  | 0%nat => first
  | S k => if Nat.eqb len 0 then first
           else let half := Nat.div2 len in
                if rltb (f (first + half)%nat) v then lower_bound k f v (first + half + 1) (len - half - 1)
                else lower_bound k f v first half
  end.
(** InlineFuncs.h:650-678. *)
Definition getClosestIndex (n : nat) (f : nat -> R) (v : R) : nat :=
  let before := lower_bound n f v 0 n in
  if Nat.eqb before 0 then 0%nat
  else if Nat.eqb before n then (n - 1)%nat
  else let after := before in let before := (before - 1)%nat in
       if rltb (f after - v) (v - f before) then after else before.

(** OpacityTable.h:58-72; the densities and temperatures are logarithms. *)
Record table := mktab { ndens : nat; ntemp : nat; eos_dens : nat -> R; eos_temp : nat -> R; eos_energy : nat -> nat -> R;
  eos_mu : nat -> nat -> R; kappa_table : nat -> nat -> R; kappap_table : nat -> nat -> R; eos_gamma : nat -> nat -> R;
  eos_gamma1 : nat -> nat -> R }.

(** ** Reading the table *)
(** A line of the file, after parsing (OpacityTable.cpp:110), without kappar, which nothing uses (GetKappa returns kappap for it). *)
Record line := mkline { l_dens : R; l_temp : R; l_energy : R; l_mu : R; l_kappa : R; l_kappap : R; l_gamma : R; l_gamma1 : R }.
Definition upd {A} (f : nat -> A) (i : nat) (a : A) : nat -> A := fun k => if Nat.eqb k i then a else f k.
Definition upd2 {A} (f : nat -> nat -> A) (i j : nat) (a : A) : nat -> nat -> A := fun k => if Nat.eqb k i then upd (f k) j a else f k.
(** The counters i, j, l and the arrays filled so far; entries not yet written are whatever was there. *)
Record rd := mkrd { r_i : nat; r_j : nat; r_l : nat; r_t : table }.
Section Read.
(** simunits->u, kappa, temp, rho: outscale * outcgs. *)
Variables su sk st sd : R.
(** OpacityTable.cpp:107-133, one line. *)
Definition read_line (s : rd) (x : line) : res rd :=
  let t := r_t s in let i := r_i s in let j := r_j s in
  if (Nat.ltb i (ndens t) && Nat.ltb j (ntemp t))%bool then
    let te := if Nat.ltb (r_l s) (ntemp t) then upd (eos_temp t) (r_l s) (log10 (l_temp x / st)) else eos_temp t in
    let l := S (r_l s) in let j' := S j in
    let fin := Nat.eqb (l mod ntemp t) 0 in
    let de := if fin then upd (eos_dens t) i (log10 (l_dens x / sd)) else eos_dens t in
    Ok (mkrd (if fin then S i else i) (if fin then 0%nat else j') l
         (mktab (ndens t) (ntemp t) de te (upd2 (eos_energy t) i j (l_energy x / su)) (upd2 (eos_mu t) i j (l_mu x))
            (upd2 (kappa_table t) i j (l_kappa x / sk)) (upd2 (kappap_table t) i j (l_kappap x / sk))
            (upd2 (eos_gamma t) i j (l_gamma x)) (upd2 (eos_gamma1 t) i j (l_gamma1 x))))
  else UB.
Fixpoint read_lines (s : rd) (ls : list line) : res rd :=
  match ls with [] => Ok s | x :: ls => let! s := read_line s x in read_lines s ls end.
(** OpacityTable.cpp:73-140; [t] has the sizes of the first line and arrays as allocated. *)
Definition read_table (t : table) (ls : list line) : res table := let! s := read_lines (mkrd 0 0 0 t) ls in Ok (r_t s).
End Read.

(** ** Looking up the table *)
Section Table.
Variable t : table.
(** OpacityTable.h:80-117. *)
Definition GetIDens (x : R) : nat := getClosestIndex (ndens t) (eos_dens t) x.
Definition GetITemp (x : R) : nat := getClosestIndex (ntemp t) (eos_temp t) x.
Definition GetIEner_rho (u rho : R) : nat := getClosestIndex (ntemp t) (eos_energy t (GetIDens (log10 rho))) u.
Definition GetIEner (u : R) (idens : nat) : nat := getClosestIndex (ntemp t) (eos_energy t idens) u.
(** OpacityTable.h:155-194: GetMuBar, GetGamma, GetGamma1. *)
Definition GetEntry (f : nat -> nat -> R) (x : proxy) : R :=
  let idens := GetIDens (x_rho x) in let iener := GetIEner (x_u x) idens in f idens iener.
Definition GetMuBar := GetEntry (eos_mu t).
Definition GetGamma := GetEntry (eos_gamma t).
Definition GetGamma1 := GetEntry (eos_gamma1 t).
(** OpacityTable.cpp:194-203: the halving loop; [p k] is (p_gamma[k]-1)*rho*p_energy[k]. *)
Fixpoint pbisect (fuel : nat) (p : nat -> R) (P : R) (l u : nat) : nat :=
  match fuel with
  | 0%nat => l
  | S k => if Nat.ltb (l + 1) u then let c := Nat.div2 (l + u) in if rltb P (p c) then pbisect k p P l c else pbisect k p P c u else l
  end.
(** OpacityTable.cpp:176-214. *)
Definition GetEnergyFromPressure (rho P : R) : res R :=
  let idens := GetIDens rho in
  let ga := eos_gamma t idens in let p := fun k => (ga k - 1) * rho * eos_energy t idens k in
  let u := (ntemp t - 1)%nat in
  if rltb (p u) P then Ok (P / (rho * (ga u - 1)))
  else if rltb P (p 0%nat) then Ok (P / (rho * (ga 0%nat - 1)))
  else let l := pbisect (ntemp t) p P 0 u in
    if negb (Nat.ltb (l + 1) (ntemp t)) then Raise
    else let l := if rltb (p (l + 1)%nat - P) (P - p l) then (l + 1)%nat else l in Ok (P / (rho * (ga l - 1))).
(** RadwsEOS.cpp:58-125. *)
Definition rPressure (x : proxy) : R := (GetGamma x - 1) * x_rho x * x_u x.
Definition rEntropicFunction (x : proxy) : R := (GetGamma x - 1) * x_u x * Rpower (x_rho x) (1 - GetGamma x).
Definition rSoundSpeed (x : proxy) : R := sqrt (GetGamma1 x * (GetGamma x - 1) * x_u x).
Definition rTemperature (x : proxy) : R := (GetGamma x - 1) * x_u x * GetMuBar x.
Definition rInternalEnergyFromPressure (x : proxy) : res R := GetEnergyFromPressure (x_rho x) (x_p x).
End Table.

(** ** Heating by stars *)
(** pow(x, 0.25) for 0 <= x. *)
Definition quarter (x : R) : R := if Req_EM_T x 0 then 0 else Rpower x (1 / 4).
Section Feedback.
Variable ndim : nat.
(** SinkParticle: star->r, star->m, dmdt, radius. *)
Record sink := mksk { sk_r : vec; sk_m : R; sk_dmdt : R; sk_radius : R }.
(** Constants of RadiativeFB.cpp:117-129, 175-215 in code units. *)
Record fbpar := mkfb { temp_inf : R; temp_au : R; temp_q : R; rsmooth : R; f_acc : R; r_star : R; r_bdwarf : R; r_planet : R;
  fb_rad : R; lsun : R; msun : R; mjup : R }.
Variable F : fbpar.
(** Lines 48-50. *)
Definition Ncentral (disc_heating : Z) : nat := Z.to_nat (Z.min 2 (Z.max 0 disc_heating)).
(** Lines 149-163; [nc] is Ncentral. *)
Definition disc_ambient (nc : nat) (r : vec) (sinks : list sink) : R :=
  if Nat.leb nc (length sinks) then
    fold_left (fun _ s => let dr := vsub r (sk_r s) in let dist := sqrt (dot 2 dr dr) in
                 temp_au F ^ 4 * Rpower (dist * dist + rsmooth F * rsmooth F) (- 2 * temp_q F)) (firstn nc sinks) 0
  else 0.
(** Lines 228-256. *)
Definition SinkTemperature (L r : R) : R := quarter (L / (4 * PI * fb_rad F * r * r)).
Definition SinkLuminosity (m mdot rsink r f_n : R) : R :=
  f_n * (m / msun F) ^ 3 * lsun F + f_acc F * (m * mdot / r) * (1 - r / (2 * rsink)).
(** Lines 282-288: radius of the source and flag. *)
Definition source (m : R) : R * R :=
  let r := if rleb (13 * mjup F) m then r_bdwarf F else r_planet F in
  if rleb (80 * mjup F) m then (r_star F, 1) else (r, 0).
Definition sink_term (r : vec) (s : sink) : R :=
  let dr := vsub r (sk_r s) in let dist := sqrt (dot ndim dr dr) in
  let '(rs, fn) := source (sk_m s) in
  let T := SinkTemperature (SinkLuminosity (sk_m s) (sk_dmdt s) (sk_radius s) rs fn) rs in
  1 / 4 * (rs / dist) ^ 2 * T ^ 4.
(** Lines 262-296. *)
Definition sink_ambient (nc : nat) (r : vec) (sinks : list sink) : R := fold_left (fun a s => a + sink_term r s) (skipn nc sinks) 0.
(** Lines 93-106 with the pointers of 57-69: [dh] is the parameter disc_heating, [ah] ambient_heating, [sh] sink_heating. *)
Definition AmbientTemp (ah sh : bool) (dh : Z) (r : vec) (sinks : list sink) : R :=
  let nc := Ncentral dh in
  let T := (if ah then temp_inf F ^ 4 else 0) in
  let T := if Z.eqb dh 0 then T else T + disc_ambient nc r sinks in
  let T := if sh then T + sink_ambient nc r sinks else T in
  quarter T.
End Feedback.

(** ** Cooling *)
(** Constants.h: small_number. *)
Definition small_number : R := / 10 ^ 20.
(** EnergyRadws.cpp:129-140, one living particle: dt = t - tlast. *)
Definition relax (u0 ueq dt_therm dt : R) : R :=
  if rleb dt_therm small_number then u0
  else if rltb dt (40 * dt_therm) then u0 * exp (- dt / dt_therm) + ueq * (1 - exp (- dt / dt_therm))
  else ueq.

Section Cool.
Variable t : table.
(** rad_const, temp_min (EnergyRadws.cpp:74, 76). *)
Variables rad temp_min : R.
(** EnergyRadws.cpp:708-718. *)
Definition ebalance (dudt temp_ex temp kappa kappap col2 : R) : R :=
  dudt - 4 * rad * (temp ^ 4 - temp_ex ^ 4) / (col2 * kappa + 1 / kappap).
(** pow(10.0, table->eos_temp[i]). *)
Definition tab_temp (i : Z) : res R := let! x := idx (ntemp t) (eos_temp t) i in Ok (Rpower 10 x).
Section Row.
Variable idens : nat.
(** OpacityTable.h:125-135 on row [idens]. *)
Definition GetKappa (i : Z) : res (R * R) :=
  let! k := idx (ntemp t) (kappa_table t idens) i in let! kp := idx (ntemp t) (kappap_table t idens) i in Ok (k, kp).

(** Tlow, kappaLow, kappapLow, balanceLow and the same at the upper end. *)
Record br := mkbr { Tlo : R; klo : R; kplo : R; blo : R; Thi : R; khi : R; kphi : R; bhi : R }.
Section Equi.
Variables (temp_ambient col2 dudt : R).
(** EnergyRadws.cpp:459-472; the assertion is on [itemp], which the loop does not change. *)
Fixpoint search_down (fuel : nat) (itemp : Z) (b : br) (itemplow : Z) : res (br * Z) :=
  match fuel with
  | 0%nat => NoFuel
  | S k =>
    if rltb 0 (blo b * bhi b) then
      if (itemp <? 1)%Z then Raise
      else let itemplow := (itemplow - 1)%Z in
        let! T := tab_temp itemplow in let! kk := GetKappa itemplow in
        search_down k itemp (mkbr T (fst kk) (snd kk) (ebalance dudt temp_ambient T (fst kk) (snd kk) col2)
                               (Tlo b) (klo b) (kplo b) (blo b)) itemplow
    else Ok (b, itemplow)
  end.
(** EnergyRadws.cpp:489-502. *)
Fixpoint search_up (fuel : nat) (itemp : Z) (b : br) (itemphigh : Z) : res (br * Z) :=
  match fuel with
  | 0%nat => NoFuel
  | S k =>
    if rltb 0 (blo b * bhi b) then
      if (Z.of_nat (ntemp t) - 2 <? itemp)%Z then Raise
      else let itemphigh := (itemphigh + 1)%Z in
        let! T := tab_temp itemphigh in let! kk := GetKappa itemphigh in
        search_up k itemp (mkbr (Thi b) (khi b) (kphi b) (bhi b)
                             T (fst kk) (snd kk) (ebalance dudt temp_ambient T (fst kk) (snd kk) col2)) itemphigh
    else Ok (b, itemphigh)
  end.
(** EnergyRadws.cpp:507-540; [Teq], [kappa], [kappap] as they are when the loop is entered. *)
Fixpoint refine (fuel : nat) (b : br) (Teq kappa kappap : R) (itemplow : Z) : res R :=
  match fuel with
  | 0%nat => NoFuel
  | S k =>
    let dtemp := Thi b - Tlo b in
    if Req_EM_T dtemp 0 then Ok (if rltb Teq temp_ambient then temp_ambient else Teq)
    else if rltb (1 / 1000) (Rabs (2 * dtemp / (Thi b + Tlo b))) then
      let! kk := GetKappa itemplow in
      let balance := ebalance dudt temp_ambient Teq kappa kappap col2 in
      if Req_EM_T balance 0 then Ok (1 / 2 * (Thi b + Tlo b))
      else
        let b' := if rltb (blo b * balance) 0 then mkbr (Tlo b) (fst kk) (snd kk) (blo b) Teq kappa kappap balance
                  else mkbr Teq kappa kappap balance (Thi b) (khi b) (kphi b) (bhi b) in
        refine k b' (1 / 2 * (Thi b' + Tlo b')) ((khi b' + klo b') / 2) ((kphi b' + kplo b') / 2) itemplow
    else Ok (if rltb Teq temp_ambient then temp_ambient else Teq)
  end.
(** EnergyRadws.cpp:402-543; here [itemp] is first the entry of the particle and then that of temp_min. *)
Definition EnergyFindEquiTemp (fuel : nat) (temp : R) : res R :=
  let itemp := Z.of_nat (GetITemp t (log10 temp)) in
  let! kk := GetKappa itemp in let kappa := fst kk in let kappap := snd kk in
  let balance := ebalance 0 temp_ambient temp kappa kappap col2 in
  let itemp := Z.of_nat (GetITemp t (log10 temp_min)) in
  let! mk := GetKappa itemp in
  let minbalance := ebalance 0 temp_ambient temp_min (fst mk) (snd mk) col2 in
  if rleb dudt (- balance) then
    if rleb dudt (- minbalance) then Ok temp_min
    else
      let! Tl := tab_temp (itemp - 1) in let! Th := tab_temp (itemp + 1) in
      let! lo := GetKappa (itemp - 1) in let! hi := GetKappa itemp in
      let! r := search_down fuel itemp (mkbr Tl (fst lo) (snd lo) (ebalance dudt temp_ambient Tl (fst lo) (snd lo) col2)
                                             Th (fst hi) (snd hi) (ebalance dudt temp_ambient Th (fst hi) (snd hi) col2)) (itemp - 1) in
      refine fuel (fst r) (1 / 2 * (Tlo (fst r) + Thi (fst r))) kappa kappap (snd r)
  else
    let! Tl := tab_temp (itemp - 1) in let! Th := tab_temp (itemp + 1) in
    let! lo := GetKappa itemp in let! hi := GetKappa (itemp + 1) in
    let! r := search_up fuel itemp (mkbr Tl (fst lo) (snd lo) (ebalance dudt temp_ambient Tl (fst lo) (snd lo) col2)
                                         Th (fst hi) (snd hi) (ebalance dudt temp_ambient Th (fst hi) (snd hi) col2)) (itemp + 1) in
    refine fuel (fst r) (1 / 2 * (Tlo (fst r) + Thi (fst r))) kappa kappap (snd r - 1).
End Equi.
End Row.
(** EnergyRadws.cpp:347-394: ueq and dt_therm. *)
Definition EnergyFindEqui (fuel : nat) (rho temp temp_ambient col2 u dudt : R) : res (R * R) :=
  let idens := GetIDens t (log10 rho) in
  let! kk := GetKappa idens (Z.of_nat (GetITemp t (log10 temp))) in
  let dudt_rad := ebalance 0 temp_ambient temp (fst kk) (snd kk) col2 in
  let! Tequi := EnergyFindEquiTemp idens temp_ambient col2 dudt fuel temp in
  if rltb Tequi temp_min then Raise
  else
    let itemp := Z.of_nat (GetITemp t (log10 Tequi)) in
    let! ke := GetKappa idens itemp in
    let! ueq := idx (ntemp t) (eos_energy t idens) itemp in
    let dudt_eq := ebalance 0 temp_ambient Tequi (fst ke) (snd ke) col2 in
    Ok (ueq, if Req_EM_T dudt_eq dudt_rad then 10 ^ 30 else (ueq - u) / (dudt + dudt_rad)).

(** ** The implicit update of the meshless scheme *)
Section Implicit.
Variable idens : nat.
Variables (u temp_ambient col2 dudt dt : R).
(** Temperature, opacities, gamma and mu at one end of the bracket, and the balance there. *)
Record en := mken { e_T : R; e_k : R; e_kp : R; e_g : R; e_mu : R; e_b : R }.
Definition ebal (T g mu heating : R) : R := T / (mu * (g - 1)) - u - heating * dt.
(** EnergyRadws.cpp:586-603, 619-628, 644-651: the end at entry [i]. *)
Definition end_at (i : Z) : res en :=
  let! T := tab_temp i in
  let! g := idx (ntemp t) (eos_gamma t idens) i in let! mu := idx (ntemp t) (eos_mu t idens) i in
  let! kk := GetKappa idens i in
  Ok (mken T (fst kk) (snd kk) g mu (ebal T g mu (ebalance dudt temp_ambient T (fst kk) (snd kk) col2))).
(** EnergyRadws.cpp:608-629. *)
Fixpoint bracket_up (fuel : nat) (itemp : Z) (lo hi : en) : res (en * en) :=
  match fuel with
  | 0%nat => NoFuel
  | S k => if rltb 0 (e_b lo * e_b hi) then
             if (Z.of_nat (ntemp t) - 2 <? itemp)%Z then Raise
             else let itemp := (itemp + 1)%Z in let! h := end_at (itemp + 1) in bracket_up k itemp hi h
           else Ok (lo, hi)
  end.
(** EnergyRadws.cpp:632-660. *)
Fixpoint bracket_down (fuel : nat) (itemp : Z) (lo hi : en) : res (en * en) :=
  match fuel with
  | 0%nat => NoFuel
  | S k => if rltb 0 (e_b lo * e_b hi) then
             if (0 <? itemp)%Z then let itemp := (itemp - 1)%Z in let! l := end_at itemp in bracket_down k itemp l lo
             else Ok (mken 0 (e_k lo) (e_kp lo) (e_g lo) (e_mu lo)
                        (ebal 0 (e_g lo) (e_mu lo) (ebalance dudt temp_ambient 0 (e_k lo) (e_kp lo) col2)), lo)
           else Ok (lo, hi)
  end.
Definition tolerance : R := / 10 ^ 12.
(** EnergyRadws.cpp:667-697: [lo] and [hi] are the ends of the bracket; TLow, balanceLow and THigh change. *)
Fixpoint bisect (fuel : nat) (lo hi : en) (TLow bLow THigh : R) : res R :=
  match fuel with
  | 0%nat => NoFuel
  | S n =>
    let Tc := 1 / 2 * (TLow + THigh) in
    let f := (e_T hi - Tc) / (e_T hi - e_T lo) in
    let mix a b := f * a + (1 - f) * b in
    let g := mix (e_g hi) (e_g lo) in let mu := mix (e_mu hi) (e_mu lo) in
    let heating := ebalance dudt temp_ambient Tc (mix (e_k hi) (e_k lo)) (mix (e_kp hi) (e_kp lo)) col2 in
    let u_new := Tc / (mu * (g - 1)) in
    let balance := u_new - u - heating * dt in
    if Req_EM_T balance 0 then Ok heating
    else
      let '(TLow', bLow', THigh') := if rltb (balance * bLow) 0 then (TLow, bLow, Tc) else (Tc, balance, THigh) in
      if (rltb (tolerance * u_new) (Rabs balance) && rltb (tolerance * TLow') (THigh' - TLow'))%bool then bisect n lo hi TLow' bLow' THigh'
      else Ok heating
  end.
End Implicit.
(** EnergyRadws.cpp:550-701. *)
Definition ImplicitEnergyUpdate (fuel : nat) (rho u temp temp_ambient col2 dudt dt : R) : res R :=
  let idens := GetIDens t rho in
  let itemp := Z.of_nat (GetITemp t (log10 temp)) in
  let! kk := GetKappa idens itemp in
  let heating := ebalance dudt temp_ambient temp (fst kk) (snd kk) col2 in
  if rltb (Rabs (heating * dt)) (tolerance * u) then Ok heating
  else
    let! lo := end_at idens u temp_ambient col2 dudt dt itemp in
    let! hi := end_at idens u temp_ambient col2 dudt dt (itemp + 1) in
    let! b := if rltb (e_b lo) 0 then bracket_up idens u temp_ambient col2 dudt dt fuel itemp lo hi
              else bracket_down idens u temp_ambient col2 dudt dt fuel itemp lo hi in
    let '(lo, hi) := b in
    if rltb 0 (e_b hi * e_b lo) then Raise
    else let! h := bisect u temp_ambient col2 dudt dt fuel lo hi (e_T lo) (e_b lo) (e_T hi) in Ok (h - dudt).
End Cool.

(** ** State for which the meshless scheme computes cooling *)
(** Momentum, mass and total energy. *)
Record qcons := mkq { q_p : vec; q_m : R; q_E : R }.
Section Predict.
Variable ndim : nat.
(** EnergyRadws.cpp:295-303, at the start of a step (EnergyIntegration). *)
Definition predict_start (q0 dqdt : qcons) (a0 a : vec) (dt : R) : qcons :=
  let p := fun k => q_p q0 k + q_p dqdt k * dt in let m := q_m q0 + q_m dqdt * dt in let E := q_E q0 + q_E dqdt * dt in
  mkq (fun k => p k + dt * q_m q0) m
    (fold_left (fun E k => E + 1 / 2 * dt * (a0 k * (q_p q0 k + 1 / 2 * q_m q0 * a0 k * dt) + a k * (p k + 1 / 2 * m * a0 k * dt))) (seq 0 ndim) E).
(** EnergyRadws.cpp:230-238, at the end of a step (EndTimestep). *)
Definition predict_end (q0 dq : qcons) (a0 a : vec) (dt : R) : qcons :=
  let p := fun k => q_p q0 k + q_p dq k in let m := q_m q0 + q_m dq in let E := q_E q0 + q_E dq in
  mkq (fun k => p k + 1 / 2 * dt * (q_m q0 * a0 k + m * a k)) m
    (fold_left (fun E k => E + 1 / 2 * dt * (a0 k * (q_p q0 k + 1 / 2 * q_m q0 * a0 k * dt) + a k * (p k + 1 / 2 * m * a k * dt))) (seq 0 ndim) E).
End Predict.
(** EnergyRadws.cpp:252: the clip of the heating at the end of a step. *)
Definition clip (heating u dt : R) : R := Rmax heating (- (95 / 100) * u / dt).
