(** C81: units. *)
From Coq Require Import Reals String Lra.
From Verif Require Import Prelude M_Units S_Units L_Units L_Units2.
Local Open Scope string_scope.
Local Open Scope R_scope.

(** Every accepted name has the dimension of its quantity, and (all but GJ) the size of the
    product of base units it stands for; every listed name is accepted. *)
Theorem C81_names :
  (forall q s x, SIUnit q s = Ok x -> s <> "" ->
     exists l, In (q, s, l) meaning /\ prod_dim l = dim_of q /\ (s <> "GJ" -> x = prod_size l)) /\
  (forall q s l, In (q, s, l) meaning -> exists x, SIUnit q s = Ok x /\ 0 < x) /\
  (forall q s, (forall l, ~ In (q, s, l) meaning) -> s <> "" -> SIUnit q s = Raise).
Proof.
  split; [|split].
  - intros q s x H Hs. destruct (names_all q s x H) as [(E & _)|(l & Hl & Hd & Hx)]; [contradiction|].
    exists l. repeat split; auto. intros Hg. destruct Hx; [contradiction|assumption].
  - intros q s l H. destruct (names_accepted q s l H) as (x & Hx). exists x. split; [assumption|exact (SIUnit_pos _ _ _ Hx)].
  - intros q s H Hs. destruct (SIUnit_or q s) as [(x & Hx)|]; [|assumption].
    destruct (names_all q s x Hx) as [(E & _)|(l & Hl & _)]; [contradiction|]. exfalso. exact (H l Hl).
Qed.
(** A gigajoule is a thousand times too big. *)
Theorem C81_gigajoule_refuted :
  exists l x, In (QE, "GJ", l) meaning /\ SIUnit QE "GJ" = Ok x /\ x = 1000 * prod_size l.
Proof.
  exists [(gigajoule, 1%Z)], (10 ^ 12). split; [|split; [reflexivity|pz; lra]].
  unfold meaning; repeat (first [left; reflexivity | right]).
Qed.

(** The setup succeeds exactly if every name looked up is accepted; otherwise it raises. *)
Theorem C81_accepted (p : params) (b : bool) us0 :
  let p' := if b then p else copy_units p in
  (forall q, usual q -> accepted q (p' (key_in q)) /\ accepted q (p' (key_out q))) <-> exists us, SetupUnits p false b us0 = Ok us.
Proof.
  intros p'. split.
  - intros H. destruct (setup_or p b us0) as [E|(_ & q & Hu & Hq)]; [assumption|]. exfalso. apply Hq. now apply H.
  - intros (us & H) q Hu. apply setup_inv in H as (L & M & _ & _ & _ & _ & G & _). fold p' in G. destruct (G q Hu) as [gi go _ _ _ _ _].
    split; eexists; eassumption.
Qed.
Theorem C81_raise (p : params) (b : bool) us0 :
  (exists us, SetupUnits p false b us0 = Ok us) \/ SetupUnits p false b us0 = Raise.
Proof. destruct (setup_or p b us0) as [H|(H & _)]; auto. Qed.

(** One length, one mass and one time, with G = 1, are behind the code units of all quantities
    but the luminosity (and the three electromagnetic ones); that of the temperature makes
    k/m_H = 1. *)
Theorem C81_code_units (p : params) (b : bool) us0 us : SetupUnits p false b us0 = Ok us ->
  exists L M T, 0 < L /\ 0 < M /\ 0 < T /\ SIUnit Qr (p "routunit") = Ok L /\ SIUnit Qm (p "moutunit") = Ok M /\ G_const * M * T ^ 2 = L ^ 3 /\
    forall q, usual q -> q <> QL ->
      let v := size L M T (m_hydrogen / k_boltzmann * (L ^ 2 / T ^ 2)) 1 (dim_of q) in
      inscale (us q) * inSI (us q) = v /\ outscale (us q) * outSI (us q) = v.
Proof.
  intros H. apply setup_inv in H as (L & M & HL & HM & EL & EM & G & _). pose proof (code_time_pos L M HL HM) as HT.
  exists L, M, (code_time L M). do 3 (split; [assumption|]).
  split; [destruct b; [assumption|rewrite copy_out in EL; exact EL]|].
  split; [destruct b; [assumption|rewrite copy_out in EM; exact EM]|].
  split; [now apply code_time_G|].
  intros q Hu Hq v. unfold v. fold (kelvins L (code_time L M)). rewrite <- (sz_size _ _ _ _ HL HM HT Hu Hq).
  destruct (G q Hu) as [_ _ gi go _ _ _]. split; assumption.
Qed.
(** The luminosity: mass over time, so energy per time only up to the square of the code's
    velocity; by default too small by a factor above 4000. *)
Theorem C81_luminosity_refuted :
  (forall (p : params) b us0 us, SetupUnits p false b us0 = Ok us ->
     Code_to_SIUnits (us QL) 1 * Code_to_SIUnits (us Qv) 1 ^ 2 = Code_to_SIUnits (us QE) 1 / Code_to_SIUnits (us Qt) 1) /\
  (forall us0, exists us, SetupUnits default_params false false us0 = Ok us /\
     4000 * Code_to_SIUnits (us QL) 1 < Code_to_SIUnits (us QE) 1 / Code_to_SIUnits (us Qt) 1).
Proof.
  assert (A : forall (p : params) b us0 us, SetupUnits p false b us0 = Ok us ->
    exists L M, 0 < L /\ 0 < M /\ SIUnit Qr ((if b then p else copy_units p) "routunit") = Ok L /\ SIUnit Qm ((if b then p else copy_units p) "moutunit") = Ok M
      /\ forall q, usual q -> Code_to_SIUnits (us q) 1 = sz L M (code_time L M) q).
  { intros p b us0 us H. apply setup_inv in H as (L & M & HL & HM & EL & EM & G & _). exists L, M. repeat split; auto.
    intros q Hu. destruct (G q Hu) as [_ _ _ go _ _ _]. unfold Code_to_SIUnits. rewrite Rmult_1_l. assumption. }
  split.
  - intros p b us0 us H. destruct (A p b us0 us H) as (L & M & HL & HM & _ & _ & E). pose proof (code_time_pos L M HL HM).
    rewrite !E by exact I. cbn [sz]. field. lra.
  - intros us0. destruct (default_setup us0) as (us & H). exists us. split; [assumption|].
    destruct (A _ _ _ _ H) as (L & M & HL & HM & EL & EM & E). pose proof (code_time_pos L M HL HM) as HT.
    pose proof (code_time_G L M HL HM) as HG.
    change "routunit" with (outkey Qr) in EL. change "moutunit" with (outkey Qm) in EM. rewrite copy_out in EL, EM.
    vm_compute (default_params _) in EL. vm_compute (default_params _) in EM.
    assert (EL' : L = r_pc) by (change (Ok r_pc = Ok L) in EL; congruence). assert (EM' : M = m_sun) by (change (Ok m_sun = Ok M) in EM; congruence).
    rewrite !E by exact I. cbn [sz]. set (T := code_time L M) in *.
    assert (Q : L ^ 2 / T ^ 2 = G_const * M / L).
    { apply Rmult_eq_reg_r with (T ^ 2 * L); [|apply Rmult_integral_contrapositive; split; [apply pow_nonzero|]; lra].
      replace (L ^ 2 / T ^ 2 * (T ^ 2 * L)) with (L ^ 3) by (field; lra). rewrite <- HG. field. lra. }
    replace (M * L ^ 2 / T ^ 2 / T) with (L ^ 2 / T ^ 2 * (M / T)) by (field; lra). rewrite Q, EL', EM'.
    apply Rmult_lt_compat_r; [|apply GML]. rewrite <- EM'. now apply Rdiv_lt_0_compat.
Qed.

(** Conversions: inverse to one another, and through the SI value. *)
Theorem C81_conversions (p : params) (b : bool) us0 us q x : SetupUnits p false b us0 = Ok us -> usual q ->
  let u := us q in
  Code_to_InputUnits u (Input_to_CodeUnits u x) = x /\ Input_to_CodeUnits u (Code_to_InputUnits u x) = x /\
  Code_to_OutputUnits u (Output_to_CodeUnits u x) = x /\ Output_to_CodeUnits u (Code_to_OutputUnits u x) = x /\
  Code_to_SIUnits u (SI_to_CodeUnits u x) = x /\ SI_to_CodeUnits u (Code_to_SIUnits u x) = x /\
  Code_to_CGSUnits u (CGS_to_CodeUnits u x) = x /\ CGS_to_CodeUnits u (Code_to_CGSUnits u x) = x /\
  Code_to_SIUnits u (Input_to_CodeUnits u x) = x * inSI u /\ Code_to_SIUnits u (Output_to_CodeUnits u x) = x * outSI u /\
  Code_to_InputUnits u x * inSI u = Code_to_SIUnits u x /\ Code_to_OutputUnits u x * outSI u = Code_to_SIUnits u x /\
  (forall s y, SIUnit q s = Ok y -> exists f, OutputScale q u s = Ok f /\ x * f * y = Code_to_SIUnits u x).
Proof.
  intros H Hu u. destruct (setup_fine p b us0 us q H Hu) as (v & Hi & Ho & Hv & Ei & Eo). fold u in Hi, Ho, Ei, Eo.
  assert (Hc : 0 < outcgs u).
  { apply setup_inv in H as (L & M & _ & _ & _ & _ & G & _). destruct (G q Hu) as [_ _ _ _ E _ _]. unfold u. rewrite E.
    apply Rmult_lt_0_compat; [|assumption]. destruct q; cbn [cgs_of]; lra. }
  unfold Code_to_InputUnits, Input_to_CodeUnits, Code_to_OutputUnits, Output_to_CodeUnits, Code_to_SIUnits, SI_to_CodeUnits, Code_to_CGSUnits, CGS_to_CodeUnits.
  rewrite Ei, Eo. repeat split; try (field; repeat split; lra).
  intros s y Hy. unfold OutputScale. rewrite Hy. cbn [bind]. pose proof (SIUnit_pos _ _ _ Hy).
  eexists. split; [reflexivity|]. rewrite Ei. field. lra.
Qed.

(** A value written in the output unit and read back is the same value (the luminosity too). *)
Theorem C81_restart (p : params) us0 us names q x y : SetupUnits p false false us0 = Ok us -> usual q -> q <> Qf ->
  read_value p us names q (Code_to_OutputUnits (us q) x) = Ok y -> y = x.
Proof.
  intros H Hu Hf. unfold read_value. intros H2. apply bind_ok in H2 as (us' & H' & E). injection E as <-.
  apply setup_inv in H as (L & M & HL & HM & EL & EM & G & _). apply setup_inv in H' as (L' & M' & HL' & HM' & EL' & EM' & G' & _).
  assert (L' = L) by congruence. assert (M' = M) by congruence. subst L' M'.
  assert (Hv := sz_pos L M _ q HL HM (code_time_pos L M HL HM)).
  destruct (good_fine _ _ _ _ (G q Hu) Hv) as (A1 & A2 & _ & A3 & A4). destruct (good_fine _ _ _ _ (G' q Hu) Hv) as (B1 & B2 & _ & B3 & B4).
  assert (K : inSI (us' q) = outSI (us q)).
  { destruct (G' q Hu) as [gi _ _ _ _ _ _]. destruct (G q Hu) as [_ go _ _ _ _ _].
    rewrite (copy_key_in p q Hf) in gi. rewrite (copy_key_out p q Hf) in go. rewrite gi in go. now injection go. }
  unfold Code_to_OutputUnits. rewrite A4, B3, K. field. lra.
Qed.

(** The file's own units are not used: values are taken to be in the output units of the
    parameters.  Right if the file names those. *)
Theorem C81_snapshot (p : params) us names q x y : names q = p (outkey q) -> usual q -> q <> Qf ->
  read_value p us names q x = Ok y ->
  exists us' s, SetupUnits p false false (read_header us names) = Ok us' /\ SIUnit q (names q) = Ok s /\ Code_to_SIUnits (us' q) y = x * s.
Proof.
  intros En Hu Hf H. unfold read_value in H. apply bind_ok in H as (us' & H & E). injection E as <-.
  destruct (C81_conversions p false _ us' q x H Hu) as (_ & _ & _ & _ & _ & _ & _ & _ & K & _).
  exists us', (inSI (us' q)). split; [assumption|]. split; [|exact K].
  apply setup_inv in H as (L & M & _ & _ & _ & _ & G & _). destruct (G q Hu) as [gi _ _ _ _ _ _]. rewrite En.
  rewrite (copy_key_in p q Hf) in gi. exact gi.
Qed.
Theorem C81_snapshot_refuted us names : names Qr = "au" ->
  exists us' y, SetupUnits default_params false false (read_header us names) = Ok us' /\ read_value default_params us names Qr 1 = Ok y /\
    SIUnit Qr (names Qr) = Ok r_au /\ Code_to_SIUnits (us' Qr) y = r_pc /\ r_pc > 200000 * r_au.
Proof.
  intros Hn. destruct (default_setup (read_header us names)) as (us' & H). exists us', (1 / inscale (us' Qr)). split; [assumption|].
  split; [unfold read_value; rewrite H; reflexivity|]. rewrite Hn. split; [reflexivity|]. split; [|unfold r_pc, r_au; lra].
  destruct (C81_conversions default_params false _ us' Qr 1 H I) as (_ & _ & _ & _ & _ & _ & _ & _ & K & _).
  change (1 / inscale (us' Qr)) with (Input_to_CodeUnits (us' Qr) 1). rewrite K.
  apply setup_inv in H as (L & M & _ & _ & _ & _ & G & _). destruct (G Qr I) as [gi _ _ _ _ _ _]. cbn [key_in] in gi. rewrite copy_in in gi.
  change (Ok r_pc = Ok (inSI (us' Qr))) in gi. injection gi as <-. ring.
Qed.

(** CGS: centimetres and grams, for all but the pressure, which is a hundred times too small. *)
Theorem C81_cgs (p : params) (b : bool) us0 us q x : SetupUnits p false b us0 = Ok us -> usual q -> q <> Qpress ->
  Code_to_CGSUnits (us q) x = Code_to_SIUnits (us q) x * size 100 1000 1 1 1 (dim_of q).
Proof.
  intros H Hu Hq. apply setup_inv in H as (L & M & _ & _ & _ & _ & G & _). destruct (G q Hu) as [_ _ _ _ E _ _].
  unfold Code_to_CGSUnits, Code_to_SIUnits. rewrite E, (cgs_size q Hu Hq). ring.
Qed.
Theorem C81_pressure_refuted (p : params) (b : bool) us0 us x : SetupUnits p false b us0 = Ok us ->
  100 * Code_to_CGSUnits (us Qpress) x = Code_to_SIUnits (us Qpress) x * size 100 1000 1 1 1 (dim_of Qpress) /\
  (0 < x -> Code_to_CGSUnits (us Qpress) x < Code_to_SIUnits (us Qpress) x * size 100 1000 1 1 1 (dim_of Qpress)).
Proof.
  intros H. destruct (setup_fine p b us0 us Qpress H I) as (v & Hi & Ho & Hv & Ei & Eo).
  apply setup_inv in H as (L & M & _ & _ & _ & _ & G & _). destruct (G Qpress I) as [_ _ _ _ E _ _].
  unfold Code_to_CGSUnits, Code_to_SIUnits. rewrite E, Eo. cbn [cgs_of]. prz.
  assert (S : (100 * (1 / (100 * 1)) * 1) = 1) by field.
  split; [field; lra|]. intros Hx. assert (0 < x * v) by now apply Rmult_lt_0_compat.
  replace (x * (v / outSI (us Qpress)) * (1 / 10 * outSI (us Qpress))) with (x * v * (1 / 10)) by (field; lra).
  match goal with |- _ < ?g => replace g with (x * v * 10) by (field; lra) end. lra.
Qed.

(** The sink density, given in g/cm3: right in the SPH simulation; in the meshless one only if
    the output unit of the density is the g/cm3. *)
Theorem C81_sink (p : params) (b : bool) us0 us x : SetupUnits p false b us0 = Ok us ->
  Code_to_SIUnits (us Qrho) (sph_rho_sink us x) = 1000 * x /\
  Code_to_SIUnits (us Qrho) (mfv_rho_sink us x) = 1000 * x * outcgs (us Qrho) ^ 2 /\
  (SIUnit Qrho (p "rhooutunit") = SIUnit Qrho "g_cm3" -> mfv_rho_sink us x = sph_rho_sink us x).
Proof.
  intros H. destruct (setup_fine p b us0 us Qrho H I) as (v & Hi & Ho & Hv & Ei & Eo).
  apply setup_inv in H as (L & M & _ & _ & _ & _ & G & _). destruct (G Qrho I) as [_ go _ _ E _ _].
  unfold Code_to_SIUnits, sph_rho_sink, mfv_rho_sink. rewrite Eo, E. cbn [cgs_of]. repeat split; try (field; repeat split; lra).
  intros Hs. cbn [key_out] in go.
  assert (Eu : outSI (us Qrho) = 1000).
  { replace ((if b then p else copy_units p) (outkey Qrho)) with (p "rhooutunit") in go by (destruct b; [reflexivity|now rewrite copy_out]).
    rewrite Hs in go. change (Ok 1000 = Ok (outSI (us Qrho))) in go. congruence. }
  rewrite Eu. field. lra.
Qed.
Theorem C81_sink_refuted us0 : exists p us, SetupUnits p false false us0 = Ok us /\ p "rhooutunit" = "kg_m3" /\
  forall x, 0 < x -> Code_to_SIUnits (us Qrho) (mfv_rho_sink us x) = 1000 * x / 10 ^ 6.
Proof.
  set (p := set_param default_params "rhooutunit" "kg_m3"). exists p.
  assert (A : exists us, SetupUnits p false false us0 = Ok us).
  { apply C81_accepted. intros q Hu. destruct q; cbn [usual] in Hu; try contradiction; cbn [key_in key_out];
      rewrite ?copy_in, ?copy_out, ?(proj1 (copy_force _)), ?(proj2 (copy_force _)); split; eexists; reflexivity. }
  destruct A as (us & H). exists us. split; [assumption|]. split; [reflexivity|]. intros x _.
  destruct (C81_sink p false us0 us x H) as (_ & E & _). rewrite E.
  apply setup_inv in H as (L & M & _ & _ & _ & _ & G & _). destruct (G Qrho I) as [_ go _ _ Ec _ _]. rewrite Ec. cbn [key_out] in go. rewrite copy_out in go.
  change (Ok 1 = Ok (outSI (us Qrho))) in go. injection go as <-. cbn [cgs_of]. field.
Qed.

(** The laws in code units are those of physics: gravity with G = 1, an ideal gas with
    k/m_H = 1, kinetic energy and work. *)
Theorem C81_laws (p : params) (b : bool) us0 us : SetupUnits p false b us0 = Ok us ->
  let SI q x := Code_to_SIUnits (us q) x in
  (forall m r, r <> 0 -> SI Qa (m / r ^ 2) = G_const * SI Qm m / SI Qr r ^ 2) /\
  (forall m m' r, r <> 0 -> SI QE (m * m' / r) = G_const * SI Qm m * SI Qm m' / SI Qr r) /\
  (forall gamma mu u, k_boltzmann * SI Qtemp ((gamma - 1) * mu * u) = (gamma - 1) * mu * m_hydrogen * SI Qu u) /\
  (forall gamma rho u, SI Qpress ((gamma - 1) * rho * u) = (gamma - 1) * SI Qrho rho * SI Qu u) /\
  (forall m v, SI QE (m * v ^ 2 / 2) = SI Qm m * SI Qv v ^ 2 / 2) /\
  (forall m a, SI Qf (m * a) = SI Qm m * SI Qa a) /\
  (forall r v dt, SI Qr (r + v * dt) = SI Qr r + SI Qv v * SI Qt dt) /\
  (forall u du dt, SI Qu (u + du * dt) = SI Qu u + SI Qdudt du * SI Qt dt) /\
  (forall m r v, SI Qangmom (m * r * v) = SI Qm m * SI Qr r * SI Qv v) /\
  (forall m h, h <> 0 -> SI Qrho (m / h ^ 3) = SI Qm m / SI Qr h ^ 3) /\
  (forall rho l, SI Qsigma (rho * l) = SI Qrho rho * SI Qr l) /\
  (forall k s, SI Qkappa k * SI Qsigma s = k * s).
Proof.
  intros H SI. pose proof H as H'. apply setup_inv in H as (L & M & HL & HM & EL & EM & G & _).
  pose proof (code_time_pos L M HL HM) as HT. pose proof (code_time_G L M HL HM) as HG. set (T := code_time L M) in *.
  assert (E : forall q x, usual q -> SI q x = x * sz L M T q).
  { intros q x Hu. unfold SI, Code_to_SIUnits. rewrite Rmult_assoc. f_equal. apply (G q Hu). }
  assert (Q : G_const = L ^ 3 / (M * T ^ 2)).
  { rewrite <- HG. field. split; lra. }
  pose proof kB_pos. repeat split; intros; rewrite !E by exact I; cbn [sz]; rewrite ?Q; field; repeat split; lra.
Qed.

(** Names reported: those asked for; and the values are in the units named, but for forces
    (whose size is looked up under names no parameter file has) and the electromagnetic units,
    which carry the name of the opacity. *)
Theorem C81_labels (p : params) (b : bool) us0 us q : SetupUnits p false b us0 = Ok us -> usual q ->
  outunit (us q) = p (outkey q) /\ inunit (us q) = p (if b then inkey q else outkey q) /\
  (q <> Qf -> SIUnit q (outunit (us q)) = Ok (outSI (us q)) /\ SIUnit q (inunit (us q)) = Ok (inSI (us q))).
Proof.
  intros H Hu. apply setup_inv in H as (L & M & _ & _ & _ & _ & G & _). destruct (G q Hu) as [gi go _ _ _ n1 n2].
  split; [rewrite n2; destruct b; [reflexivity|apply copy_out]|]. split; [rewrite n1; destruct b; [reflexivity|apply copy_in]|].
  intros Hf. rewrite n1, n2. destruct q; cbn [usual] in Hu; try contradiction; cbn [key_in key_out] in gi, go; try contradiction; auto.
Qed.
Theorem C81_force_refuted us0 : exists p us, SetupUnits p false false us0 = Ok us /\ outunit (us Qf) = "dyn" /\
  forall x, 0 < x -> exists y, SIUnit Qf "dyn" = Ok y /\ Code_to_OutputUnits (us Qf) x * y = Code_to_SIUnits (us Qf) x / 10 ^ 5.
Proof.
  set (p := set_param default_params "foutunit" "dyn"). exists p.
  assert (A : exists us, SetupUnits p false false us0 = Ok us).
  { apply C81_accepted. intros q Hu. destruct q; cbn [usual] in Hu; try contradiction; cbn [key_in key_out];
      rewrite ?copy_in, ?copy_out, ?(proj1 (copy_force _)), ?(proj2 (copy_force _)); split; eexists; reflexivity. }
  destruct A as (us & H). exists us. split; [assumption|]. destruct (C81_labels p false us0 us Qf H I) as (En & _). split; [rewrite En; reflexivity|].
  intros x _. exists (1 / 10 ^ 5). split; [reflexivity|].
  apply setup_inv in H as (L & M & _ & _ & _ & _ & G & _). destruct (G Qf I) as [_ go _ _ _ _ _]. cbn [key_out] in go. rewrite (proj2 (copy_force _)) in go.
  change (Ok 1 = Ok (outSI (us Qf))) in go. injection go as E. unfold Code_to_OutputUnits, Code_to_SIUnits. rewrite <- E. field.
Qed.
Theorem C81_magnetic_refuted us0 : exists us, SetupUnits default_params false false us0 = Ok us /\
  forall q, q = QB \/ q = QQ \/ q = QJcur ->
    outunit (us q) = "m2_kg" /\ outunit (us q) <> default_params (outkey q) /\ OutputScale q (us q) (outunit (us q)) = Raise.
Proof.
  destruct (default_setup us0) as (us & H). exists us. split; [assumption|]. intros q Hq.
  apply setup_inv in H as (L & M & _ & _ & _ & _ & _ & G).
  assert (E : outunit (us q) = "m2_kg").
  { rewrite G by (destruct Hq as [->|[->| ->]]; cbn; tauto). cbn [outunit]. rewrite copy_out. reflexivity. }
  rewrite E. split; [reflexivity|]. destruct Hq as [->|[->| ->]]; (split; [discriminate|reflexivity]).
Qed.

(** Arrays handed to Python: name of the unit and factor; all but the potential. *)
Theorem C81_arrays (p : params) (b : bool) us0 us name d requested n f : SetupUnits p false b us0 = Ok us ->
  In (name, d) array_dim -> name <> "gpot" -> ExtractArray us name requested = Ok (n, f) ->
  match d with
  | None => f = 1
  | Some d => (n = if String.eqb requested "default" then n else requested) /\
      exists q s L M T, dim_of q = d /\ SIUnit q n = Ok s /\ G_const * M * T ^ 2 = L ^ 3 /\
        SIUnit Qr (p "routunit") = Ok L /\ SIUnit Qm (p "moutunit") = Ok M /\ 0 < T /\
        (requested = "default" -> n = p (outkey q)) /\ forall x, x * f * s = x * size L M T 1 1 d
  end.
Proof.
  intros H Hin Hg He.
  assert (A : forall q d', dim_of q = d' -> d_k d' = 0%Z -> d_c d' = 0%Z -> usual q -> q <> QL ->
    (let n := if String.eqb requested "default" then outunit (us q) else requested in
     let! x := OutputScale q (us q) n in Ok (n, x)) = Ok (n, f) ->
    (n = if String.eqb requested "default" then n else requested) /\
      exists q s L M T, dim_of q = d' /\ SIUnit q n = Ok s /\ G_const * M * T ^ 2 = L ^ 3 /\
        SIUnit Qr (p "routunit") = Ok L /\ SIUnit Qm (p "moutunit") = Ok M /\ 0 < T /\
        (requested = "default" -> n = p (outkey q)) /\ forall x, x * f * s = x * size L M T 1 1 d').
  { intros q d' Ed Hk Hc Hu HqL Hx. apply bind_ok in Hx as (f' & Hf & Hx). injection Hx as Hn Ef. subst f'. subst d'. unfold OutputScale in Hf.
    apply bind_ok in Hf as (s & Hs & Hf). injection Hf as Ef.
    split. { destruct (String.eqb requested "default"); [reflexivity|now symmetry]. }
    destruct (C81_code_units p b us0 us H) as (L & M & T & HL & HM & HT & EL & EM & HG & E). destruct (E q Hu HqL) as (Ei & _).
    exists q, s, L, M, T. split; [reflexivity|]. split; [now rewrite <- Hn|]. do 4 (split; [assumption|]). split.
    - intros ->. cbn in Hn. rewrite <- Hn. apply (C81_labels p b us0 us q H Hu).
    - intros x. pose proof (SIUnit_pos _ _ _ Hs). rewrite <- Ef, Ei. unfold size. rewrite Hk, Hc. cbn [powerRZ]. field. lra. }
  unfold array_dim in Hin. cbn [In] in Hin.
  repeat (destruct Hin as [Hin|Hin]); try contradiction; injection Hin as <- <-; try (exfalso; apply Hg; reflexivity);
    unfold ExtractArray in He; vm_compute (array_unit _) in He; cbn [bind] in He;
    first [ injection He as _ <-; field
          | exact (A Qr _ eq_refl eq_refl eq_refl I ltac:(discriminate) He) | exact (A Qv _ eq_refl eq_refl eq_refl I ltac:(discriminate) He)
          | exact (A Qa _ eq_refl eq_refl eq_refl I ltac:(discriminate) He) | exact (A Qm _ eq_refl eq_refl eq_refl I ltac:(discriminate) He)
          | exact (A Qrho _ eq_refl eq_refl eq_refl I ltac:(discriminate) He) | exact (A Qu _ eq_refl eq_refl eq_refl I ltac:(discriminate) He)
          | exact (A Qdudt _ eq_refl eq_refl eq_refl I ltac:(discriminate) He) | exact (A Qt _ eq_refl eq_refl eq_refl I ltac:(discriminate) He) ].
Qed.
(** The potential is given as an energy: by default the number handed to Python, in "J", is
    the code's mass unit in kg (some 10^30) times the potential in J/kg; and J_kg is refused. *)
Theorem C81_potential_refuted us0 : exists us f, SetupUnits default_params false false us0 = Ok us /\
  ExtractArray us "gpot" "default" = Ok ("J", f) /\ In ("gpot", Some (Energy // Mass)) array_dim /\
  (forall x, x * f = m_sun * Code_to_SIUnits (us Qu) x) /\ ExtractArray us "gpot" "J_kg" = Raise.
Proof.
  destruct (default_setup us0) as (us & H).
  destruct (C81_labels default_params false us0 us QE H I) as (En & _). change (outunit (us QE) = "J") in En.
  exists us, (inscale (us QE) * inSI (us QE) / 1). split; [assumption|].
  split; [unfold ExtractArray; vm_compute (array_unit _); cbn [bind]; rewrite En; reflexivity|].
  split; [unfold array_dim; repeat (first [left; reflexivity | right])|]. split; [|reflexivity].
  intros x. apply setup_inv in H as (L & M & HL & HM & _ & EM & G & _). rewrite copy_out in EM.
  change (Ok m_sun = Ok M) in EM. injection EM as EM. unfold Code_to_SIUnits. rewrite Rmult_assoc.
  rewrite (g_in _ _ _ _ (G QE I)), (g_out _ _ _ _ (G Qu I)). cbn [sz]. rewrite EM.
  pose proof (code_time_pos L M HL HM). field. lra.
Qed.

(** A dimensionless run: nothing is looked up, and every conversion is the identity. *)
Theorem C81_dimensionless (p : params) b q x :
  exists us, SetupUnits p true b (fun _ => unit0) = Ok us /\
  Input_to_CodeUnits (us q) x = x /\ Output_to_CodeUnits (us q) x = x /\ Code_to_InputUnits (us q) x = x /\ Code_to_OutputUnits (us q) x = x /\
  SI_to_CodeUnits (us q) x = x /\ CGS_to_CodeUnits (us q) x = x /\ Code_to_SIUnits (us q) x = x /\ Code_to_CGSUnits (us q) x = x /\
  outunit (us q) = "" /\ OutputScale q (us q) "" = Ok (1 * 1 / 1).
Proof.
  exists (fun _ => unit0). split; [reflexivity|].
  unfold Input_to_CodeUnits, Output_to_CodeUnits, Code_to_InputUnits, Code_to_OutputUnits, SI_to_CodeUnits, CGS_to_CodeUnits, Code_to_SIUnits, Code_to_CGSUnits.
  cbn [unit0 inscale outscale inSI outSI outcgs outunit]. repeat split; try (field; lra). destruct q; reflexivity.
Qed.

(** Examples. *)
Example C81_names_ex : SIUnit Qv "au_yr" = Ok (r_au / yr) /\ r_au / yr = prod_size [(astronomical, 1%Z); (year, (-1)%Z)] /\ SIUnit Qr "furlong" = Raise.
Proof. split; [reflexivity|]. split; [pz; unfold yr, r_au; field|reflexivity]. Qed.
Example C81_code_units_ex : exists us, SetupUnits default_params false false (fun _ => unit0) = Ok us /\ outunit (us Qr) = "pc" /\ outscale (us Qr) = 1.
Proof.
  destruct (default_setup (fun _ => unit0)) as (us & H). exists us. split; [assumption|].
  destruct (C81_labels _ _ _ _ Qr H I) as (E & _). split; [exact E|].
  destruct (C81_labels _ _ _ _ Qr H I) as (_ & _ & K). destruct (K ltac:(discriminate)) as (K1 & _). rewrite E in K1.
  change (Ok r_pc = Ok (outSI (us Qr))) in K1. injection K1 as K1.
  destruct (setup_fine _ _ _ _ Qr H I) as (v & _). apply setup_inv in H as (L & M & HL & HM & EL & _ & G & _). rewrite copy_out in EL.
  change (Ok r_pc = Ok L) in EL. injection EL as EL. pose proof (g_out _ _ _ _ (G Qr I)) as Q. cbn [sz] in Q. rewrite <- K1, <- EL in Q.
  apply Rmult_eq_reg_r with r_pc; [lra|unfold r_pc; lra].
Qed.
Example C81_accepted_ex : exists us, SetupUnits (set_param default_params "routunit" "au") false false (fun _ => unit0) = Ok us.
Proof.
  apply C81_accepted. intros q Hu. destruct q; cbn [usual] in Hu; try contradiction; cbn [key_in key_out];
    rewrite ?copy_in, ?copy_out, ?(proj1 (copy_force _)), ?(proj2 (copy_force _)); split; eexists; reflexivity.
Qed.
Example C81_raise_ex : SetupUnits (set_param default_params "routunit" "furlong") false false (fun _ => unit0) = Raise.
Proof.
  destruct (C81_raise (set_param default_params "routunit" "furlong") false (fun _ => unit0)) as [(us & H)|]; [|assumption].
  assert (E : exists us, SetupUnits (set_param default_params "routunit" "furlong") false false (fun _ => unit0) = Ok us) by eauto.
  pose proof (proj2 (C81_accepted _ _ _) E) as E2. destruct (E2 Qr I) as (_ & x & Hx). cbn [key_out] in Hx. rewrite copy_out in Hx. discriminate Hx.
Qed.
Example C81_arrays_ex : exists us f, SetupUnits default_params false false (fun _ => unit0) = Ok us /\ ExtractArray us "vx" "cm_s" = Ok ("cm_s", f).
Proof. destruct (default_setup (fun _ => unit0)) as (us & H). exists us. eexists. split; [eassumption|reflexivity]. Qed.

Print Assumptions C81_names.
Print Assumptions C81_gigajoule_refuted.
Print Assumptions C81_accepted.
Print Assumptions C81_raise.
Print Assumptions C81_code_units.
Print Assumptions C81_luminosity_refuted.
Print Assumptions C81_conversions.
Print Assumptions C81_restart.
Print Assumptions C81_snapshot.
Print Assumptions C81_snapshot_refuted.
Print Assumptions C81_cgs.
Print Assumptions C81_pressure_refuted.
Print Assumptions C81_sink.
Print Assumptions C81_sink_refuted.
Print Assumptions C81_laws.
Print Assumptions C81_labels.
Print Assumptions C81_force_refuted.
Print Assumptions C81_magnetic_refuted.
Print Assumptions C81_arrays.
Print Assumptions C81_potential_refuted.
Print Assumptions C81_dimensionless.
