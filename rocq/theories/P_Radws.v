(** C77: the table of opacities and the equation of state read from it, heating by stars, relaxation. *)
From Verif Require Import Prelude Vec M_Box L_Box M_Eos L_Eos M_Dust S_Dust L_Dust S_Diag L_Diag M_Radws S_Radws L_Radws L_Radws2.
From Coq Require Import Reals Lra Lia Psatz List.
Import ListNotations.
Local Open Scope R_scope.

(** ** The table *)
Theorem C77_closest : forall n f v, (0 < n)%nat -> rises n f -> nearest n f v (getClosestIndex n f v).
Proof. exact closest_ok. Qed.
Example ex_C77_closest : rises 3 (fun k => INR k) /\ nearest 3 (fun k => INR k) (3 / 2) 1%nat /\
  getClosestIndex 3 (fun k => INR k) (3 / 2) = 1%nat.
Proof.
  assert (R3 : rises 3 (fun k => INR k)) by (intros i j H; apply lt_INR; lia).
  assert (N : nearest 3 (fun k => INR k) (3 / 2) 1%nat).
  { split; [lia|]. split.
    - intros j J. destruct j as [|[|[|j]]]; [| | |lia]; cbn [INR];
        [replace (1 - 3 / 2) with (- (1 / 2)) by lra; replace (0 - 3 / 2) with (- (3 / 2)) by lra
        |lra|replace (1 - 3 / 2) with (- (1 / 2)) by lra; replace (1 + 1 - 3 / 2) with (1 / 2) by lra];
        rewrite ?Rabs_Ropp, ?Rabs_right by lra; lra.
    - intros j J. assert (j = 0%nat) by lia. subst. cbn [INR]. replace (1 - 3 / 2) with (- (1 / 2)) by lra.
      replace (0 - 3 / 2) with (- (3 / 2)) by lra. rewrite !Rabs_Ropp, !Rabs_right by lra. lra. }
  split; [exact R3|]. split; [exact N|]. apply (nearest_unique _ _ _ _ _ (closest_ok 3 _ (3 / 2) ltac:(lia) R3) N).
Qed.

Theorem C77_read : forall su sk st sd t ls, (0 < ntemp t)%nat -> length ls = (ndens t * ntemp t)%nat ->
  exists t', read_table su sk st sd t ls = Ok t' /\ ndens t' = ndens t /\ ntemp t' = ntemp t /\
    (forall i j x, (i < ndens t)%nat -> (j < ntemp t)%nat -> nth_error ls (i * ntemp t + j) = Some x ->
       eos_energy t' i j = l_energy x / su /\ eos_mu t' i j = l_mu x /\ kappa_table t' i j = l_kappa x / sk /\
       kappap_table t' i j = l_kappap x / sk /\ eos_gamma t' i j = l_gamma x /\ eos_gamma1 t' i j = l_gamma1 x) /\
    (forall j x, (0 < ndens t)%nat -> (j < ntemp t)%nat -> nth_error ls j = Some x -> eos_temp t' j = log10 (l_temp x / st)) /\
    (forall i x, (i < ndens t)%nat -> nth_error ls (i * ntemp t + (ntemp t - 1)) = Some x -> eos_dens t' i = log10 (l_dens x / sd)).
Proof.
  intros su sk st sd t ls N L. destruct (read_table_ok su sk st sd t ls N L) as (t' & E & ND & NT & F).
  exists t'. split; [exact E|]. split; [exact ND|]. split; [exact NT|].
  assert (DM : forall i j, (j < ntemp t)%nat -> ((i * ntemp t + j) / ntemp t = i /\ (i * ntemp t + j) mod ntemp t = j)%nat).
  { intros i j J. split; symmetry; [apply (Nat.div_unique _ _ i j)|apply (Nat.mod_unique _ _ i j)]; lia. }
  assert (BND : forall k x, nth_error ls k = Some x -> (k < length ls)%nat).
  { intros k x X. apply nth_error_Some. rewrite X. discriminate. }
  split; [|split].
  - intros i j x I J X. pose proof (F _ x (BND _ _ X) X) as G. cbn zeta in G. rewrite NT in G.
    destruct (DM i j J) as [D M]. rewrite D, M in G. repeat (split; [apply G|]). apply G.
  - intros j x I J X. pose proof (F _ x (BND _ _ X) X) as G. cbn zeta in G. rewrite NT in G. apply G. exact J.
  - intros i x I X. pose proof (F _ x (BND _ _ X) X) as G. cbn zeta in G. rewrite NT in G.
    destruct (DM i (ntemp t - 1)%nat ltac:(lia)) as [D M]. rewrite D in G. apply G.
    replace (S (i * ntemp t + (ntemp t - 1)))%nat with (S i * ntemp t)%nat by nia. apply Nat.mod_mul. lia.
Qed.
(** A file with more lines than its first line announces is written beyond the arrays. *)
Theorem C77_read_refuted : forall su sk st sd t ls, (0 < ntemp t)%nat -> (ndens t * ntemp t < length ls)%nat ->
  read_table su sk st sd t ls = UB.
Proof. intros. now apply read_table_more. Qed.

(** ** The gas *)
Section Gas.
Variable t : table.
(** The properties of the gas are those of one entry: the nearest in energy of the row that [GetIDens] picks. *)
Theorem C77_gas : forall x, (0 < ndens t)%nat -> (0 < ntemp t)%nat -> rises (ndens t) (eos_dens t) ->
  (forall i, (i < ndens t)%nat -> rises (ntemp t) (eos_energy t i)) -> 0 < x_rho x ->
  exists i j, nearest (ndens t) (eos_dens t) (x_rho x) i /\ nearest (ntemp t) (eos_energy t i) (x_u x) j /\
    (0 <= eos_gamma1 t i j * (eos_gamma t i j - 1) * x_u x ->
     gas (eos_gamma t i j) (eos_gamma1 t i j) (eos_mu t i j) (x_rho x) (x_u x) (rPressure t x) (rSoundSpeed t x) (rTemperature t x)) /\
    rEntropicFunction t x * Rpower (x_rho x) (eos_gamma t i j) = rPressure t x.
Proof.
  intros x ND NT RD RE RHO. exists (GetIDens t (x_rho x)), (GetIEner t (x_u x) (GetIDens t (x_rho x))).
  assert (NI : nearest (ndens t) (eos_dens t) (x_rho x) (GetIDens t (x_rho x))) by (apply closest_ok; assumption).
  split; [exact NI|]. split; [apply closest_ok; [exact NT|apply RE, NI]|]. split.
  - intros POS. constructor.
    + reflexivity.
    + unfold rSoundSpeed, rPressure, GetGamma1, GetGamma, GetEntry. cbn zeta. rewrite sqrt_sqrt by exact POS. ring.
    + unfold rTemperature, rPressure, GetMuBar, GetGamma, GetEntry. cbn zeta. ring.
  - unfold rEntropicFunction, rPressure, GetGamma, GetEntry. cbn zeta. set (g := eos_gamma t _ _).
    rewrite (Rmult_assoc _ (Rpower _ _) (Rpower _ _)), <- Rpower_plus. replace (1 - g + g) with 1 by lra. rewrite Rpower_1 by exact RHO. ring.
Qed.
(** The densities of the table are logarithms but the row is looked up with the density itself.  With a single row, or when both
    fall in the same row, the entry is the right one. *)
Theorem C77_row : forall x, (0 < ndens t)%nat -> rises (ndens t) (eos_dens t) ->
  (ndens t = 1%nat \/ (forall k, (k < ndens t)%nat -> eos_dens t k <= log10 (x_rho x) /\ eos_dens t k <= x_rho x)) ->
  nearest (ndens t) (eos_dens t) (log10 (x_rho x)) (GetIDens t (x_rho x)).
Proof.
  intros x N R [ONE|H].
  - replace (GetIDens t (x_rho x)) with (GetIDens t (log10 (x_rho x))); [apply closest_ok; assumption|].
    assert (A : forall v, (GetIDens t v < 1)%nat). { intros v. pose proof (proj1 (closest_ok _ _ v N R)) as H. unfold GetIDens. lia. }
    pose proof (A (x_rho x)). pose proof (A (log10 (x_rho x))). lia.
  - replace (GetIDens t (x_rho x)) with (GetIDens t (log10 (x_rho x))); [apply closest_ok; assumption|].
    unfold GetIDens. rewrite !closest_top; try assumption; [reflexivity|intros; apply H; assumption|intros; apply H; assumption].
Qed.
(** If no density of the table exceeds the unit of density, every particle is given the densest row. *)
Theorem C77_densest : forall x f, (0 < ndens t)%nat -> rises (ndens t) (eos_dens t) -> (forall k, (k < ndens t)%nat -> eos_dens t k <= 0) ->
  0 < x_rho x -> GetEntry t f x = f (ndens t - 1)%nat (GetIEner t (x_u x) (ndens t - 1)).
Proof.
  intros x f N R H RHO. unfold GetEntry. cbn zeta. unfold GetIDens. rewrite closest_top; try assumption; [reflexivity|].
  intros k K. pose proof (H k K). lra.
Qed.

(** ** Energy of a pressure *)
Theorem C77_inverse : forall rho P, (2 <= ntemp t)%nat -> 0 < rho ->
  let i := GetIDens t rho in let p := fun k => (eos_gamma t i k - 1) * rho * eos_energy t i k in
  (forall k, (k < ntemp t)%nat -> 1 < eos_gamma t i k) -> rises (ntemp t) p ->
  exists u l, GetEnergyFromPressure t rho P = Ok u /\ nearest (ntemp t) p P l /\ P = (eos_gamma t i l - 1) * rho * u.
Proof.
  intros rho P N RHO i p G RP.
  assert (INV : forall l, (l < ntemp t)%nat -> P = (eos_gamma t i l - 1) * rho * (P / (rho * (eos_gamma t i l - 1)))).
  { intros l L. pose proof (G l L). field. split; lra. }
  assert (MON : forall a b, (a <= b < ntemp t)%nat -> p a <= p b).
  { intros a b AB. destruct (Nat.eq_dec a b) as [->|NE]; [lra|]. left. apply RP. lia. }
  unfold GetEnergyFromPressure. fold i. cbn zeta. change (fun k => (eos_gamma t i k - 1) * rho * eos_energy t i k) with p.
  set (m := (ntemp t - 1)%nat). change ((eos_gamma t i m - 1) * rho * eos_energy t i m) with (p m).
  change ((eos_gamma t i 0 - 1) * rho * eos_energy t i 0) with (p 0%nat).
  destruct (rltb (p m) P) eqn:E1.
  { apply rltb_true in E1. eexists _, m. split; [reflexivity|]. split; [|apply INV; unfold m; lia].
    replace m with (getClosestIndex (ntemp t) p P); [apply closest_ok; [lia|exact RP]|].
    apply closest_top; [lia|exact RP|]. intros k K. pose proof (MON k m ltac:(unfold m; lia)). lra. }
  apply rltb_false in E1. destruct (rltb P (p 0%nat)) eqn:E2.
  { apply rltb_true in E2. eexists _, 0%nat. split; [reflexivity|]. split; [|apply INV; lia].
    split; [lia|]. split; [|intros j J; lia].
    intros j J. pose proof (MON 0%nat j ltac:(lia)). rewrite !Rabs_right by lra. lra. }
  apply rltb_false in E2.
  destruct (pbisect_ok p P (ntemp t) 0 m ltac:(unfold m; lia) ltac:(unfold m; lia) E2 E1) as (_ & B & C1 & C2).
  set (r := pbisect (ntemp t) p P 0 m) in *.
  assert (RN : (r + 1 < ntemp t)%nat) by (unfold m in B; lia).
  rewrite (proj2 (Nat.ltb_lt _ _) RN). cbn [negb].
  change ((eos_gamma t i (r + 1) - 1) * rho * eos_energy t i (r + 1)) with (p (r + 1)%nat).
  change ((eos_gamma t i r - 1) * rho * eos_energy t i r) with (p r).
  destruct (rltb (p (r + 1)%nat - P) (P - p r)) eqn:E3.
  - apply rltb_true in E3. eexists _, (r + 1)%nat. split; [reflexivity|]. split; [|apply INV; lia]. split; [lia|]. split.
    + intros j J. rewrite (Rabs_right (p (r + 1)%nat - P)) by lra. destruct (Nat.leb_spec j r) as [L|L].
      * pose proof (MON j r ltac:(lia)). rewrite Rabs_left1 by lra. lra.
      * pose proof (MON (r + 1)%nat j ltac:(lia)). rewrite Rabs_right by lra. lra.
    + intros j J. pose proof (MON j r ltac:(lia)). rewrite (Rabs_right (p (r + 1)%nat - P)), Rabs_left1 by lra. lra.
  - apply rltb_false in E3. eexists _, r. split; [reflexivity|]. split; [|apply INV; lia]. split; [lia|]. split.
    + intros j J. rewrite (Rabs_left1 (p r - P)) by lra. destruct (Nat.leb_spec j r) as [L|L].
      * pose proof (MON j r ltac:(lia)). rewrite Rabs_left1 by lra. lra.
      * pose proof (MON (r + 1)%nat j ltac:(lia)). rewrite Rabs_right by lra. lra.
    + intros j J. assert (p j < p r) by (apply RP; lia). rewrite !Rabs_left1 by lra. lra.
Qed.
(** Pressure and energy invert each other when gamma does not vary along the row. *)
Theorem C77_roundtrip : forall x g, (2 <= ntemp t)%nat -> 0 < x_rho x -> 1 < g ->
  let i := GetIDens t (x_rho x) in (forall k, (k < ntemp t)%nat -> eos_gamma t i k = g) -> rises (ntemp t) (eos_energy t i) ->
  GetEnergyFromPressure t (x_rho x) (rPressure t x) = Ok (x_u x).
Proof.
  intros x g N RHO G i C RE.
  destruct (C77_inverse (x_rho x) (rPressure t x) N RHO) as (u & l & E & (L & _) & Q).
  - intros k K. fold i. rewrite C by exact K. exact G.
  - intros a b AB. fold i. rewrite !C by lia. pose proof (RE a b AB). apply Rmult_lt_compat_l; [|assumption].
    apply Rmult_lt_0_compat; lra.
  - rewrite E. f_equal. fold i in Q. rewrite C in Q by exact L. unfold rPressure, GetGamma, GetEntry in Q. cbn zeta in Q. fold i in Q.
    assert (NT0 : (0 < ntemp t)%nat) by lia. rewrite C in Q by (apply (closest_ok _ _ _ NT0 RE)).
    apply (Rmult_eq_reg_l ((g - 1) * x_rho x)); [symmetry; exact Q|]. apply Rgt_not_eq, Rmult_lt_0_compat; lra.
Qed.
End Gas.

(** Two rows, 10^-2 and 1, and a particle of density 10^-2: the row of density 1 is used. *)
Definition tab2 : table := mktab 2 1 (fun k => 2 * INR k - 2) (fun _ => 0) (fun _ _ => 1) (fun i _ => INR i + 1) (fun _ _ => 1) (fun _ _ => 1)
  (fun i _ => 2 + INR i) (fun _ _ => 2).
Lemma log10_pow n : log10 (10 ^ n) = INR n.
Proof.
  unfold log10. assert (0 < ln 10) by (rewrite <- ln_1; apply ln_increasing; lra).
  rewrite <- Rpower_pow by lra. unfold Rpower. rewrite ln_exp. field. lra.
Qed.
Lemma log10_inv x : 0 < x -> log10 (/ x) = - log10 x.
Proof. intros H. unfold log10. rewrite ln_Rinv by exact H. field. assert (0 < ln 10) by (rewrite <- ln_1; apply ln_increasing; lra). lra. Qed.
Theorem C77_row_refuted : exists t x i, rises (ndens t) (eos_dens t) /\ (forall k, (k < ndens t)%nat -> rises (ntemp t) (eos_energy t k)) /\
  0 < x_rho x /\ 0 < x_u x /\ (ntemp t = 1)%nat /\
  nearest (ndens t) (eos_dens t) (log10 (x_rho x)) i /\ eos_dens t i = log10 (x_rho x) /\
  GetGamma t x <> eos_gamma t i 0 /\ rPressure t x <> (eos_gamma t i 0 - 1) * x_rho x * x_u x /\ GetMuBar t x <> eos_mu t i 0.
Proof.
  set (x := mkpx (fun _ => 0) (fun _ => 0) (/ 10 ^ 2) 1 0 0 0).
  assert (RD : rises 2 (fun k => 2 * INR k - 2)).
  { intros i j H. assert (INR i < INR j) by (apply lt_INR; lia). lra. }
  assert (LG : log10 (/ 10 ^ 2) = -2). { rewrite log10_inv, log10_pow by (apply pow_lt; lra). cbn [INR]. lra. }
  assert (ID : GetIDens tab2 (/ 10 ^ 2) = 1%nat).
  { unfold GetIDens. cbn [ndens eos_dens tab2]. rewrite closest_top; [reflexivity|lia|exact RD|].
    intros k K. assert (INR k <= 1) by (change 1 with (INR 1); apply le_INR; lia). assert (0 < / 10 ^ 2) by (apply Rinv_0_lt_compat, pow_lt; lra). lra. }
  exists tab2, x, 0%nat.
  assert (GG : GetGamma tab2 x = 3). { unfold GetGamma, GetEntry. cbn zeta. cbn [x_rho x]. rewrite ID. cbn [eos_gamma tab2 INR]. lra. }
  assert (GM : GetMuBar tab2 x = 2). { unfold GetMuBar, GetEntry. cbn zeta. cbn [x_rho x]. rewrite ID. cbn [eos_mu tab2 INR]. lra. }
  split; [exact RD|]. split; [intros k _ i j H; cbn [ntemp tab2] in H; lia|].
  split; [cbn [x_rho x]; apply Rinv_0_lt_compat, pow_lt; lra|]. split; [cbn [x_u x]; lra|]. split; [reflexivity|].
  split. { replace 0%nat with (getClosestIndex 2 (fun k => 2 * INR k - 2) (log10 (x_rho x))) at 1; [apply closest_ok; [lia|exact RD]|].
    cbn [x_rho x]. rewrite LG. pose proof (closest_entry 2 (fun k => 2 * INR k - 2) 0 RD ltac:(lia)) as CE. cbn beta in CE.
    replace (2 * INR 0 - 2) with (-2) in CE by (cbn [INR]; lra). exact CE. }
  split; [cbn [x_rho x eos_dens tab2 INR]; rewrite LG; lra|].
  split; [rewrite GG; cbn [eos_gamma tab2 INR]; lra|]. split.
  - unfold rPressure. rewrite GG. cbn [eos_gamma tab2 INR x_rho x_u x]. lra.
  - rewrite GM. cbn [eos_mu tab2 INR]. lra.
Qed.
(** A row with gamma - 1 = 2, 1 at energies 1, 3: the energy 19/10 has the pressure 38/10, for which the energy 38/10 is found. *)
Theorem C77_roundtrip_refuted : exists t x, rises (ndens t) (eos_dens t) /\ (forall k, (k < ndens t)%nat -> rises (ntemp t) (eos_energy t k)) /\
  (forall i j, 1 < eos_gamma t i j) /\ rises (ntemp t) (fun k => (eos_gamma t 0 k - 1) * x_rho x * eos_energy t 0 k) /\ ndens t = 1%nat /\
  exists u, GetEnergyFromPressure t (x_rho x) (rPressure t x) = Ok u /\ u = 2 * x_u x /\ 0 < x_u x.
Proof.
  set (t := mktab 1 2 (fun _ => 0) (fun k => INR k) (fun _ k => 1 + 2 * INR k) (fun _ _ => 1) (fun _ _ => 1) (fun _ _ => 1)
              (fun _ k => match k with 0%nat => 3 | _ => 2 end) (fun _ _ => 1)).
  set (x := mkpx (fun _ => 0) (fun _ => 0) 1 (19 / 10) 0 0 0).
  assert (RE : rises 2 (fun k => 1 + 2 * INR k)). { intros i j H. assert (INR i < INR j) by (apply lt_INR; lia). lra. }
  assert (ID : GetIDens t 1 = 0%nat).
  { assert (RD : rises 1 (fun _ => 0)) by (intros i j H; lia). pose proof (closest_ok 1 (fun _ => 0) 1 ltac:(lia) RD) as (A & _). unfold GetIDens. cbn [ndens eos_dens t]. lia. }
  assert (IE : GetIEner t (19 / 10) 0 = 0%nat).
  { unfold GetIEner. cbn [ntemp eos_energy t]. apply (nearest_unique _ _ _ _ _ (closest_ok 2 _ (19 / 10) ltac:(lia) RE)).
    split; [lia|]. split; [|intros j J; lia]. intros j J. destruct j as [|[|j]]; [lra| |lia]. cbn [INR].
    rewrite Rabs_left, Rabs_right by lra. lra. }
  exists t, x. split; [intros i j H; cbn [ndens t] in H; lia|]. split; [intros k _; exact RE|].
  split; [intros i j; cbn [eos_gamma t]; destruct j; lra|].
  split. { cbn [ntemp t eos_gamma eos_energy x_rho x]. intros i j H. assert (i = 0%nat) by lia. assert (j = 1%nat) by lia. subst. cbn [INR]. lra. }
  split; [reflexivity|]. exists (38 / 10). split; [|cbn [x_u x]; split; lra].
  unfold rPressure, GetGamma, GetEntry. cbn zeta. cbn [x_rho x_u x]. rewrite ID, IE. cbn [eos_gamma t].
  unfold GetEnergyFromPressure. cbn zeta. rewrite ID. cbn [ntemp t eos_gamma eos_energy Nat.sub INR].
  rewrite (proj2 (rltb_true _ _)) by lra. f_equal. field.
Qed.

Example ex_C77_roundtrip : let t := mktab 1 3 (fun _ => 0) (fun k => INR k) (fun _ k => 1 + INR k) (fun _ _ => 1) (fun _ _ => 1) (fun _ _ => 1)
    (fun _ _ => 2) (fun _ _ => 2) in
  let x := mkpx (fun _ => 0) (fun _ => 0) 3 (7 / 4) 0 0 0 in
  rPressure t x = 21 / 4 /\ GetEnergyFromPressure t 3 (21 / 4) = Ok (7 / 4) /\ rTemperature t x = 7 / 4 /\
  exists i j, nearest 1 (fun _ => 0) 3 i /\ nearest 3 (fun k => 1 + INR k) (7 / 4) j.
Proof.
  cbn zeta. set (t := mktab _ _ _ _ _ _ _ _ _ _). set (x := mkpx _ _ _ _ _ _ _).
  assert (RE : rises 3 (fun k => 1 + INR k)) by (intros i j H; assert (INR i < INR j) by (apply lt_INR; lia); lra).
  assert (PX : rPressure t x = 21 / 4) by (unfold rPressure, GetGamma, GetEntry; cbn [eos_gamma t x_rho x_u x]; lra).
  split; [exact PX|]. split; [rewrite <- PX; apply (C77_roundtrip t x 2); [cbn; lia|cbn [x_rho x]; lra|lra|reflexivity|exact RE]|].
  split; [unfold rTemperature, GetGamma, GetMuBar, GetEntry; cbn [eos_gamma eos_mu t x_rho x_u x]; lra|].
  destruct (C77_gas t x) as (i & j & A & B & _); [cbn; lia|cbn; lia|intros a b H; cbn [ndens t] in H; lia|intros a _; exact RE|cbn [x_rho x]; lra|].
  exists i, j. split; [exact A|exact B].
Qed.

(** ** Heating by stars *)
Section Feedback.
Variables (ndim : nat) (F : fbpar).
Definition kind_radius (k : kind) : R := match k with planet => r_planet F | dwarf => r_bdwarf F | star => r_star F end.
(** Each sink heats by the flux received from it. *)
Theorem C77_sink : forall r s k, is_kind (mjup F) (sk_m s) k -> 0 < mjup F -> 0 < fb_rad F -> 0 < kind_radius k ->
  let L := shines k (lsun F) (msun F) (f_acc F) (sk_m s) (sk_dmdt s) (kind_radius k) (sk_radius s) in
  let d := norm ndim (vsub r (sk_r s)) in 0 <= L -> 0 < d -> sink_term ndim F r s = flux4 (fb_rad F) L d.
Proof.
  intros r s k K MJ RAD KR L d LP D.
  assert (SRC : source F (sk_m s) = (kind_radius k, match k with star => 1 | _ => 0 end)).
  { unfold source. destruct k; cbn [is_kind] in K; unfold kind_radius.
    - rewrite (proj2 (rleb_false (13 * mjup F) (sk_m s))) by lra. rewrite (proj2 (rleb_false (80 * mjup F) (sk_m s))) by lra. reflexivity.
    - rewrite (proj2 (rleb_true (13 * mjup F) (sk_m s))) by lra. rewrite (proj2 (rleb_false (80 * mjup F) (sk_m s))) by lra. reflexivity.
    - rewrite (proj2 (rleb_true (80 * mjup F) (sk_m s))) by lra. reflexivity. }
  unfold sink_term. cbn zeta. rewrite SRC.
  assert (LE : SinkLuminosity F (sk_m s) (sk_dmdt s) (sk_radius s) (kind_radius k) (match k with star => 1 | _ => 0 end) = L).
  { unfold SinkLuminosity, L, shines. destruct k; ring. }
  rewrite LE. unfold SinkTemperature. pose proof PI_RGT_0.
  rewrite quarter_pow4.
  - unfold flux4. change (sqrt (dot ndim (vsub r (sk_r s)) (vsub r (sk_r s)))) with d. field. repeat split; lra.
  - apply Rmult_le_pos; [exact LP|]. left. apply Rinv_0_lt_compat.
    apply Rmult_lt_0_compat; [apply Rmult_lt_0_compat; [apply Rmult_lt_0_compat; lra|lra]|lra].
Qed.
(** The temperature of the surroundings: fourth powers add.  No disc (disc_heating 0) or one central star. *)
Theorem C77_ambient : forall ah sh r sinks, 0 <= temp_inf F ->
  (forall s, In s sinks -> 0 <= sink_term ndim F r s) ->
  AmbientTemp ndim F ah sh 0 r sinks ^ 4 =
    (if ah then temp_inf F ^ 4 else 0) + (if sh then lsum (sink_term ndim F r) sinks else 0).
Proof.
  intros ah sh r sinks TI POS. unfold AmbientTemp. cbn zeta. cbn [Z.eqb].
  change (Ncentral 0) with 0%nat. unfold sink_ambient. cbn [skipn].
  assert (P0 : 0 <= (if ah then temp_inf F ^ 4 else 0)) by (destruct ah; [now apply pow_le|lra]).
  destruct sh; [|rewrite quarter_pow4 by exact P0; lra].
  rewrite fold_sum, Rplus_0_l. apply quarter_pow4.
  pose proof (lsum_nonneg _ (sink_term ndim F r) sinks POS). lra.
Qed.
(** With a disc around one star, that star gives the temperature law of the disc and the others heat by their flux. *)
Theorem C77_disc : forall ah sh r s0 sinks, 0 <= temp_inf F -> 0 < rsmooth F ->
  (forall s, In s sinks -> 0 <= sink_term ndim F r s) ->
  let d2 := dot 2 (vsub r (sk_r s0)) (vsub r (sk_r s0)) in
  AmbientTemp ndim F ah sh 1 r (s0 :: sinks) ^ 4 =
    (if ah then temp_inf F ^ 4 else 0) + (temp_au F * Rpower (sqrt (d2 + rsmooth F * rsmooth F)) (- temp_q F)) ^ 4 +
    (if sh then lsum (sink_term ndim F r) sinks else 0).
Proof.
  intros ah sh r s0 sinks TI SM POS d2.
  assert (D2 : 0 <= d2) by (unfold d2; apply dot_nonneg).
  assert (X : 0 < d2 + rsmooth F * rsmooth F) by (pose proof (Rmult_lt_0_compat _ _ SM SM); lra).
  assert (DA : disc_ambient F 1 r (s0 :: sinks) = (temp_au F * Rpower (sqrt (d2 + rsmooth F * rsmooth F)) (- temp_q F)) ^ 4).
  { unfold disc_ambient. cbn [length Nat.leb firstn fold_left]. cbn zeta. fold d2. rewrite sqrt_sqrt by exact D2.
    rewrite Rpow_mult_distr. f_equal. rewrite <- (Rpower_pow 4) by (apply exp_pos). rewrite Rpower_mult.
    rewrite <- Rpower_sqrt by exact X. rewrite Rpower_mult. f_equal. cbn [INR]. lra. }
  unfold AmbientTemp. cbn zeta. cbn [Z.eqb]. change (Ncentral 1) with 1%nat. rewrite DA. unfold sink_ambient. cbn [skipn].
  assert (P0 : 0 <= (if ah then temp_inf F ^ 4 else 0)) by (destruct ah; [now apply pow_le|lra]).
  assert (P1 : 0 <= (temp_au F * Rpower (sqrt (d2 + rsmooth F * rsmooth F)) (- temp_q F)) ^ 4).
  { replace 4%nat with (2 * 2)%nat by reflexivity. rewrite pow_mult. apply pow2_ge_0. }
  destruct sh; [|rewrite quarter_pow4 by lra; lra].
  rewrite fold_sum, Rplus_0_l. apply quarter_pow4.
  pose proof (lsum_nonneg _ (sink_term ndim F r) sinks POS). lra.
Qed.
(** With two central stars (more count as two) only the second heats the disc: the first may be anywhere. *)
Theorem C77_binary : forall ah sh dh r a a' b sinks, (2 <= dh)%Z -> AmbientTemp ndim F ah sh dh r (a :: b :: sinks) = AmbientTemp ndim F ah sh dh r (a' :: b :: sinks).
Proof.
  intros ah sh dh r a a' b sinks H. unfold AmbientTemp. cbv zeta. assert (N : Ncentral dh = 2%nat) by (unfold Ncentral; lia). rewrite N, (proj2 (Z.eqb_neq dh 0)) by lia. reflexivity.
Qed.
(** While there are fewer stars than the disc is said to have, they do not heat at all. *)
Theorem C77_few : forall ah sh dh r sinks, (Z.of_nat (length sinks) < Z.min 2 dh)%Z -> 0 <= temp_inf F ->
  AmbientTemp ndim F ah sh dh r sinks ^ 4 = (if ah then temp_inf F ^ 4 else 0).
Proof.
  intros ah sh dh r sinks H TI. unfold AmbientTemp. cbn zeta.
  assert (L : (length sinks < Ncentral dh)%nat) by (unfold Ncentral; lia).
  rewrite (proj2 (Z.eqb_neq dh 0)) by lia. unfold disc_ambient. rewrite (proj2 (Nat.leb_gt _ _) L).
  unfold sink_ambient. rewrite skipn_all2 by lia. cbn [fold_left].
  assert (P0 : 0 <= (if ah then temp_inf F ^ 4 else 0)) by (destruct ah; [now apply pow_le|lra]).
  destruct sh; rewrite quarter_pow4 by lra; lra.
Qed.
End Feedback.
(** The law of C77_disc summed over two central stars, one near and one far, is not what the code gives. *)
Theorem C77_binary_refuted : exists F a b r, 0 < temp_au F /\ 0 < rsmooth F /\ temp_q F = 1 / 2 /\ temp_inf F = 0 /\
  dot 2 (vsub r (sk_r a)) (vsub r (sk_r a)) = 0 /\ dot 2 (vsub r (sk_r b)) (vsub r (sk_r b)) = 99 /\
  let law s := (temp_au F * Rpower (sqrt (dot 2 (vsub r (sk_r s)) (vsub r (sk_r s)) + rsmooth F * rsmooth F)) (- temp_q F)) ^ 4 in
  law a = 1 /\ law b = 1 / 100 /\ AmbientTemp 3 F false false 2 r [a; b] ^ 4 = 1 / 100.
Proof.
  set (F := mkfb 0 1 (1 / 2) 1 0 1 1 1 1 1 1 1).
  set (a := mksk (fun _ => 0) 1 0 1). set (b := mksk (fun k => match k with 0%nat => sqrt 99 | _ => 0 end) 1 0 1).
  exists F, a, b, (fun _ => 0). cbn [temp_au rsmooth temp_q temp_inf F].
  assert (DA : dot 2 (vsub (fun _ : nat => 0) (sk_r a)) (vsub (fun _ : nat => 0) (sk_r a)) = 0).
  { cbn [sk_r a]. unfold dot, vsub. cbn [sumf]. lra. }
  assert (DB : dot 2 (vsub (fun _ : nat => 0) (sk_r b)) (vsub (fun _ : nat => 0) (sk_r b)) = 99).
  { cbn [sk_r b]. unfold dot, vsub. cbn [sumf]. pose proof (sqrt_sqrt 99 ltac:(lra)). lra. }
  assert (LAW : forall x, 0 < x -> (1 * Rpower (sqrt x) (- (1 / 2))) ^ 4 = / x).
  { intros x X. rewrite Rmult_1_l, <- (Rpower_pow 4) by apply exp_pos. rewrite Rpower_mult, <- Rpower_sqrt by exact X. rewrite Rpower_mult.
    replace (/ 2 * (- (1 / 2) * INR 4)) with (Ropp 1) by (cbn [INR]; lra). rewrite Rpower_Ropp, Rpower_1 by exact X. reflexivity. }
  split; [lra|]. split; [lra|]. split; [lra|]. split; [lra|]. split; [exact DA|]. split; [exact DB|]. cbn zeta. rewrite DA, DB.
  rewrite !LAW by lra. split; [lra|]. split; [lra|].
  unfold AmbientTemp. cbn zeta. cbn [Z.eqb]. change (Ncentral 2) with 2%nat.
  unfold disc_ambient. cbn [length Nat.leb firstn fold_left]. cbn zeta. rewrite DB. rewrite sqrt_sqrt by lra. cbn [temp_au temp_q rsmooth F].
  replace (99 + 1 * 1) with 100 by lra. replace (-2 * (1 / 2)) with (Ropp 1) by lra.
  rewrite Rpower_Ropp, Rpower_1 by lra. rewrite quarter_pow4 by lra. lra.
Qed.

Example ex_C77_sink : let F := mkfb 10 1 (1 / 2) 1 1 1 1 1 1 1 100 1 in let s := mksk (fun _ => 0) 100 0 1 in
  let r := fun k : nat => match k with 0%nat => 2 | _ => 0 end in
  sink_term 3 F r s = flux4 1 1 2 /\ AmbientTemp 3 F true true 0 r [s] ^ 4 = 10 ^ 4 + 1 / (64 * PI).
Proof.
  cbn zeta. set (F := mkfb _ _ _ _ _ _ _ _ _ _ _ _). set (s := mksk _ _ _ _). set (r := fun k : nat => _).
  assert (D : norm 3 (vsub r (sk_r s)) = 2).
  { unfold norm. replace (dot 3 (vsub r (sk_r s)) (vsub r (sk_r s))) with (2 * 2) by (unfold dot, vsub; cbn [sumf sk_r s r]; lra).
    apply sqrt_square. lra. }
  assert (LU : shines star (lsun F) (msun F) (f_acc F) (sk_m s) (sk_dmdt s) (kind_radius F star) (sk_radius s) = 1).
  { unfold shines, kind_radius. cbn [lsun msun f_acc sk_m sk_dmdt r_star sk_radius F s]. field. }
  assert (ST : sink_term 3 F r s = flux4 1 1 2).
  { pose proof (C77_sink 3 F r s star) as H. cbn zeta in H. rewrite D, LU in H. apply H; cbn [is_kind mjup sk_m fb_rad kind_radius r_star F s]; lra. }
  pose proof PI_RGT_0. split; [exact ST|].
  assert (FL : flux4 1 1 2 = 1 / (64 * PI)) by (unfold flux4; field; lra).
  rewrite C77_ambient.
  - cbn [temp_inf F]. unfold lsum. cbn. rewrite ST, FL. lra.
  - cbn [temp_inf F]. lra.
  - intros z [<-|[]]. rewrite ST, FL. apply Rmult_le_pos; [lra|]. left. apply Rinv_0_lt_compat. lra.
Qed.

(** ** Relaxation *)
Theorem C77_relax : forall u0 ueq tau dt y, small_number < tau -> dt < 40 * tau -> relaxes ueq tau y -> y 0 = u0 ->
  relax u0 ueq tau dt = y dt.
Proof.
  intros u0 ueq tau dt y T D Y Y0. assert (0 < small_number) by (apply Rinv_0_lt_compat, pow_lt; lra).
  rewrite (relaxes_unique ueq tau y) by (lra || exact Y). rewrite Y0.
  unfold relax. rewrite (proj2 (rleb_false _ _)) by lra. rewrite (proj2 (rltb_true _ _)) by exact D.
  replace (- dt / tau) with (- (dt / tau)) by (field; lra). ring.
Qed.
Theorem C77_relax_far : forall u0 ueq tau dt y, small_number < tau -> 40 * tau <= dt -> relaxes ueq tau y -> y 0 = u0 ->
  Rabs (relax u0 ueq tau dt - y dt) <= exp (-40) * Rabs (u0 - ueq).
Proof.
  intros u0 ueq tau dt y T D Y Y0. assert (0 < small_number) by (apply Rinv_0_lt_compat, pow_lt; lra).
  rewrite (relaxes_unique ueq tau y) by (lra || exact Y). rewrite Y0.
  unfold relax. rewrite (proj2 (rleb_false _ _)) by lra. rewrite (proj2 (rltb_false _ _)) by exact D.
  replace (ueq - (ueq + (u0 - ueq) * exp (- (dt / tau)))) with (- (exp (- (dt / tau)) * (u0 - ueq))) by ring.
  rewrite Rabs_Ropp, Rabs_mult. apply Rmult_le_compat_r; [apply Rabs_pos|].
  rewrite Rabs_right by (left; apply exp_pos). apply exp_le_mono.
  assert (40 <= dt / tau). { apply (Rmult_le_reg_r tau); [lra|]. replace (dt / tau * tau) with dt by (field; lra). exact D. } lra.
Qed.
(** The new energy lies between the old and the equilibrium one, so it stays positive. *)
Theorem C77_relax_between : forall u0 ueq tau dt, 0 <= dt -> Rmin u0 ueq <= relax u0 ueq tau dt <= Rmax u0 ueq.
Proof.
  intros u0 ueq tau dt D. pose proof (Rmin_l u0 ueq). pose proof (Rmin_r u0 ueq). pose proof (Rmax_l u0 ueq). pose proof (Rmax_r u0 ueq).
  unfold relax. destruct (rleb tau small_number) eqn:E; [lra|]. apply rleb_false in E.
  assert (0 < small_number) by (apply Rinv_0_lt_compat, pow_lt; lra).
  destruct (rltb dt (40 * tau)); [|lra].
  set (e := exp (- dt / tau)). assert (E0 : 0 < e) by apply exp_pos.
  assert (E1 : e <= 1). { rewrite <- exp_0. apply exp_le_mono. assert (0 <= dt / tau) by (apply Rmult_le_pos; [exact D|left; apply Rinv_0_lt_compat; lra]).
    replace (- dt / tau) with (- (dt / tau)) by (field; lra). lra. }
  assert (A : forall a b c, a <= b -> 0 <= c -> c * a <= c * b) by (intros; apply Rmult_le_compat_l; assumption).
  pose proof (A _ _ e (Rmin_l u0 ueq) ltac:(lra)). pose proof (A _ _ (1 - e) (Rmin_r u0 ueq) ltac:(lra)).
  pose proof (A _ _ e (Rmax_l u0 ueq) ltac:(lra)). pose proof (A _ _ (1 - e) (Rmax_r u0 ueq) ltac:(lra)). lra.
Qed.
Theorem C77_relax_start : forall u0 ueq tau, relax u0 ueq tau 0 = u0.
Proof.
  intros u0 ueq tau. unfold relax. destruct (rleb tau small_number) eqn:E; [reflexivity|]. apply rleb_false in E.
  assert (0 < small_number) by (apply Rinv_0_lt_compat, pow_lt; lra).
  rewrite (proj2 (rltb_true _ _)) by lra. replace (- 0 / tau) with 0 by (field; lra). rewrite exp_0. ring.
Qed.
(** Gas that relaxes in a time of at most 10^-20, or whose time comes out negative, keeps its energy for ever. *)
Theorem C77_relax_refuted : (forall u0 ueq tau dt, tau <= small_number -> relax u0 ueq tau dt = u0) /\
  exists u0 ueq tau y, 0 < tau /\ relaxes ueq tau y /\ y 0 = u0 /\ u0 = 0 /\ ueq = 1 /\ 1 / 2 < y 1 /\ relax u0 ueq tau 1 = 0.
Proof.
  assert (K : forall u0 ueq tau dt, tau <= small_number -> relax u0 ueq tau dt = u0).
  { intros u0 ueq tau dt H. unfold relax. rewrite (proj2 (rleb_true _ _)) by exact H. reflexivity. }
  split; [exact K|].
  assert (SP : 0 < small_number) by (apply Rinv_0_lt_compat, pow_lt; lra).
  exists 0, 1, small_number, (fun s => 1 + (0 - 1) * exp (- (s / small_number))).
  split; [exact SP|]. split.
  { apply relaxes_exp. lra. }
  split. { replace (- (0 / small_number)) with 0 by (field; lra). rewrite exp_0. ring. }
  split; [reflexivity|]. split; [reflexivity|]. split; [|apply K; lra].
  assert (1 <= 1 / small_number).
  { unfold small_number. unfold Rdiv. rewrite Rinv_inv, Rmult_1_l. apply pow_R1_Rle. lra. }
  assert (B : exp (- (1 / small_number)) <= exp (Ropp 1)) by (apply exp_le_mono; lra).
  assert (2 < exp 1) by (pose proof (exp_ineq1 1 ltac:(lra)); lra).
  rewrite (exp_Ropp 1) in B.
  assert (/ exp 1 < / 2) by (apply Rinv_lt_contravar; [lra|assumption]). lra.
Qed.
Example ex_C77_relax : relax 0 1 1 1 = 1 - exp (-1).
Proof.
  unfold relax, small_number. rewrite (proj2 (rleb_false _ _)). 2:{ rewrite <- Rinv_1. apply Rinv_lt_contravar; [rewrite Rmult_1_l; apply pow_lt; lra|]. apply Rlt_pow_R1; lra || lia. }
  rewrite (proj2 (rltb_true _ _)) by lra. replace (- (1) / 1) with (-1) by field. ring.
Qed.
Print Assumptions C77_closest.
Print Assumptions C77_read.
Print Assumptions C77_read_refuted.
Print Assumptions C77_gas.
Print Assumptions C77_row.
Print Assumptions C77_densest.
Print Assumptions C77_row_refuted.
Print Assumptions C77_inverse.
Print Assumptions C77_roundtrip.
Print Assumptions C77_roundtrip_refuted.
Print Assumptions C77_sink.
Print Assumptions C77_ambient.
Print Assumptions C77_disc.
Print Assumptions C77_binary.
Print Assumptions C77_few.
Print Assumptions C77_binary_refuted.
Print Assumptions C77_relax.
Print Assumptions C77_relax_far.
Print Assumptions C77_relax_between.
Print Assumptions C77_relax_start.
Print Assumptions C77_relax_refuted.
