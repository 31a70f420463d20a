(** Proofs about units. *)
From Coq Require Import Reals String Lra.
From Verif Require Import Prelude M_Units S_Units.
Local Open Scope string_scope.
Local Open Scope R_scope.

Lemma bind_ok {A B} (x : res A) (f : A -> res B) y : bind x f = Ok y -> exists a, x = Ok a /\ f a = Ok y.
Proof. destruct x; cbn; intros H; try discriminate; eauto. Qed.

Lemma pick_in l s x : pick l s = Ok x -> In (s, x) l.
Proof.
  induction l as [|[n y] l IH]; cbn; [discriminate|].
  destruct (String.eqb_spec s n) as [->|]; [intros [= ->]; now left|auto].
Qed.
Lemma pick_or l s : (exists x, pick l s = Ok x) \/ pick l s = Raise.
Proof. induction l as [|[n y] l IH]; cbn; [auto|]. destruct (String.eqb s n); eauto. Qed.
Lemma SIUnit_or q s : (exists x, SIUnit q s = Ok x) \/ SIUnit q s = Raise.
Proof. apply pick_or. Qed.

Ltac consts := unfold r_pc, r_au, r_sun, r_earth, m_sun, m_jup, m_earth, myr, yr, day, m_hydrogen, G_const, k_boltzmann, e_charge, L_sun.
Lemma constants_pos : 0 < r_pc /\ 0 < r_au /\ 0 < r_sun /\ 0 < r_earth /\ 0 < m_sun /\ 0 < m_jup /\ 0 < m_earth /\ 0 < myr /\ 0 < yr
  /\ 0 < day /\ 0 < m_hydrogen /\ 0 < G_const /\ 0 < k_boltzmann /\ 0 < e_charge /\ 0 < L_sun.
Proof. consts. repeat split; lra. Qed.

Lemma SIUnit_pos q s x : SIUnit q s = Ok x -> 0 < x.
Proof.
  intros H. apply pick_in in H. revert H.
  destruct constants_pos as (?&?&?&?&?&?&?&?&?&?&?&?&?&?&?).
  assert (F : Forall (fun p => 0 < snd p) (si_names q)).
  { destruct q; unfold si_names; repeat apply Forall_cons; try apply Forall_nil; cbn [snd]; try assumption; try lra;
      repeat first [ assumption | apply Rdiv_lt_0_compat | apply Rmult_lt_0_compat | lra ]. }
  intros H'. rewrite Forall_forall in F. exact (F _ H').
Qed.

(** The names. *)
Ltac pz := cbv [prod_size prod_dim fold_right base_unit fst snd powerRZ Pos.to_nat Pos.iter_op Nat.add].
Lemma pz1 x : powerRZ x 1 = x. Proof. unfold powerRZ. cbv [Pos.to_nat Pos.iter_op]. ring. Qed.

Lemma names_all q s x : SIUnit q s = Ok x ->
  (s = "" /\ x = 1) \/ exists l, In (q, s, l) meaning /\ prod_dim l = dim_of q /\ (s = "GJ" \/ x = prod_size l).
Proof.
  intros H. apply pick_in in H. revert H.
  destruct constants_pos as (?&?&?&?&?&?&?&?&?&?&?&?&?&?&?).
  destruct q; unfold si_names; intros H'; cbn [In] in H'; repeat (destruct H' as [H'|H']); try contradiction; injection H' as <- <-;
    try (left; split; reflexivity); right; eexists;
    (split; [unfold meaning; repeat (first [left; reflexivity | right]) | split; [reflexivity|]]);
    try (left; reflexivity); right; pz; try (consts; lra); try (unfold yr, myr; field; repeat split; lra).
Qed.
Lemma names_accepted q s l : In (q, s, l) meaning -> exists x, SIUnit q s = Ok x.
Proof.
  unfold meaning. intros H. cbn [In] in H. repeat (destruct H as [H|H]); try contradiction; injection H as <- <- <-; eexists; reflexivity.
Qed.

(** The parameters. *)
Lemma copy_in p q : copy_units p (inkey q) = p (outkey q).
Proof. destruct q; vm_compute; reflexivity. Qed.
Lemma copy_out p q : copy_units p (outkey q) = p (outkey q).
Proof. destruct q; vm_compute; reflexivity. Qed.
Lemma copy_force p : copy_units p "forceinunit" = p "forceinunit" /\ copy_units p "forceoutunit" = p "forceoutunit".
Proof. split; vm_compute; reflexivity. Qed.

(** The setup. *)
Definition usual (q : quantity) : Prop := match q with QB | QQ | QJcur => False | _ => True end.
Definition key_in (q : quantity) : string := match q with Qf => "forceinunit" | _ => inkey q end.
Definition key_out (q : quantity) : string := match q with Qf => "forceoutunit" | _ => outkey q end.
Definition cgs_of (q : quantity) : R :=
  match q with
  | Qr | Qv | Qa => 100 | Qm | Qdmdt => 1000 | Qt | Qangvel | Qtemp | QB | QQ | QJcur => 1 | Qrho => 1 / 1000 | Qsigma | Qpress => 1 / 10
  | Qf | Qmom => 10 ^ 5 | QE | Qangmom | QL => 10 ^ 7 | Qkappa => 10 | Qu | Qdudt => 10 ^ 4 end.
Definition sz (L M T : R) (q : quantity) : R :=
  match q with
  | Qr => L | Qm => M | Qt => T | Qv => L / T | Qa => L / (T * T) | Qrho => M / L ^ 3 | Qsigma => M / L ^ 2 | Qpress => M / (L * T * T)
  | Qf => M * L / (T * T) | QE => M * L ^ 2 / T ^ 2 | Qmom => M * L / T | Qangmom => M * L ^ 2 / T | Qangvel => 1 / T
  | Qdmdt | QL => M / T | Qkappa => L * L / M | QB | QQ | QJcur => 1 | Qu => L ^ 2 / T ^ 2 | Qdudt => L ^ 2 / T ^ 3
  | Qtemp => m_hydrogen * (L ^ 2 / T ^ 2) / k_boltzmann end.

Record good (p : params) (q : quantity) (v : R) (u : sunit) : Prop := {
  g_i : SIUnit q (p (key_in q)) = Ok (inSI u);
  g_o : SIUnit q (p (key_out q)) = Ok (outSI u);
  g_in : inscale u * inSI u = v;
  g_out : outscale u * outSI u = v;
  g_cgs : outcgs u = cgs_of q * outSI u;
  g_inn : inunit u = p (inkey q);
  g_outn : outunit u = p (outkey q) }.

Lemma block_good p q cgs v v' u : block p q (key_in q) (key_out q) cgs v v' = Ok u -> v = v' -> cgs = cgs_of q -> good p q v u.
Proof.
  unfold block. intros H <- ->. apply bind_ok in H as (i & Hi & H). apply bind_ok in H as (o & Ho & H). injection H as <-.
  pose proof (SIUnit_pos _ _ _ Hi). pose proof (SIUnit_pos _ _ _ Ho).
  constructor; cbn [inscale inSI outscale outSI outcgs inunit outunit]; auto; field; lra.
Qed.

Lemma Rpower_32 x : 0 < x -> Rpower x (3 / 2) = x * sqrt x.
Proof.
  intros H. replace (3 / 2) with (1 + / 2) by field. rewrite Rpower_plus, Rpower_1 by assumption.
  now rewrite Rpower_sqrt.
Qed.

Definition code_time (L M : R) : R := Rpower L (3 / 2) / sqrt (M * G_const).
Lemma code_time_pos L M : 0 < L -> 0 < M -> 0 < code_time L M.
Proof.
  intros HL HM. unfold code_time. apply Rdiv_lt_0_compat; [apply exp_pos|].
  apply sqrt_lt_R0. apply Rmult_lt_0_compat; [assumption|]. unfold G_const. lra.
Qed.
Lemma code_time_G L M : 0 < L -> 0 < M -> G_const * M * code_time L M ^ 2 = L ^ 3.
Proof.
  intros HL HM. unfold code_time. rewrite Rpower_32 by assumption.
  assert (HG : 0 < M * G_const) by (apply Rmult_lt_0_compat; [assumption|unfold G_const; lra]).
  pose proof (sqrt_lt_R0 _ HG). pose proof (sqrt_sqrt L (Rlt_le _ _ HL)). pose proof (sqrt_sqrt _ (Rlt_le _ _ HG)) as E2.
  set (s := sqrt L) in *. set (r := sqrt (M * G_const)) in *.
  replace (G_const * M * (L * s / r) ^ 2) with (G_const * M * (L * L * (s * s)) / (r * r)) by (field; lra).
  rewrite H0, E2. field. split; [unfold G_const; lra|lra].
Qed.

Lemma setup_inv p0 b us0 us : SetupUnits p0 false b us0 = Ok us ->
  let p := if b then p0 else copy_units p0 in
  exists L M, 0 < L /\ 0 < M /\ SIUnit Qr (p (outkey Qr)) = Ok L /\ SIUnit Qm (p (outkey Qm)) = Ok M /\
    (forall q, usual q -> good p q (sz L M (code_time L M) q) (us q)) /\
    (forall q, ~ usual q -> us q = mku (inscale (us0 q)) (inSI (us0 q)) (outcgs (us0 q)) (outscale (us0 q)) (outSI (us0 q)) (p (inkey Qkappa)) (p (outkey Qkappa))).
Proof.
  intros H p. unfold SetupUnits in H. fold p in H. revert H. generalize p. clear p b p0. intros p H.
  apply bind_ok in H as (ri & Hri & H). apply bind_ok in H as (ro & Hro & H).
  apply bind_ok in H as (mi & Hmi & H). apply bind_ok in H as (mo & Hmo & H).
  cbn [inscale inSI outscale outSI] in H.
  pose proof (SIUnit_pos _ _ _ Hri). pose proof (SIUnit_pos _ _ _ Hro). pose proof (SIUnit_pos _ _ _ Hmi). pose proof (SIUnit_pos _ _ _ Hmo).
  replace (1 * ro / ri * ri) with ro in H by (field; lra). replace (1 * ro) with ro in H by ring.
  replace (1 * mo / mi * mi) with mo in H by (field; lra). replace (1 * mo) with mo in H by ring.
  fold (code_time ro mo) in H.
  apply bind_ok in H as (t & Ht & H). pose proof (block_good p Qt _ _ _ _ Ht eq_refl eq_refl) as Gt.
  rewrite !(g_in _ _ _ _ Gt), !(g_out _ _ _ _ Gt) in H.
  set (T := code_time ro mo) in *.
  apply bind_ok in H as (v & Hv & H). pose proof (block_good p Qv _ _ _ _ Hv eq_refl eq_refl) as Gv.
  apply bind_ok in H as (a & Ha & H). pose proof (block_good p Qa _ _ _ _ Ha eq_refl eq_refl) as Ga.
  apply bind_ok in H as (rho & Hrho & H). pose proof (block_good p Qrho _ _ _ _ Hrho eq_refl ltac:(unfold cgs_of; lra)) as Grho.
  apply bind_ok in H as (sg & Hsg & H). pose proof (block_good p Qsigma _ _ _ _ Hsg eq_refl eq_refl) as Gsg.
  apply bind_ok in H as (pr & Hpr & H). pose proof (block_good p Qpress _ _ _ _ Hpr eq_refl eq_refl) as Gpr.
  apply bind_ok in H as (f & Hf & H). pose proof (block_good p Qf _ _ _ _ Hf eq_refl eq_refl) as Gf.
  apply bind_ok in H as (E & HE & H). pose proof (block_good p QE _ _ _ _ HE eq_refl eq_refl) as GE.
  apply bind_ok in H as (mom & Hmom & H). pose proof (block_good p Qmom _ _ _ _ Hmom eq_refl eq_refl) as Gmom.
  apply bind_ok in H as (am & Ham & H). pose proof (block_good p Qangmom _ _ _ _ Ham eq_refl eq_refl) as Gam.
  apply bind_ok in H as (av & Hav & H). pose proof (block_good p Qangvel _ _ _ _ Hav eq_refl eq_refl) as Gav.
  apply bind_ok in H as (dm & Hdm & H). pose proof (block_good p Qdmdt _ _ _ _ Hdm eq_refl ltac:(unfold cgs_of; lra)) as Gdm.
  apply bind_ok in H as (L & HL & H). pose proof (block_good p QL _ _ _ _ HL eq_refl eq_refl) as GL.
  apply bind_ok in H as (ka & Hka & H). pose proof (block_good p Qkappa _ _ _ _ Hka eq_refl eq_refl) as Gka.
  apply bind_ok in H as (u & Hu & H). pose proof (block_good p Qu _ _ _ _ Hu eq_refl eq_refl) as Gu.
  apply bind_ok in H as (du & Hdu & H). pose proof (block_good p Qdudt _ _ _ _ Hdu eq_refl eq_refl) as Gdu.
  rewrite !(g_in _ _ _ _ Gu), !(g_out _ _ _ _ Gu) in H.
  apply bind_ok in H as (te & Hte & H). pose proof (block_good p Qtemp _ _ _ _ Hte eq_refl eq_refl) as Gte.
  injection H as <-.
  exists ro, mo. do 4 (split; [assumption|]). split; intros q Hq.
  - destruct q; cbn [usual] in Hq; try contradiction; try assumption;
      constructor; cbn [inscale inSI outscale outSI outcgs inunit outunit sz cgs_of key_in key_out]; auto; try (field; lra); lra.
  - destruct q; cbn [usual] in Hq; try (exfalso; apply Hq; exact I); reflexivity.
Qed.
