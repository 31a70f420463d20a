(** The loop over larger and larger neighbour lists. *)
From Verif Require Import Prelude Vec M_Box L_Box M_Force M_Dens S_Dens S_Stock L_Stock M_Kernel S_Kernel L_Dens L_Dens2 L_Dens3.
From Coq Require Import Reals Lra Lia Psatz Permutation.
Local Open Scope R_scope.

Section D4.
Variables (n : nat) (range : R) (w w1 om : R -> R) (womega_s2 wzeta_s2 : R -> R) (kernrangesqd h_fac h_converge : R).
Hypothesis N1 : (1 <= n)%nat.
Hypothesis DK : density_kernel n range w w1 om.
Hypothesis RP : 0 < range.
Hypothesis HF : 0 < h_fac.
Notation s2 := (fun s => w (sqrt s)).
Notation func := (h_rho_func n h_fac).
Notation id := (fun x : R => x).
Notation held := (held n w).

Lemma not_toobig : forall m r l hmax, (forall h, 0 < h <= hmax -> 0 < func m (dens n w r l h) <= hmax) ->
  forall k it h lo hi h', 0 <= lo <= hmax -> hi <= hmax -> 0 < h <= hmax ->
  hloop n s2 h_fac h_converge id k m r l hmax it h lo hi <> TooBig h'.
Proof.
  intros m r l hmax HB. induction k as [|k IH]; intros it h lo hi h' Hlo Hhi Hh; [discriminate|].
  cbn [hloop]. rewrite rho_sum_dens by lra. pose proof (HB h Hh) as Hf.
  set (rho := dens n w r l h) in *. set (hn := func m rho) in *.
  destruct (rltb 0 rho && _ && _); [discriminate|].
  assert (HX : forall h1 a b, 0 <= a <= hmax -> b <= hmax -> h1 <= hmax ->
     (if rltb hmax h1 then TooBig h1 else if rltb a h1 && rltb h1 b
             then hloop n s2 h_fac h_converge id k m r l hmax (it + 1) h1 a b else Left h a) <> TooBig h').
  { intros h1 a b Ha Hb H1. destruct (rltb hmax h1) eqn:T; [apply rltb_t in T; lra|].
    destruct (rltb a h1 && rltb h1 b) eqn:W; [|discriminate].
    apply andb_true_iff in W. destruct W as (W1 & _). apply rltb_t in W1. apply IH; lra. }
  destruct ((it + 1 <? 30)%Z); [apply HX; lra|].
  destruct ((it + 1 =? 30)%Z); [apply HX; lra|].
  destruct ((it + 1 <? 150)%Z); [|discriminate].
  destruct (rltb rho small_number || rltb hn h); apply HX; lra.
Qed.

Lemma func_bound : forall p l H B hmax, 0 < p_m p -> (forall q, In q l -> 0 <= nb_m q) -> itself n p l ->
  0 < H -> h_fac ^ n * p_m p <= held (p_r p) l H -> 0 < B -> h_fac ^ n * H ^ n <= B ^ n * w 0 -> B <= hmax ->
  forall h, 0 < h <= hmax -> 0 < func (p_m p) (dens n w (p_r p) l h) <= hmax.
Proof.
  intros p l H B hmax Hm M I PH HK PB HB HBm h Hh.
  pose proof (dens_pos' n range w w1 om DK RP p l h Hm M I (proj1 Hh)) as Hd.
  pose proof (dens_pos n range w w1 om DK p l h Hm M I (proj1 Hh)) as Hd2.
  destruct (func_belongs n N1 h_fac HF (p_m p) _ Hm Hd) as (P & E). split; [exact P|].
  set (hf := func (p_m p) (dens n w (p_r p) l h)) in *. set (rho := dens n w (p_r p) l h) in *.
  pose proof (w0_pos n range w w1 om DK RP) as W0.
  destruct (Rle_lt_dec H h) as [C|C].
  - apply Rle_trans with h; [|lra]. apply Rnot_lt_le. intros D.
    apply (pow_lt_iff n N1) in D; [|lra|lra].
    assert (G : held (p_r p) l H <= held (p_r p) l h) by (apply (held_mono n range w w1 om DK); [exact M|lra]).
    rewrite <- (dens_held n w (p_r p) l h (proj1 Hh)) in G. fold rho in G.
    assert (h ^ n * rho < hf ^ n * rho) by (apply Rmult_lt_compat_r; assumption). lra.
  - apply Rle_trans with B; [|exact HBm]. apply Rnot_lt_le. intros D.
    apply (pow_lt_iff n N1) in D; [|lra|lra].
    assert (Hn : 0 < h ^ n) by (apply pow_lt; lra).
    assert (HHn : h ^ n <= H ^ n) by (apply pow_incr; lra).
    assert (Pf : 0 < hf ^ n) by (apply pow_lt; exact P).
    assert (G : hf ^ n * (p_m p * (w 0 / h ^ n)) <= h_fac ^ n * p_m p).
    { rewrite <- E. apply Rmult_le_compat_l; [lra | exact Hd2]. }
    assert (G2 : hf ^ n * w 0 <= h_fac ^ n * h ^ n).
    { apply Rmult_le_reg_r with (p_m p / h ^ n); [apply Rdiv_lt_0_compat; assumption|].
      replace (hf ^ n * w 0 * (p_m p / h ^ n)) with (hf ^ n * (p_m p * (w 0 / h ^ n))) by (field; lra).
      replace (h_fac ^ n * h ^ n * (p_m p / h ^ n)) with (h_fac ^ n * p_m p) by (field; lra). exact G. }
    assert (G3 : h_fac ^ n * h ^ n <= h_fac ^ n * H ^ n) by (apply Rmult_le_compat_l; [apply pow_le; lra | exact HHn]).
    assert (B ^ n * w 0 < hf ^ n * w 0) by (apply Rmult_lt_compat_r; assumption). lra.
Qed.

Notation ComputeH' := (ComputeH' n w womega_s2 wzeta_s2 kernrangesqd h_fac h_converge id).

Lemma computeH_not0 : forall rho_sink cs co so stars p hmax l p',
  (forall h, 0 < h <= hmax -> 0 < func (p_m p) (dens n w (p_r p) l h) <= hmax) -> 0 < p_h p <= hmax ->
  0 < p_m p -> (forall rs, rho_sink = Some rs -> 0 < rs) ->
  ComputeH' rho_sink cs co so stars p hmax l <> Ret 0 p'.
Proof.
  intros rho_sink cs co so stars p hmax l p' HB Hh Hm Hs E. unfold L_Dens2.ComputeH', ComputeH in E.
  fold (lower_of n h_fac rho_sink (p_m p)) in E.
  assert (L0 : 0 <= lower_of n h_fac rho_sink (p_m p)).
  { unfold lower_of. destruct rho_sink as [rs|]; [|lra].
    destruct (func_belongs n N1 h_fac HF (p_m p) rs Hm (Hs rs eq_refl)) as (P & _). unfold h_rho_func in P. lra. }
  destruct (_ && _) eqn:B in E; [discriminate|].
  destruct (hloop _ _ _ _ _ _ _ _ _ _ _ _ _ _) as [h0 lo|h|] eqn:L in E; [| |discriminate].
  - cbv zeta in E. destruct (rleb _ _) in E; discriminate.
  - destruct (Rle_lt_dec (lower_of n h_fac rho_sink (p_m p)) hmax) as [C|C].
    + eapply not_toobig; [exact HB | | | |exact L]; lra.
    + destruct rho_sink as [rs|]; [|cbn in C; lra]. cbn [andb] in B. apply rltb_f in B. lra.
Qed.

(** ** The cell *)
Lemma do_active_ok : forall comp hmask hmax ngb act ps, do_active n kernrangesqd comp hmask hmax ngb act = Ok (Some ps) ->
  Forall2 (fun p p' => exists f, comp p hmax (trim n kernrangesqd hmask p hmax ngb) = Ret f p' /\ f <> 0%Z) act ps.
Proof.
  intros comp hmask hmax ngb act. induction act as [|p act IH]; intros ps E; cbn in E.
  - injection E as <-. constructor.
  - destruct (comp p hmax _) as [f p'|] eqn:C; [|discriminate].
    destruct (Z.eqb_spec f 0) as [|Hf]; [discriminate|].
    destruct (do_active _ _ _ _ _ _ act) as [[ps'|]| | |] eqn:D in E; cbn in E; try discriminate.
    injection E as <-. constructor; [exists f; auto | apply IH; exact D].
Qed.
Lemma do_active_none : forall comp hmask hmax ngb act, do_active n kernrangesqd comp hmask hmax ngb act = Ok None ->
  exists p p', In p act /\ comp p hmax (trim n kernrangesqd hmask p hmax ngb) = Ret 0 p'.
Proof.
  intros comp hmask hmax ngb act. induction act as [|p act IH]; intros E; cbn in E; [discriminate|].
  destruct (comp p hmax _) as [f p'|] eqn:C; [|discriminate].
  destruct (Z.eqb_spec f 0) as [->|Hf]; [exists p, p'; split; [left; reflexivity | exact C]|].
  destruct (do_active _ _ _ _ _ _ act) as [[ps'|]| | |] eqn:D in E; cbn in E; try discriminate.
  destruct (IH D) as (p0 & p0' & I & E0). exists p0, p0'. split; [right; exact I | exact E0].
Qed.
Lemma do_active_fuel : forall comp hmask hmax ngb act, do_active n kernrangesqd comp hmask hmax ngb act <> NoFuel.
Proof.
  intros comp hmask hmax ngb act. induction act as [|p act IH]; cbn; [discriminate|].
  destruct (comp p hmax _) as [f p'|]; [|discriminate]. destruct (f =? 0)%Z; [discriminate|].
  destruct (do_active _ _ _ _ _ _ act) as [[ps'|]| | |]; cbn; congruence.
Qed.

Lemma dens_cell_ok : forall comp hmask gather act k hmax ps, 0 < hmax ->
  dens_cell n kernrangesqd k comp hmask gather act hmax = Ok ps ->
  exists hm, 105 / 100 * hmax <= hm /\
    Forall2 (fun p p' => exists f, comp p hm (trim n kernrangesqd hmask p hm (gather hm)) = Ret f p' /\ f <> 0%Z) act ps.
Proof.
  intros comp hmask gather act. induction k as [|k IH]; intros hmax ps Hp E; cbn [dens_cell] in E; [discriminate|].
  destruct (do_active _ _ _ _ _ _ act) as [[ps'|]| | |] eqn:D in E; cbn in E; try discriminate.
  - injection E as <-. exists (105 / 100 * hmax). split; [lra|]. apply do_active_ok. exact D.
  - destruct (IH (105 / 100 * hmax) ps ltac:(lra) E) as (hm & B & F). exists hm. split; [lra | exact F].
Qed.

Lemma dens_cell_ends : forall comp hmask gather act B, 
  (forall p hm p', In p act -> B <= hm -> comp p hm (trim n kernrangesqd hmask p hm (gather hm)) <> Ret 0 p') ->
  forall k hmax, 0 < hmax -> B <= (105 / 100) ^ k * (105 / 100 * hmax) ->
  dens_cell n kernrangesqd (S k) comp hmask gather act hmax <> NoFuel.
Proof.
  intros comp hmask gather act B HB. induction k as [|k IH]; intros hmax Hp HK.
  - cbn [dens_cell]. destruct (do_active _ _ _ _ _ _ act) as [[ps'|]| | |] eqn:D; cbn; try discriminate.
    + exfalso. destruct (do_active_none _ _ _ _ _ D) as (p & p' & I & E). cbn in HK. apply (HB p (105 / 100 * hmax) p' I); [lra | exact E].
    + exfalso. exact (do_active_fuel _ _ _ _ _ D).
  - change (dens_cell n kernrangesqd (S (S k)) comp hmask gather act hmax) with
      (let! o := do_active n kernrangesqd comp hmask (105 / 100 * hmax) (gather (105 / 100 * hmax)) act in
       match o with Some ps => Ok ps | None => dens_cell n kernrangesqd (S k) comp hmask gather act (105 / 100 * hmax) end).
    destruct (do_active _ _ _ _ _ _ act) as [[ps'|]| | |] eqn:D; cbn [bind]; try discriminate.
    + apply IH; [lra|]. cbn [pow] in HK. lra.
    + exfalso. exact (do_active_fuel _ _ _ _ _ D).
Qed.
End D4.
