(** Consequences for users, and runs of the drift-kick-drift limiter that break them. *)
From Verif Require Import Prelude M_Box M_Level L_Level M_Block S_Block L_Block L_Block2 L_Block3 L_Block4.
From Coq Require Import Reals ZArith List Bool Lia Lra Psatz.
Import ListNotations.
Local Open Scope Z_scope.

Lemma dvd_le_sum : forall a b m n, 0 < a -> (a | b) -> (a | m) -> b <= n -> n < m -> b + a <= m.
Proof. intros a b m n Ha [k ->] [j ->] H1 H2. assert (k < j) by nia. nia. Qed.
Lemma inv_in_step : forall n ls lmax p, lmax <= ls -> n < 2 ^ ls -> inv n ls lmax p -> in_step n (2 ^ ls) p.
Proof.
  intros n ls lmax p L Hn (A & B & C & D & E & F). unfold in_step. bsplit; try lia.
  - exists (ls - b_level p). split; [lia | exact E].
  - exact D.
  - apply dvd_le_sum with n; try lia; [exact D |]. rewrite E. apply pow2_dvd. lia.
Qed.
Lemma run_in_step : forall c st, conf_ok c -> run c KDK_Check st ->
  0 <= s_n st < s_nresync st /\
  forall p, In p (s_s st) \/ In p (s_h st) /\ b_dead p = false -> in_step (s_n st) (s_nresync st) p.
Proof.
  intros c st Hc Hr. destruct (run_Inv c st Hc Hr) as (K & Hn & Hh & _ & Hs & Hd & _). pose proof (ls_ge _ _ Hc K) as L.
  destruct K as (K1 & K2 & K3 & K4 & _). split; [lia|]. rewrite K4 in *. intros p Hp.
  apply inv_in_step with (s_lmax st); try lia. destruct Hp as [Hp|[Hp D]]; [eapply Linv_star; eassumption | auto].
Qed.

Lemma choosing_mid : forall c st st3, conf_ok c -> run c KDK_Check st -> choosing c KDK_Check st st3 -> MidJc c st3.
Proof. intros c st st3 Hc Hr (st1 & st2 & H1 & H2 & H3). eapply pass_mid; try eassumption. apply run_Inv; assumption. Qed.
Lemma mid_at_end : forall n ls lmax p, lmax <= ls -> mid n ls lmax p -> n = 2 ^ ls -> at_end n p.
Proof.
  intros n ls lmax p L (A & B & C & D1 & D2 & [E|E] & F) ->; [|exact E]. unfold at_end.
  assert (b_nlast p + b_nstep p <= 2 ^ ls); [|lia]. rewrite <- E in D1.
  apply dvd_le_sum with (b_nlast p); try lia; [exact D1 | rewrite E; apply pow2_dvd; lia].
Qed.
Lemma choosing_not_past : forall c st st3, conf_ok c -> run c KDK_Check st -> choosing c KDK_Check st st3 ->
  forall p, In p (s_s st3) \/ In p (s_h st3) /\ b_dead p = false ->
    not_past_end (s_n st3) p /\ (s_n st3 = s_nresync st3 -> at_end (s_n st3) p).
Proof.
  intros c st st3 Hc Hr Ch p Hp. destruct (choosing_mid c st st3 Hc Hr Ch) as ((K & Hn & Hh & Hs & Hd & _) & _).
  pose proof (ls_ge _ _ Hc K) as L.
  assert (mid (s_n st3) (s_lstep st3) (s_lmax st3) p) as M by (destruct Hp as [Hp|[Hp D]]; [eapply Linv_star; eassumption | auto]).
  split; [destruct M as (A & B & C & _); unfold not_past_end; lia|].
  intros E. destruct K as (_ & _ & _ & K4 & _). eapply mid_at_end; [|exact M|congruence]. lia.
Qed.

(** New steps are not longer than requested. *)
Lemma run_Fin : forall c st, conf_ok c -> run c KDK_Check st -> exists st0, Fin c st0 /\ st = EndTimesteps st0.
Proof.
  intros c st Hc H. destruct H as [st E Q1 Q2 Hd | st st' Hr P].
  - eexists. split; [|reflexivity]. unfold ComputeBlockTimesteps. rewrite E, Z.eqb_refl. rewrite Forall_forall in Q1, Q2. apply resync_Fin; assumption.
  - destruct P as [st1 st2 st3 R1 N E]. eexists. split; [|reflexivity]. apply CBT_Fin; [exact Hc|]. eapply pass_mid; try eassumption. apply run_Inv; assumption.
Qed.
Lemma fin_new : forall n ls lmax p, fin n ls lmax p -> b_nlast (end_step n p) = n -> b_end p = true.
Proof.
  intros n ls lmax p (A & B & C & D & E & F) H. unfold end_step in H. destruct (b_end p); [reflexivity|]. apply F, H.
Qed.
Lemma run_request : forall c st, conf_ok c -> run c KDK_Check st ->
  forall p, In p (s_s st) \/ In p (s_h st) /\ b_dead p = false -> b_nlast p = s_n st ->
  (IZR (b_nstep p) * s_ts st <= b_req p * (1 + eps) ^ Z.to_nat (b_level p))%R.
Proof.
  intros c st Hc Hr q Hq En. pose proof (run_Inv c st Hc Hr) as (K & _ & Hh & _ & Hs & Hd & _). pose proof (ls_ge _ _ Hc K) as L.
  assert (inv (s_n st) (s_lstep st) (s_lmax st) q) as M by (destruct Hq as [Hq|[Hq D]]; [eapply Linv_star; eassumption | auto]).
  destruct K as (K1 & K2 & K3 & K4 & K5 & K6). destruct M as (A & B & C & D & E & _).
  rewrite E, K6, K4, duration by lia. clear Hh Hs Hd B C D E K1 K2 K3 K4 K5 K6 L A.
  destruct (run_Fin c st Hc Hr) as (st0 & (K & _ & Hh & _ & Hs & Hd & _ & _ & SH) & ->). cbn in *.
  destruct Hq as [Hq|[Hq D]]; apply in_map_iff in Hq as (p & <- & Hp).
  - pose proof (Linv_star _ _ Hd Hs p Hp) as F. rewrite end_req, end_level. apply SH; [right; exact Hp | rewrite Forall_forall in Hd; auto | eapply fin_new; eassumption].
  - rewrite live_dead in D by apply end_dead. rewrite (live_alive _ _ D) in *. rewrite end_req, end_level.
    apply SH; [left; exact Hp | exact D | eapply fin_new; [apply Hh; eassumption | exact En]].
Qed.

(** The physical clock. *)
Lemma IZR_ratio : forall a b ls ls' dm, 0 <= ls -> 0 <= ls' -> a * 2 ^ ls = b * 2 ^ ls' -> (IZR a * (dm / IZR (2 ^ ls')) = IZR b * (dm / IZR (2 ^ ls)))%R.
Proof.
  intros a b ls ls' dm H1 H2 E. pose proof (pow2_pos ls H1). pose proof (pow2_pos ls' H2).
  assert (IZR a * IZR (2 ^ ls) = IZR b * IZR (2 ^ ls'))%R as E' by (rewrite <- !mult_IZR; f_equal; exact E).
  assert (IZR (2 ^ ls) <> 0)%R by (apply not_0_IZR; lia). assert (IZR (2 ^ ls') <> 0)%R by (apply not_0_IZR; lia).
  apply Rmult_eq_reg_r with (IZR (2 ^ ls) * IZR (2 ^ ls'))%R; [|apply Rmult_integral_contrapositive; split; assumption].
  transitivity (IZR a * IZR (2 ^ ls) * dm)%R; [field; assumption|]. rewrite E'. field; assumption.
Qed.
Lemma choosing_clock : forall c st st3, choosing c KDK_Check st st3 ->
  s_n st3 = s_n st + 1 /\ s_nresync st3 = s_nresync st /\ s_dtmax st3 = s_dtmax st /\ s_ts st3 = s_ts st /\ s_t st3 = (s_t st + s_ts st)%R /\ s_lstep st3 = s_lstep st.
Proof.
  intros c st st3 (st1 & st2 & H1 & H2 & H3). destruct H3 as [h s new _ _ _]. destruct H2 as [h' _]. cbn.
  assert (forall sa sb, rounds c KDK_Check sa sb -> s_n sb = s_n sa /\ s_nresync sb = s_nresync sa /\ s_dtmax sb = s_dtmax sa /\ s_ts sb = s_ts sa /\ s_t sb = s_t sa /\ s_lstep sb = s_lstep sa) as X.
  { intros sa sb H. induction H as [sa sb h'' N _ | sa sb h'' k sc N _ _ _ IH]; destruct N as [h0 _]; cbn in *; [tauto | exact IH]. }
  apply X in H1. cbn in H1. exact H1.
Qed.
Lemma run_time : forall c st st3, conf_ok c -> run c KDK_Check st -> choosing c KDK_Check st st3 ->
  let st' := ComputeBlockTimesteps c st3 in
  (s_n st3 = s_nresync st3 -> s_n st' = 0 /\ (s_t st' = s_t st - IZR (s_n st) * s_ts st + s_dtmax st)%R) /\
  (s_n st3 <> s_nresync st3 ->
     (s_t st' - IZR (s_n st') * s_ts st' = s_t st - IZR (s_n st) * s_ts st)%R /\
     Forall2 (fun p q => b_dead p = false -> ~ at_end (s_n st3) p ->
       b_level q = b_level p /\ t_start (s_ts st') q = t_start (s_ts st3) p /\ t_end (s_ts st') q = t_end (s_ts st3) p)
       (s_h st3) (s_h st') /\
     Forall2 (fun p q => ~ at_end (s_n st3) p ->
       b_level q = b_level p /\ t_start (s_ts st') q = t_start (s_ts st3) p /\ t_end (s_ts st') q = t_end (s_ts st3) p)
       (s_s st3) (s_s st')).
Proof.
  intros c st st3 Hc Hr Ch. cbv zeta. pose proof (choosing_mid c st st3 Hc Hr Ch) as M. pose proof (run_Inv c st Hc Hr) as (K0 & _).
  destruct (choosing_clock c st st3 Ch) as (C1 & C2 & C3 & C4 & C5 & C6). unfold ComputeBlockTimesteps. split.
  - intros E. rewrite (proj2 (Z.eqb_eq _ _) E).
    destruct M as ((_ & _ & _ & _ & Hd & Q1 & Q2) & _). destruct (CBT_resync_ok c st3 Hc Q1 Q2 Hd) as (K & En & Hr' & Et & _).
    split; [exact En|]. rewrite Et, C5. assert (IZR (s_n st) * s_ts st + s_ts st = s_dtmax st)%R; [|lra]. destruct K0 as (_ & _ & K3 & K4 & _ & K6). pose proof (pow2_pos (s_lstep st)) as P.
    rewrite K6. assert (s_nresync st = s_n st + 1) as -> by lia. rewrite plus_IZR. field. rewrite <- plus_IZR. apply not_0_IZR.
    destruct (run_Inv c st Hc Hr) as ((X & _) & _). lia.
  - intros Nr. rewrite (proj2 (Z.eqb_neq _ _) Nr). destruct (CBT_next_ok c st3 Hc M Nr) as (K & Hn & En & Edm & Et & G & Gs & EG & EGs & HD & HG & HGs).
    pose proof (ls_ge _ _ Hc K) as L'. destruct M as ((K1 & _ & _ & _ & Hd & _) & _). pose proof (ls_ge _ _ Hc K1) as L1.
    destruct K as (X1 & X2 & X3 & X4 & X5 & X6). destruct K1 as (Y1 & Y2 & Y3 & Y4 & Y5 & Y6).
    assert (forall p q, carried (s_lstep st3) (s_lstep (CBT_next c st3)) p q -> 
       t_start (s_ts (CBT_next c st3)) q = t_start (s_ts st3) p /\ t_end (s_ts (CBT_next c st3)) q = t_end (s_ts st3) p) as T.
    { intros p q (A1 & A2 & _). unfold t_start, t_end. rewrite X6, X4, Edm, Y6, Y4. split; (apply IZR_ratio; [lia | lia |]); [exact A1 | rewrite !Z.mul_add_distr_r, A1, A2; reflexivity]. }
    split; [|split].
    + rewrite Et, C5, X6, X4, Edm. rewrite (IZR_ratio _ _ (s_lstep st3) (s_lstep (CBT_next c st3)) (s_dtmax st3) ltac:(lia) ltac:(lia) En). rewrite C1, C3, C6.
      destruct K0 as (_ & _ & _ & K4 & _ & K6). rewrite K6, K4, plus_IZR. ring.
    + rewrite EG. apply Forall2_map_self. intros p Hp D Na. destruct (HG p Hp D) as (_ & _ & (_ & [(Z1 & _)|(_ & Z1)]) & _); [contradiction|].
      destruct (T _ _ Z1). destruct Z1 as (_ & _ & Z1 & _). auto.
    + rewrite EGs. apply Forall2_map_self. intros p Hp Na. destruct (HGs p Hp) as (_ & (_ & [(Z1 & _)|(_ & Z1)]) & _); [contradiction|].
      destruct (T _ _ Z1). destruct Z1 as (_ & _ & Z1 & _). auto.
Qed.

(** ** The limiter *)
Lemma checking_MidJ : forall c st st1, conf_ok c -> run c KDK_Check st -> checking c KDK_Check st st1 -> MidJ c st1.
Proof.
  intros c st st1 Hc Hr H. induction H as [st1 N | st1 h k st2 H IH E Hk N].
  - eapply neibs_J; [exact Hc | exact N |]. apply tick_mid, run_Inv; assumption.
  - eapply neibs_J; [exact Hc | exact N |]. eapply Check_MidJ; eassumption.
Qed.
Lemma kcheck_spec : forall ldm ls lmax n p, 0 <= ldm -> lmax <= ls -> livep (mid n ls lmax) p -> livep (J ldm lmax) p ->
  limiter_spec ldm ls lmax n p (kcheck ldm ls n p).
Proof.
  intros ldm ls lmax n p Hl L M HJ. unfold limiter_spec, kcheck, must_limit. destruct (b_dead p) eqn:D; [right; split; [intuition congruence | reflexivity]|].
  specialize (M D). specialize (HJ D). destruct M as (A & B & C & D1 & D2 & E & F).
  destruct (Z.eqb_spec (n - b_nlast p) (b_nstep p)) as [e|e]; [right; split; [lia | reflexivity]|].
  rewrite Z.gtb_ltb. destruct (Z.ltb_spec ldm (b_neib p - b_level p)) as [g|g]; [|right; split; [lia | reflexivity]].
  unfold J in HJ. pose proof (pow2_pos (ls - (b_neib p - ldm)) ltac:(lia)) as Hp.
  assert (2 ^ (ls - (b_neib p - ldm)) | b_nlast p) as Dl. { eapply Z.divide_trans; [|exact D1]. apply pow2_dvd. lia. }
  destruct (Z.eqb_spec (Z.rem (n - b_nlast p) (2 ^ (ls - (b_neib p - ldm)))) 0) as [R|R].
  - left. apply dvd_rem in R; [|lia]. assert (2 ^ (ls - (b_neib p - ldm)) | n) as Dn.
    { replace n with (n - b_nlast p + b_nlast p) by ring. apply Z.divide_add_r; assumption. }
    split; [bsplit; auto; lia|]. unfold limited, at_end; cbn. bsplit; auto; lia.
  - right. split; [|reflexivity]. intros (_ & _ & _ & G). apply R, dvd_rem; [lia|]. apply Z.divide_sub_r; assumption.
Qed.
Lemma limiter_ok : forall c st st1, conf_ok c -> run c KDK_Check st -> checking c KDK_Check st st1 ->
  exists h k, Checks (KDK_Check (k_ldm c) (s_lstep st1) (s_n st1)) (s_h st1) = Some (h, k) /\
    Forall2 (limiter_spec (k_ldm c) (s_lstep st1) (s_lmax st1) (s_n st1)) (s_h st1) h /\
    Z.of_nat (open_steps (s_n st1) h) + k = Z.of_nat (open_steps (s_n st1) (s_h st1)).
Proof.
  intros c st st1 Hc Hr Ch. pose proof (checking_MidJ c st st1 Hc Hr Ch) as M. pose proof (Checks_eq c st1 Hc M) as E.
  eexists; eexists. split; [exact E|]. destruct M as ((K & _ & Hh & _) & HJ). pose proof (ls_ge _ _ Hc K) as L. split; [|apply open_count].
  apply Forall2_map_self. intros p Hp. destruct Hc as (_ & _ & Hc). apply kcheck_spec; try lia; intros D; auto.
Qed.
