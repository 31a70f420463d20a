(** Resynchronisation, EndTimestep, whole runs. *)
From Verif Require Import Prelude M_Box M_Level L_Level M_Block S_Block L_Block L_Block2 L_Block3.
From Coq Require Import Reals ZArith List Bool Lia Lra Psatz.
Import ListNotations.
Local Open Scope Z_scope.

(** ** Minimum timestep *)
Lemma minreq_le : forall l m, (minreq l m <= m)%R.
Proof.
  unfold minreq. induction l as [|p l IH]; intros m; cbn [fold_left]; [lra|].
  destruct (b_dead p); [apply IH|]. eapply Rle_trans; [apply IH|]. apply Rmin_l.
Qed.
Lemma minreq_in : forall l m p, In p l -> b_dead p = false -> (minreq l m <= b_req p)%R.
Proof.
  unfold minreq. induction l as [|q l IH]; intros m p H D; [destruct H|]. destruct H as [ -> |H]; cbn [fold_left]; [|apply IH; assumption].
  rewrite D. eapply Rle_trans; [apply (minreq_le l)|]. apply Rmin_r.
Qed.
Lemma minreq_pos : forall l m, (0 < m)%R -> Req l -> (0 < minreq l m)%R.
Proof.
  unfold minreq. induction l as [|q l IH]; intros m Hm H; cbn [fold_left]; [exact Hm|].
  apply IH; [|intros p Hp; apply H; right; exact Hp]. destruct (b_dead q); [exact Hm|].
  apply Rmin_glb_lt; [exact Hm | apply H; left; reflexivity].
Qed.
Lemma big_pos : (0 < big_number)%R.
Proof. unfold big_number. assert (0 < 10 ^ 49)%R by (apply pow_lt; lra). lra. Qed.

(** ** Duration of a step *)
Definition short_enough (dm : R) (p : bpart) : Prop :=
  (dm / 2 ^ Z.to_nat (b_level p) <= b_req p * (1 + eps) ^ Z.to_nat (b_level p))%R.
Lemma short_CTL : forall dm r l, (0 < dm)%R -> (0 < r)%R -> ComputeTimestepLevel r dm <= l ->
  (dm / 2 ^ Z.to_nat l <= r * (1 + eps) ^ Z.to_nat l)%R.
Proof.
  intros dm r l Hd Hr H. pose proof (CTL_nn r dm) as H0. pose proof (CTL_upper r dm Hr Hd) as U. cbv zeta in U.
  set (k := ComputeTimestepLevel r dm) in *.
  assert (2 ^ Z.to_nat k <= 2 ^ Z.to_nat l)%R by (apply Rle_pow; [lra | lia]).
  assert ((1 + eps) ^ Z.to_nat k <= (1 + eps) ^ Z.to_nat l)%R by (apply Rle_pow; [unfold eps; lra | lia]).
  assert (0 < 2 ^ Z.to_nat k)%R by (apply pow_lt; lra).
  apply Rle_trans with (dm / 2 ^ Z.to_nat k)%R.
  - apply Rmult_le_compat_l; [lra|]. apply Rinv_le_contravar; assumption.
  - eapply Rle_trans; [left; exact U|]. apply Rmult_le_compat_l; lra.
Qed.
Lemma short_ts : forall ts r l, (0 < ts <= r)%R -> (ts * 2 ^ l / 2 ^ l <= r * (1 + eps) ^ l)%R.
Proof.
  intros ts r l H. assert (0 < 2 ^ l)%R by (apply pow_lt; lra). replace (ts * 2 ^ l / 2 ^ l)%R with ts by (field; lra).
  pose proof (eps_pow_ge1 l). nra.
Qed.
Lemma IZR_pow2 : forall k, 0 <= k -> IZR (2 ^ k) = (2 ^ Z.to_nat k)%R.
Proof. intros k H. rewrite <- (Z2Nat.id k H) at 1. rewrite <- pow_IZR. reflexivity. Qed.
Lemma duration : forall ls l dm, 0 <= l <= ls -> (IZR (2 ^ (ls - l)) * (dm / IZR (2 ^ ls)) = dm / 2 ^ Z.to_nat l)%R.
Proof.
  intros ls l dm H. replace ls with ((ls - l) + l) at 2 by ring. rewrite Z.pow_add_r, mult_IZR by lia.
  rewrite !IZR_pow2 by lia. field. split; apply pow_nonzero; lra.
Qed.

(** ** Sink neighbours at the resynchronisation *)
Definition same_but_level (p q : bpart) : Prop :=
  b_dead q = b_dead p /\ b_req q = b_req p /\ b_dt q = b_dt p /\ b_end q = b_end p /\ b_sink q = b_sink p.
Lemma sink_neibs_ok : forall ldm stars lmax l m0, 0 <= ldm -> (forall s, In s stars -> b_level s <= lmax) -> m0 <= lmax ->
  Forall2 same_but_level l (fst (sink_neibs ldm stars l m0)) /\ m0 <= snd (sink_neibs ldm stars l m0) <= lmax.
Proof.
  intros ldm stars lmax l. induction l as [|p l IH]; intros m0 Hl Hs Hm; cbn [sink_neibs]; [split; [constructor | cbn; lia]|].
  destruct (sink_neib ldm stars p m0) as [p' m] eqn:E.
  assert (same_but_level p p' /\ m0 <= m <= lmax) as [A B].
  { unfold sink_neib in E. destruct (b_sink p =? -1); [injection E as <- <-; unfold same_but_level; tauto || (split; [unfold same_but_level; tauto | lia])|].
    destruct (nth_error stars (Z.to_nat (b_sink p))) as [s|] eqn:N.
    - apply nth_error_In in N. specialize (Hs s N). destruct (b_level s - b_level p >? ldm); injection E as <- <-; (split; [unfold same_but_level; cbn; tauto | lia]).
    - injection E as <- <-. split; [unfold same_but_level; tauto | lia]. }
  specialize (IH m Hl Hs ltac:(lia)). destruct (sink_neibs ldm stars l m) as [l'' m']. cbn in *. destruct IH as [IH1 IH2].
  split; [constructor; assumption | lia].
Qed.

Lemma Forall2_map_r : forall A (P Q : A -> A -> Prop) f l l', Forall2 P l l' -> (forall a b, P a b -> Q a (f b)) -> Forall2 Q l (map f l').
Proof. intros A P Q f l l' H HQ. induction H; cbn; constructor; auto. Qed.
Lemma Forall2_map_self : forall A (Q : A -> A -> Prop) f l, (forall a, In a l -> Q a (f a)) -> Forall2 Q l (map f l).
Proof. intros A Q f l H. induction l; cbn; constructor; [apply H; left; reflexivity | apply IHl; intros; apply H; right; assumption]. Qed.
Lemma Forall2_and_in : forall A (P : A -> A -> Prop) l l', Forall2 P l l' -> Forall2 (fun a b => In a l /\ P a b) l l'.
Proof.
  intros A P l l' H. assert (forall m, incl l m -> Forall2 (fun a b => In a m /\ P a b) l l') as X; [|apply X, incl_refl].
  induction H as [|a b l l' Hab H IH]; intros m Hm; constructor; [split; [apply Hm; left; reflexivity | exact Hab]|].
  apply IH. intros z Hz. apply Hm. right. exact Hz.
Qed.

Definition hydro_res (c : bconf) (st' : bstate) (ts0 : R) (p q : bpart) : Prop :=
  kept p q /\ (b_dead p = false -> fin 0 (s_lstep st') (s_lmax st') q /\ b_neib q = b_level q /\ b_nlast q = 0 /\ b_end q = true /\
    short_enough (s_dtmax st') q /\ b_dtnext q = (IZR (b_nstep q) * ts0)%R).
Definition star_res (c : bconf) (st' : bstate) (ts0 : R) (p q : bpart) : Prop :=
  kept p q /\ fin 0 (s_lstep st') (s_lmax st') q /\ b_nlast q = 0 /\ b_end q = true /\
    short_enough (s_dtmax st') q /\ b_dtnext q = (IZR (b_nstep q) * ts0)%R.

Lemma CBT_resync_ok : forall c st, conf_ok c -> Req (s_h st) -> Req (s_s st) -> Forall (fun p => b_dead p = false) (s_s st) ->
  let st' := CBT_resync c st in
  let ts0 := Rmin (minreq (s_h st) big_number) (minreq (s_s st) big_number) in
  clock c st' /\ s_n st' = 0 /\ 0 < s_nresync st' /\ s_t st' = s_t st /\ s_lmax st' = k_Nlevels c - 1 /\
  (0 < ts0)%R /\ (s_ts st' * 2 ^ Z.to_nat (k_istep c - 1) = ts0)%R /\
  Forall2 (hydro_res c st' ts0) (s_h st) (s_h st') /\ Forall2 (star_res c st' ts0) (s_s st) (s_s st').
Proof.
  intros c st Hc Q1 Q2 Hd. cbv zeta. unfold CBT_resync. destruct Hc as (Hc1 & Hc2 & Hc3).
  pose proof big_pos as Hb. pose proof (minreq_pos _ _ Hb Q1) as P1. pose proof (minreq_pos _ _ Hb Q2) as P2.
  set (dth := minreq (s_h st) big_number) in *. set (dts := minreq (s_s st) big_number) in *. set (ts0 := Rmin dth dts).
  assert (0 < ts0)%R as P0 by (apply Rmin_glb_lt; assumption).
  set (lmax := k_Nlevels c - 1). set (ls := lmax + k_istep c - 1). set (dm := (ts0 * 2 ^ Z.to_nat lmax)%R).
  assert (0 < 2 ^ Z.to_nat lmax)%R as P3 by (apply pow_lt; lra).
  assert (0 < dm)%R as Pd by (apply Rmult_lt_0_compat; assumption).
  set (lh0 := Z.min (ComputeTimestepLevel dth dm) lmax). pose proof (CTL_nn dth dm) as Hn0.
  assert (0 <= lmax) as Hlm by (unfold lmax; lia). assert (0 <= lh0 <= lmax) as Hlh0 by (unfold lh0; lia).
  set (S1 := resync_star lmax ls lh0 dm ts0). destruct (sink_neibs (k_ldm c) (map S1 (s_s st)) (s_h st) lh0) as [h1 lh] eqn:E.
  assert (forall p, 0 <= b_level (S1 p) <= lmax) as HS.
  { intros p. unfold S1, resync_star; cbn. pose proof (CTL_nn (b_req p) dm). lia. }
  destruct (sink_neibs_ok (k_ldm c) (map S1 (s_s st)) lmax (s_h st) lh0) as [F1 F2]; [lia | | lia |].
  { intros s Hs. apply in_map_iff in Hs as (p & <- & _). apply HS. }
  rewrite E in F1, F2. cbn [fst snd] in F1, F2. cbn [s_n s_nresync s_lmax s_lstep s_dtmax s_ts s_t s_h s_s].
  assert (0 <= ls) as Hls by (unfold ls; lia). rewrite (pow2i_nn ls Hls). pose proof (pow2_pos ls Hls) as Hpl.
  assert (lmax <= ls) as Hll by (unfold ls; lia).
  assert (forall l r, (0 < r)%R -> (ts0 <= r)%R -> Z.min (ComputeTimestepLevel r dm) lmax <= l <= lmax ->
    (dm / 2 ^ Z.to_nat l <= r * (1 + eps) ^ Z.to_nat l)%R) as SH.
  { intros l r Hr Ht Hl. destruct (Z_le_gt_dec (ComputeTimestepLevel r dm) lmax) as [G|G]; [apply short_CTL; auto; lia|].
    assert (l = lmax) as -> by lia. apply short_ts. lra. }
  bsplit; try reflexivity; try exact Hpl; try exact P0.
  - unfold clock; cbn. bsplit; try reflexivity; try lia. exact Pd.
  - replace ls with (lmax + (k_istep c - 1)) by (unfold ls; ring). rewrite Z.pow_add_r, mult_IZR, !IZR_pow2 by lia. unfold dm.
    field. split; apply pow_nonzero; lra.
  - apply Forall2_map_r with (P := fun a b => In a (s_h st) /\ same_but_level a b); [apply Forall2_and_in, F1|].
    intros p q (Hp & B1 & B2 & B3 & B4 & B5). unfold hydro_res, resync_hydro. rewrite B1. split.
    { destruct (b_dead p) eqn:D; unfold kept; cbn; split; auto; congruence. }
    intros D. rewrite D. cbn [s_lstep s_lmax s_dtmax].
    set (l := if k_single c then lh else Z.min (ComputeTimestepLevel (b_req q) dm) lmax).
    pose proof (CTL_nn (b_req q) dm) as Hn1.
    assert (0 <= l <= lmax) as Hl by (unfold l; destruct (k_single c); lia). rewrite (pow2i_nn (ls - l)) by lia.
    pose proof (pow2_pos (ls - l) ltac:(lia)). unfold fin, short_enough; cbn. rewrite B2.
    pose proof (Q1 p Hp) as Hr. pose proof (minreq_in (s_h st) big_number p Hp D) as Hm. fold dth in Hm.
    assert (ts0 <= dth)%R as Ht by apply Rmin_l.
    bsplit; try reflexivity; try lia; try tauto; try apply Z.divide_0_r.
    unfold l. rewrite B2. destruct (k_single c); [|apply SH; [exact Hr | lra | lia]].
    apply Rle_trans with (dth * (1 + eps) ^ Z.to_nat lh)%R; [apply SH; [exact P1 | exact Ht | fold lh0; lia]|].
    apply Rmult_le_compat_r; [|exact Hm]. pose proof (eps_pow_ge1 (Z.to_nat lh)). lra.
  - apply Forall2_map_self. intros p Hp. unfold star_res. split; [split; reflexivity|]. pose proof (HS p) as Hl.
    cbn [s_lstep s_lmax s_dtmax]. assert (b_level (S1 p) = Z.max (Z.min (ComputeTimestepLevel (b_req p) dm) lmax) lh0) as El by reflexivity.
    assert (b_nstep (S1 p) = 2 ^ (ls - b_level (S1 p))) as En by (rewrite <- pow2i_nn by lia; reflexivity).
    pose proof (pow2_pos (ls - b_level (S1 p)) ltac:(lia)). unfold fin, short_enough. rewrite En.
    change (b_nlast (S1 p)) with 0. change (b_end (S1 p)) with true. change (b_req (S1 p)) with (b_req p).
    pose proof (Q2 p Hp) as Hr. rewrite Forall_forall in Hd. pose proof (minreq_in (s_s st) big_number p Hp (Hd p Hp)) as Hm. fold dts in Hm.
    assert (ts0 <= dts)%R as Ht by apply Rmin_r.
    bsplit; try reflexivity; try lia; try tauto; try apply Z.divide_0_r.
    + apply SH; [exact Hr | lra | lia].
    + rewrite <- En. reflexivity.
Qed.

(** ** EndTimestep *)
Lemma end_fin : forall n ls lmax p, fin n ls lmax p -> inv n ls lmax (end_step n p).
Proof.
  intros n ls lmax p (A & B & C & D & E & F). unfold end_step. destruct (b_end p) eqn:G.
  - destruct F as [F _]. specialize (F eq_refl). unfold inv; cbn. rewrite <- F. bsplit; try assumption; try lia; reflexivity.
  - unfold inv. bsplit; try assumption; lia.
Qed.
Lemma end_dead : forall n p, b_dead (end_step n p) = b_dead p.
Proof. intros. unfold end_step. destruct (b_end p); reflexivity. Qed.
Lemma end_req : forall n p, b_req (end_step n p) = b_req p.
Proof. intros. unfold end_step. destruct (b_end p); reflexivity. Qed.
Lemma end_neib : forall n p, b_neib (end_step n p) = b_neib p.
Proof. intros. unfold end_step. destruct (b_end p); reflexivity. Qed.
Lemma end_level : forall n p, b_level (end_step n p) = b_level p.
Proof. intros. unfold end_step. destruct (b_end p); reflexivity. Qed.
Lemma end_nstep : forall n p, b_nstep (end_step n p) = b_nstep p.
Proof. intros. unfold end_step. destruct (b_end p); reflexivity. Qed.
Lemma live_dead : forall f p, (forall q, b_dead (f q) = b_dead q) -> b_dead (live f p) = b_dead p.
Proof. intros f p H. unfold live. destruct (b_dead p) eqn:D; [exact D | rewrite H; exact D]. Qed.
Lemma live_alive : forall f p, b_dead p = false -> live f p = f p.
Proof. intros f p H. unfold live. rewrite H. reflexivity. Qed.

(** State between ComputeBlockTimesteps and EndTimestep. *)
Definition Fin (c : bconf) (st : bstate) : Prop :=
  clock c st /\ s_n st < s_nresync st /\
  Linv (s_h st) (fin (s_n st) (s_lstep st) (s_lmax st)) /\ Linv (s_h st) (J (k_ldm c) (s_lmax st)) /\
  Linv (s_s st) (fin (s_n st) (s_lstep st) (s_lmax st)) /\
  Forall (fun p => b_dead p = false) (s_s st) /\ Req (s_h st) /\ Req (s_s st) /\
  (forall p, In p (s_h st) \/ In p (s_s st) -> b_dead p = false -> b_end p = true -> short_enough (s_dtmax st) p).
Lemma End_Inv : forall c st, Fin c st -> Inv c (EndTimesteps st).
Proof.
  intros c st (K & Hn & Hh & HJ & Hs & Hd & Q1 & Q2 & _). unfold Inv, EndTimesteps, clock; cbn. bsplit; try apply K; try exact Hn.
  - intros q Hq D. apply in_map_iff in Hq as (p & <- & Hp). rewrite live_dead in D by apply end_dead. rewrite (live_alive _ _ D). apply end_fin; auto.
  - intros q Hq D. apply in_map_iff in Hq as (p & <- & Hp). rewrite live_dead in D by apply end_dead. rewrite (live_alive _ _ D).
    unfold J. rewrite end_neib, end_level. apply HJ; assumption.
  - intros q Hq D. apply in_map_iff in Hq as (p & <- & Hp). rewrite end_dead in D. apply end_fin; auto.
  - apply Forall_forall. intros q Hq. apply in_map_iff in Hq as (p & <- & Hp). rewrite end_dead. rewrite Forall_forall in Hd. auto.
  - intros q Hq. apply in_map_iff in Hq as (p & <- & Hp). unfold live. destruct (b_dead p); [auto|]. rewrite end_req. auto.
  - intros q Hq. apply in_map_iff in Hq as (p & <- & Hp). rewrite end_req. auto.
Qed.

Lemma resync_Fin : forall c st, conf_ok c -> Req (s_h st) -> Req (s_s st) -> Forall (fun p => b_dead p = false) (s_s st) ->
  Fin c (CBT_resync c st).
Proof.
  intros c st Hc Q1 Q2 Hd. destruct (CBT_resync_ok c st Hc Q1 Q2 Hd) as (K & En & Hr & Et & El & P0 & Ets & Fh & Fs).
  unfold Fin. rewrite En. bsplit; try assumption.
  - intros q Hq D. destruct (Forall2_in_r _ _ _ _ _ Fh Hq) as (p & Hp & (X1 & _) & X). rewrite X1 in D. apply (X D).
  - intros q Hq D. destruct (Forall2_in_r _ _ _ _ _ Fh Hq) as (p & Hp & (X1 & _) & X). rewrite X1 in D. destruct (X D) as (_ & X2 & _).
    unfold J. unfold conf_ok in Hc. rewrite X2. lia.
  - intros q Hq D. destruct (Forall2_in_r _ _ _ _ _ Fs Hq) as (p & Hp & _ & X). apply X.
  - apply Forall_forall. intros q Hq. destruct (Forall2_in_r _ _ _ _ _ Fs Hq) as (p & Hp & (X1 & _) & X). rewrite X1. rewrite Forall_forall in Hd. auto.
  - intros q Hq. destruct (Forall2_in_r _ _ _ _ _ Fh Hq) as (p & Hp & (_ & X1) & X). rewrite X1. auto.
  - intros q Hq. destruct (Forall2_in_r _ _ _ _ _ Fs Hq) as (p & Hp & (_ & X1) & X). rewrite X1. auto.
  - intros q [Hq|Hq] D _.
    + destruct (Forall2_in_r _ _ _ _ _ Fh Hq) as (p & Hp & (X1 & _) & X). rewrite X1 in D. apply (X D).
    + destruct (Forall2_in_r _ _ _ _ _ Fs Hq) as (p & Hp & _ & X). apply X.
Qed.
Lemma started_short : forall dm n' p q, (0 < dm)%R -> (0 < b_req p)%R -> kept p q -> started dm n' p q -> short_enough dm q.
Proof. intros dm n' p q Hd Hr (K1 & K2) (S1 & S2 & S3 & S4). unfold short_enough. rewrite K2. apply short_CTL; assumption. Qed.
Lemma step_short : forall ls ls' n n' dm p q lmax, (0 < dm)%R -> (0 < b_req p)%R -> mid n ls lmax p -> step_rel ls n n' ls' dm p q ->
  b_end q = true -> short_enough dm q.
Proof.
  intros ls ls' n n' dm p q lmax Hd Hr M (K & [(_ & S)|(_ & S)]) E; [eapply started_short; eassumption|].
  destruct M as (_ & _ & _ & _ & _ & _ & M). destruct S as (_ & _ & _ & _ & _ & _ & S). congruence.
Qed.
Lemma next_Fin : forall c st, conf_ok c -> MidJc c st -> s_n st <> s_nresync st -> Fin c (CBT_next c st).
Proof.
  intros c st Hc M Nr. destruct (CBT_next_ok c st Hc M Nr) as (K & Hn & En & Edm & Et & G & Gs & EG & EGs & HD & HG & HGs).
  destruct M as ((K0 & _ & Hh & Hs & Hd & Q1 & Q2) & _). destruct K0 as (_ & _ & _ & _ & Pd & _).
  unfold Fin. rewrite EG, EGs, Edm.
  assert (forall p, b_dead (G p) = false -> In p (s_h st) -> b_dead p = false) as DG.
  { intros p D Hp. destruct (b_dead p) eqn:D'; [rewrite (HD p D') in D; congruence | reflexivity]. }
  bsplit; try assumption.
  - intros q Hq D. apply in_map_iff in Hq as (p & <- & Hp). apply HG; auto.
  - intros q Hq D. apply in_map_iff in Hq as (p & <- & Hp). apply HG; auto.
  - intros q Hq D. apply in_map_iff in Hq as (p & <- & Hp). apply HGs; auto.
  - apply Forall_forall. intros q Hq. apply in_map_iff in Hq as (p & <- & Hp). destruct (HGs p Hp) as (_ & ((X & _) & _) & _). rewrite X.
    rewrite Forall_forall in Hd. auto.
  - intros q Hq. apply in_map_iff in Hq as (p & <- & Hp). destruct (b_dead p) eqn:D; [rewrite (HD p D); auto|].
    destruct (HG p Hp D) as (_ & _ & ((_ & X) & _) & _). rewrite X. auto.
  - intros q Hq. apply in_map_iff in Hq as (p & <- & Hp). destruct (HGs p Hp) as (_ & ((_ & X) & _) & _). rewrite X. auto.
  - intros q [Hq|Hq] D E; apply in_map_iff in Hq as (p & <- & Hp).
    + pose proof (DG p D Hp) as D'. destruct (HG p Hp D') as (_ & _ & X & _). eapply step_short; try eassumption; auto.
    + destruct (HGs p Hp) as (_ & X & _). eapply step_short; try eassumption; auto. eapply Linv_star; eassumption.
Qed.
Lemma CBT_Fin : forall c st, conf_ok c -> MidJc c st -> Fin c (ComputeBlockTimesteps c st).
Proof.
  intros c st Hc M. unfold ComputeBlockTimesteps. destruct (Z.eqb_spec (s_n st) (s_nresync st)).
  - destruct M as ((_ & _ & _ & _ & Hd & Q1 & Q2) & _). apply resync_Fin; assumption.
  - apply next_Fin; assumption.
Qed.

(** ** Runs *)
Lemma pass_mid : forall c st st1 st2 st3, conf_ok c -> Inv c st -> rounds c KDK_Check (tick st) st1 -> neibs st1 st2 -> env st2 st3 -> MidJc c st3.
Proof.
  intros c st st1 st2 st3 Hc I0 R1 N E. eapply env_MidJc; [exact E|]. eapply neibs_Jc; [exact Hc | exact N |].
  eapply rounds_MidJc; [exact Hc | exact R1 |]. apply tick_mid, I0.
Qed.
Lemma run_Inv : forall c st, conf_ok c -> run c KDK_Check st -> Inv c st.
Proof.
  intros c st Hc H. induction H as [st E Q1 Q2 Hd | st st' _ IH P].
  - apply End_Inv. unfold ComputeBlockTimesteps. rewrite E, Z.eqb_refl. rewrite Forall_forall in Q1, Q2. apply resync_Fin; assumption.
  - destruct P as [st1 st2 st3 R1 N E]. apply End_Inv, CBT_Fin; [exact Hc|]. eapply pass_mid; eassumption.
Qed.
