(** Proofs about ComputeBlockTimesteps and EndTimestep. *)
From Verif Require Import Prelude M_Box M_Level L_Level M_Block S_Block L_Block.
From Coq Require Import Reals ZArith List Bool Lia Lra Psatz.
Import ListNotations.
Local Open Scope Z_scope.

(** ** Environment *)
Lemma env_MidJc : forall c st st', env st st' -> MidJc c st -> MidJc c st'.
Proof.
  intros c st st' [h s new F1 F2 F3] ((K & Hn & Hh & Hs & Hd & Q1 & Q2) & HJ). split.
  - unfold Mid, clock; cbn. bsplit; try assumption; try apply K.
    + intros q Hq D. destruct (Forall2_in_r _ _ _ _ _ F1 Hq) as (p & Hp & (d & r & s' & Hr & H1 & H2 & ->)). cbn in D.
      refine (Hh p Hp _). destruct (b_dead p); [specialize (H1 eq_refl); congruence | reflexivity].
    + intros q Hq D. apply in_app_or in Hq as [Hq|Hq].
      * destruct (Forall2_in_r _ _ _ _ _ F2 Hq) as (p & Hp & (d & r & s' & Hr & H1 & H2 & ->)). cbn in D.
        refine (Hs p Hp _). rewrite <- H2 by reflexivity. exact D.
      * rewrite Forall_forall in F3. destruct (F3 q Hq) as (_ & _ & p & Hp & Dp & E1 & E2 & E3 & _ & E4).
        specialize (Hh p Hp Dp). unfold mid in *. rewrite E1, E2, E3, E4. intuition auto.
    + apply Forall_app. split.
      * apply Forall_forall. intros q Hq. destruct (Forall2_in_r _ _ _ _ _ F2 Hq) as (p & Hp & (d & r & s' & Hr & H1 & H2 & ->)). cbn.
        rewrite H2 by reflexivity. rewrite Forall_forall in Hd. auto.
      * eapply Forall_impl; [|exact F3]. intros q Hq. apply Hq.
    + intros q Hq. destruct (Forall2_in_r _ _ _ _ _ F1 Hq) as (p & Hp & (d & r & s' & Hr & H1 & H2 & ->)). exact Hr.
    + intros q Hq. apply in_app_or in Hq as [Hq|Hq].
      * destruct (Forall2_in_r _ _ _ _ _ F2 Hq) as (p & Hp & (d & r & s' & Hr & H1 & H2 & ->)). exact Hr.
      * rewrite Forall_forall in F3. apply (F3 q Hq).
  - cbn. intros q Hq D. destruct (Forall2_in_r _ _ _ _ _ F1 Hq) as (p & Hp & (d & r & s' & Hr & H1 & H2 & ->)). cbn in D.
    assert (b_dead p = false) as Dp by (destruct (b_dead p); [specialize (H1 eq_refl); congruence | reflexivity]).
    exact (HJ p Hp Dp).
Qed.

(** ** Levels *)
Lemma CTL_nn : forall dt dm, 0 <= ComputeTimestepLevel dt dm.
Proof. intros. unfold ComputeTimestepLevel. lia. Qed.

(** ** ComputeBlockTimesteps away from the resynchronisation *)

(** A particle after the loops over particles, before levels are added or removed. *)
Definition al (ls l n : Z) : Prop := 0 <= ls - l -> (2 ^ (ls - l) | n).
Definition nxt (n ls old top : Z) (p : bpart) : Prop :=
  0 <= b_level p <= top /\
  (b_nlast p = n /\ al ls (b_level p) n /\ b_end p = true \/
   b_level p <= old /\ 0 <= b_nlast p < n /\ n < b_nlast p + b_nstep p /\ b_nstep p = 2 ^ (ls - b_level p) /\
   (b_nstep p | b_nlast p) /\ b_end p = false).
Definition nxtJ (ist ldm n old : Z) (p : bpart) : Prop :=
  b_neib p - b_level p > ldm -> b_neib p - ldm <= old /\ ((2 ^ ist | n) -> b_neib p - ldm <= old - 1).

Lemma al_mono : forall ls l l' n, l <= l' -> (2 ^ (ls - l) | n) -> al ls l' n.
Proof. intros ls l l' n H1 H2 H3. eapply Z.divide_trans; [|exact H2]. apply pow2_dvd. lia. Qed.

Lemma mid_end_dvd : forall n ls lmax p, mid n ls lmax p -> n = b_nlast p + b_nstep p -> (2 ^ (ls - b_level p) | n).
Proof. intros n ls lmax p (_ & _ & _ & D1 & D2 & _) ->. apply Z.divide_add_r; assumption. Qed.

Lemma drop_al : forall ls l n nstep, 0 < nstep -> 0 <= ls - l -> (2 ^ (ls - l) | nstep) -> Z.rem n (2 * nstep) = 0 -> al ls (l - 1) n.
Proof.
  intros ls l n nstep H0 H1 H2 H3 _. apply dvd_rem in H3; [|lia]. eapply Z.divide_trans; [|exact H3].
  replace (ls - (l - 1)) with (1 + (ls - l)) by ring. rewrite Z.pow_add_r by lia. apply Z.mul_divide_mono_l. exact H2.
Qed.

Lemma next_hydro_nxt : forall c n ls old dm ts p, old <= ls -> b_dead p = false -> mid n ls old p ->
  forall top, b_level (next_hydro c n ls dm ts p) <= top -> nxt n ls old top (next_hydro c n ls dm ts p).
Proof.
  intros c n ls old dm ts p L Dd M top. pose proof M as (A & B & C & D1 & D2 & E & F). unfold next_hydro. rewrite Dd.
  pose proof (CTL_nn (b_req p) dm) as Hc. set (ctl := ComputeTimestepLevel (b_req p) dm) in *.
  destruct (Z.eqb_spec (n - b_nlast p) (b_nstep p)) as [e|e].
  - assert (n = b_nlast p + b_nstep p) as e' by lia. pose proof (mid_end_dvd _ _ _ _ M e') as Dn.
    destruct (negb (b_nstep p =? pow2i (ls - b_level p))); unfold nxt; cbn; intros T; (split; [|left]).
    + lia.
    + bsplit; try reflexivity. eapply al_mono; [|exact Dn]. lia.
    + revert T. destruct (_ && _ && _) eqn:G; [|destruct (Z.gtb_spec (Z.max ctl (b_neib p - k_ldm c)) (b_level p))]; lia.
    + bsplit; try reflexivity. destruct (_ && _ && _) eqn:G.
      * apply andb_prop in G as [_ G]. apply Z.eqb_eq in G. apply (drop_al _ _ _ (b_nstep p)); auto; lia.
      * eapply al_mono; [|exact Dn]. destruct (Z.gtb_spec (Z.max ctl (b_neib p - k_ldm c)) (b_level p)); lia.
  - intros T. split; [lia|]. right. destruct E as [E|E]; [|lia]. bsplit; try lia; try assumption. rewrite E. exact D1.
Qed.
Lemma next_hydro_J : forall c n ls old dm ts p, 1 <= k_ldm c -> b_dead p = false -> Jc (k_istep c) (k_ldm c) n old p ->
  nxtJ (k_istep c) (k_ldm c) n old (next_hydro c n ls dm ts p).
Proof.
  intros c n ls old dm ts p Hl Dd HJ. unfold next_hydro. rewrite Dd. set (ctl := ComputeTimestepLevel (b_req p) dm).
  destruct (Z.eqb_spec (n - b_nlast p) (b_nstep p)) as [e|e].
  - destruct (negb _); unfold nxtJ; cbn; intros T; exfalso; [lia|].
    revert T. destruct (Z.ltb_spec (Z.max ctl (b_neib p - k_ldm c)) (b_level p)); cbn [andb].
    + destruct (_ && _); [lia|]. destruct (Z.gtb_spec (Z.max ctl (b_neib p - k_ldm c)) (b_level p)); lia.
    + destruct (Z.gtb_spec (Z.max ctl (b_neib p - k_ldm c)) (b_level p)); lia.
  - intros T. apply HJ; [exact T | lia].
Qed.
Lemma next_hydro_dead : forall c n ls dm ts p, b_dead (next_hydro c n ls dm ts p) = b_dead p.
Proof. intros. unfold next_hydro. destruct (b_dead p) eqn:D; [exact D|]. destruct (_ =? b_nstep p); [destruct (negb _); reflexivity | exact D]. Qed.
Lemma next_hydro_req : forall c n ls dm ts p, b_req (next_hydro c n ls dm ts p) = b_req p.
Proof. intros. unfold next_hydro. destruct (b_dead p) eqn:D; [reflexivity|]. destruct (_ =? b_nstep p); [destruct (negb _); reflexivity | reflexivity]. Qed.
Lemma next_star_dead : forall n ls lh dm ts p, b_dead (next_star n ls lh dm ts p) = b_dead p.
Proof. intros. unfold next_star. destruct (_ =? b_nstep p); reflexivity. Qed.
Lemma next_star_req : forall n ls lh dm ts p, b_req (next_star n ls lh dm ts p) = b_req p.
Proof. intros. unfold next_star. destruct (_ =? b_nstep p); reflexivity. Qed.

Lemma next_star_nxt : forall n ls lh old dm ts p, old <= ls -> 0 <= lh -> mid n ls old p ->
  forall top, b_level (next_star n ls lh dm ts p) <= top -> nxt n ls old top (next_star n ls lh dm ts p).
Proof.
  intros n ls lh old dm ts p L Hlh M top. pose proof M as (A & B & C & D1 & D2 & E & F). unfold next_star.
  pose proof (CTL_nn (b_req p) dm) as Hc. set (ctl := ComputeTimestepLevel (b_req p) dm) in *.
  destruct (Z.eqb_spec (n - b_nlast p) (b_nstep p)) as [e|e].
  - assert (n = b_nlast p + b_nstep p) as e' by lia. pose proof (mid_end_dvd _ _ _ _ M e') as Dn.
    unfold nxt; cbn; intros T; (split; [|left]).
    + revert T. destruct (_ && _ && _ && _) eqn:G; [|destruct (Z.gtb_spec (Z.max ctl lh) (b_level p))]; lia.
    + bsplit; try reflexivity. destruct (_ && _ && _ && _) eqn:G.
      * apply andb_prop in G as [_ G]. apply Z.eqb_eq in G. apply (drop_al _ _ _ (b_nstep p)); auto; lia.
      * eapply al_mono; [|exact Dn]. destruct (Z.gtb_spec (Z.max ctl lh) (b_level p)); lia.
  - intros T. split; [lia|]. right. destruct E as [E|E]; [|lia]. bsplit; try lia; try assumption. rewrite E. exact D1.
Qed.

Lemma single_nxt : forall c n ls old top lh p, b_level p <= lh <= top -> nxt n ls old top p -> nxt n ls old top (single_level c n lh p).
Proof.
  intros c n ls old top lh p H N. unfold single_level. destruct (k_single c); [|exact N].
  destruct (Z.eqb_spec (b_nlast p) n) as [e|e]; [|exact N]. destruct N as (A & [(B1 & B2 & B3)|(B1 & B2 & _)]); [|lia].
  unfold nxt, set_level; cbn. split; [lia|]. left. bsplit; auto. intros G. eapply Z.divide_trans; [|apply B2; lia]. apply pow2_dvd. lia.
Qed.
Lemma single_J : forall c ist ldm n old lh p, b_level p <= lh -> nxtJ ist ldm n old p -> nxtJ ist ldm n old (single_level c n lh p).
Proof.
  intros c ist ldm n old lh p H N. unfold single_level. destruct (k_single c); [|exact N].
  destruct (Z.eqb_spec (b_nlast p) n) as [e|e]; [|exact N]. unfold nxtJ, set_level in *; cbn. intros G. apply N. lia.
Qed.
Lemma single_dead : forall c n lh p, b_dead (single_level c n lh p) = b_dead p.
Proof. intros. unfold single_level. destruct (k_single c), (b_nlast p =? n); reflexivity. Qed.
Lemma single_req : forall c n lh p, b_req (single_level c n lh p) = b_req p.
Proof. intros. unfold single_level. destruct (k_single c), (b_nlast p =? n); reflexivity. Qed.

(** [inv] without the flag, plus the flag set exactly for particles that start a step. *)
Definition fin (n ls lmax : Z) (p : bpart) : Prop :=
  0 <= b_level p <= lmax /\ 0 <= b_nlast p <= n /\ n < b_nlast p + b_nstep p /\
  (b_nstep p | b_nlast p) /\ b_nstep p = 2 ^ (ls - b_level p) /\ (b_end p = true <-> b_nlast p = n).

Lemma fin_same : forall n ls old p, 0 <= n -> old <= ls -> nxt n ls old old p -> fin n ls old (restep n ls p).
Proof.
  intros n ls old p Hn L (A & N). unfold restep. pose proof (pow2_pos (ls - b_level p) ltac:(lia)).
  destruct N as [(N1 & N2 & N3)|(N1 & N2 & N3 & N4 & N5 & N6)].
  - rewrite (proj2 (Z.eqb_eq _ _) N1). rewrite pow2i_nn by lia. unfold fin, set_step; cbn. rewrite N1, N3.
    bsplit; try lia; try tauto. apply N2. lia.
  - destruct (Z.eqb_spec (b_nlast p) n); [lia|]. unfold fin. rewrite N6. bsplit; try lia; try assumption; intuition (try congruence; lia).
Qed.
Lemma fin_grow : forall n ls old top p, 0 <= n -> old <= ls -> old < top -> nxt n ls old top p ->
  let f := 2 ^ (top - old) in let ls' := ls + (top - old) in
  fin (n * f) ls' top (restep (n * f) ls' (grow f p)).
Proof.
  intros n ls old top p Hn L T (A & N). cbv zeta. pose proof (pow2_pos (top - old) ltac:(lia)) as Hf.
  set (f := 2 ^ (top - old)) in *. unfold restep, grow. cbn [set_step b_nlast b_level].
  destruct N as [(N1 & N2 & N3)|(N1 & N2 & N3 & N4 & N5 & N6)].
  - rewrite N1, Z.eqb_refl, pow2i_nn by lia. pose proof (pow2_pos (ls + (top - old) - b_level p) ltac:(lia)).
    unfold fin, set_step; cbn. rewrite N3. bsplit; try lia; try tauto.
    unfold al in N2. destruct (Z_le_gt_dec 0 (ls - b_level p)) as [G|G].
    + replace (ls + (top - old) - b_level p) with (ls - b_level p + (top - old)) by ring.
      rewrite Z.pow_add_r by lia. apply Z.mul_divide_mono_r. apply N2. exact G.
    + apply Z.divide_mul_r. unfold f. apply pow2_dvd. lia.
  - destruct (Z.eqb_spec (b_nlast p * f) (n * f)) as [e|e]; [nia|]. unfold fin, set_step; cbn. rewrite N6.
    split; [lia|]. split; [nia|]. split; [nia|]. split; [|split].
    + apply Z.mul_divide_mono_r. exact N5.
    + rewrite N4. unfold f. rewrite <- Z.pow_add_r by lia. f_equal. ring.
    + split; [discriminate | intros G; contradiction].
Qed.
Lemma fin_shrink : forall n ls old top p ist, 1 <= ist -> ls = old + ist - 1 -> 0 <= n -> top <= old - 1 -> (2 ^ ist | n) -> nxt n ls old top p ->
  fin (Z.quot n 2) (ls - 1) (old - 1) (restep (Z.quot n 2) (ls - 1) (shrink 2 p)).
Proof.
  intros n ls old top p ist Hi L Hn T Dn (A & N). unfold restep, shrink. cbn [set_step b_nlast b_level].
  assert (2 | n) as D2. { eapply Z.divide_trans; [|exact Dn]. change 2 with (2 ^ 1) at 1. apply pow2_dvd. lia. }
  pose proof (quot2 n D2) as Qn. pose proof (pow2_pos (ls - 1 - b_level p) ltac:(lia)) as Hp.
  destruct N as [(N1 & N2 & N3)|(N1 & N2 & N3 & N4 & N5 & N6)].
  - rewrite N1, Z.eqb_refl, pow2i_nn by lia. unfold fin, set_step; cbn. rewrite N3. bsplit; try lia; try tauto.
    apply dvd_half; [lia|]. replace (ls - 1 - b_level p + 1) with (ls - b_level p) by ring. apply N2. lia.
  - assert (2 | b_nstep p) as Ds. { rewrite N4. change 2 with (2 ^ 1) at 1. apply pow2_dvd. lia. }
    pose proof (quot2 _ Ds) as Qs. assert (2 | b_nlast p) as Dl by (eapply Z.divide_trans; eassumption).
    pose proof (quot2 _ Dl) as Ql. destruct (Z.eqb_spec (Z.quot (b_nlast p) 2) (Z.quot n 2)); [lia|].
    unfold fin, set_step; cbn. rewrite N6. bsplit; try lia; try (intuition (try congruence; lia)).
    + destruct N5 as [m N5]. exists m. rewrite N5 at 1. nia.
    + assert (2 * Z.quot (b_nstep p) 2 = 2 * 2 ^ (ls - 1 - b_level p)); [|lia]. rewrite Qs, N4.
      replace (ls - b_level p) with (1 + (ls - 1 - b_level p)) by ring. rewrite Z.pow_add_r by lia. reflexivity.
Qed.
