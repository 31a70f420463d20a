(** Which level is chosen. *)
From Verif Require Import Prelude M_Box M_Level L_Level M_Block S_Block L_Block L_Block2 L_Block3 L_Block4 L_Block5 L_Block6.
From Coq Require Import Reals ZArith List Bool Lia Lra Psatz.
Import ListNotations.
Local Open Scope Z_scope.

Lemma minreq_least : forall l m, (0 < m)%R -> least_request l m (minreq l m).
Proof.
  intros l m Hm. split; [apply minreq_le|]. split; [intros; now apply minreq_in|].
  assert (forall l m, minreq l m = m \/ exists p, In p l /\ b_dead p = false /\ b_req p = minreq l m) as A.
  { clear. induction l as [|p l IH]; intros m; [left; reflexivity|]. unfold minreq. cbn [fold_left].
    fold (minreq l (if b_dead p then m else Rmin m (b_req p))).
    destruct (IH (if b_dead p then m else Rmin m (b_req p))) as [E|(q & Hq & D & E)]; [|right; exists q; auto using in_cons].
    rewrite E. destruct (b_dead p) eqn:D; [left; reflexivity|]. unfold Rmin. destruct (Rle_dec m (b_req p)); [left; reflexivity|].
    right. exists p. auto using in_eq. }
  destruct (A l m) as [E|(p & ? & ? & E)]; [left; exact E | right; eauto].
Qed.
Lemma CTL_coarse : forall r dm, (0 < r)%R -> (0 < dm)%R -> (dm < r)%R -> ComputeTimestepLevel r dm <= 1.
Proof.
  intros r dm Hr Hd H. unfold ComputeTimestepLevel. apply Z.max_lub; [|lia].
  assert (ln (dm / r) < 0)%R as L.
  { rewrite <- ln_1. apply ln_increasing; [apply Rdiv_lt_0_compat; assumption|]. apply Rmult_lt_reg_r with r; [exact Hr|].
    replace (dm / r * r)%R with dm by (field; lra). lra. }
  destruct (ztrunc_neg (invlogetwo * ln (dm / r))) as [Z0 _]; [|lia].
  assert (0 < invlogetwo)%R by (unfold invlogetwo; lra). nra.
Qed.
Lemma CTL_calls : forall r dm lmax, (0 < r)%R -> (0 < dm)%R -> 0 <= lmax ->
  calls_for dm r lmax (Z.min (ComputeTimestepLevel r dm) lmax).
Proof.
  intros r dm lmax Hr Hd Hl. pose proof (CTL_nn r dm) as N. unfold calls_for. split; [lia|]. split; [|split].
  - intros H. apply short_CTL; auto. lia.
  - intros H H0. destruct (CTL_lower r dm (conj Hr H)) as [L1 L2]. split; [lia|].
    set (k := ComputeTimestepLevel r dm) in *. apply Rle_trans with (1 := L2).
    set (l := Z.min k lmax). assert (1 <= l <= k) as Hlk by (unfold l; lia).
    replace (2 * (dm / 2 ^ Z.to_nat l))%R with (dm / 2 ^ Z.to_nat (l - 1))%R.
    + apply Rmult_le_compat_l; [lra|]. apply Rinv_le_contravar; [apply pow_lt; lra|]. apply Rle_pow; [lra | lia].
    + replace (Z.to_nat l) with (S (Z.to_nat (l - 1))) by lia. cbn [pow]. field. apply pow_nonzero. lra.
  - intros H. pose proof (CTL_coarse r dm Hr Hd H). lia.
Qed.
Lemma CTL_calls_free : forall r dm, (0 < r)%R -> (0 < dm)%R ->
  calls_for dm r (ComputeTimestepLevel r dm + 1) (ComputeTimestepLevel r dm).
Proof.
  intros r dm Hr Hd. pose proof (CTL_nn r dm). pose proof (CTL_calls r dm (ComputeTimestepLevel r dm + 1) Hr Hd ltac:(lia)) as C.
  now rewrite Z.min_l in C by lia.
Qed.
Lemma CTL_mono : forall r r' dm, (0 < r <= r')%R -> (0 < dm)%R -> ComputeTimestepLevel r' dm <= ComputeTimestepLevel r dm.
Proof.
  intros r r' dm [Hr Hr'] Hd. unfold ComputeTimestepLevel.
  assert (ztrunc (invlogetwo * ln (dm / r')) <= ztrunc (invlogetwo * ln (dm / r))); [|lia].
  assert (invlogetwo * ln (dm / r') <= invlogetwo * ln (dm / r))%R as L.
  { apply Rmult_le_compat_l; [unfold invlogetwo; lra|].
    destruct (Rle_lt_or_eq_dec _ _ Hr') as [G| -> ]; [|lra]. left. apply ln_increasing; [apply Rdiv_lt_0_compat; lra|].
    apply Rmult_lt_compat_l; [exact Hd|]. apply Rinv_lt_contravar; [|exact G]. apply Rmult_lt_0_compat; lra. }
  set (x := (invlogetwo * ln (dm / r'))%R) in *. set (y := (invlogetwo * ln (dm / r))%R) in *.
  destruct (Rle_lt_dec 0 y) as [Y|Y].
  - destruct (ztrunc_pos y Y) as (Y0 & Y1 & Y2). destruct (Rle_lt_dec 0 x) as [X|X].
    + destruct (ztrunc_pos x X) as (X0 & X1 & X2). assert (ztrunc x < ztrunc y + 1); [|lia]. apply lt_IZR. rewrite plus_IZR. lra.
    + destruct (ztrunc_neg x ltac:(lra)) as (X0 & _). lia.
  - destruct (ztrunc_neg y ltac:(lra)) as (Y0 & Y1 & Y2). destruct (ztrunc_neg x ltac:(lra)) as (X0 & X1 & X2).
    assert (ztrunc x - 1 < ztrunc y); [|lia]. apply lt_IZR. rewrite minus_IZR. lra.
Qed.

Lemma resync_levels : forall c st st3, conf_ok c -> run c KDK_Check st -> choosing c KDK_Check st st3 -> s_n st3 = s_nresync st3 ->
  let st' := ComputeBlockTimesteps c st3 in
  exists mh ms, least_request (s_h st3) big_number mh /\ least_request (s_s st3) big_number ms /\
    s_lmax st' = k_Nlevels c - 1 /\ (s_dtmax st' = Rmin mh ms * 2 ^ Z.to_nat (s_lmax st'))%R /\
    (k_single c = false ->
       Forall2 (fun p q => b_dead p = false -> calls_for (s_dtmax st') (b_req p) (s_lmax st') (b_level q)) (s_h st3) (s_h st')) /\
    (k_single c = true -> exists l, forall q, In q (s_h st') -> b_dead q = false -> b_level q = l) /\
    Forall2 (fun p q => exists l1 l2, calls_for (s_dtmax st') (b_req p) (s_lmax st') l1 /\ calls_for (s_dtmax st') mh (s_lmax st') l2 /\
       b_level q = Z.max l1 l2) (s_s st3) (s_s st') /\
    (k_single c = false -> forall r q, In r (s_h st') -> b_dead r = false -> In q (s_s st') -> b_level r <= b_level q).
Proof.
  intros c st st3 Hc Hr Ch E. cbv zeta. pose proof (choosing_mid c st st3 Hc Hr Ch) as M. unfold ComputeBlockTimesteps.
  rewrite (proj2 (Z.eqb_eq _ _) E). destruct M as ((_ & _ & _ & _ & Hd & Q1 & Q2) & _). clear st Hr Ch E.
  exists (minreq (s_h st3) big_number), (minreq (s_s st3) big_number).
  pose proof big_pos as Hb. split; [apply minreq_least, Hb|]. split; [apply minreq_least, Hb|].
  pose proof (minreq_pos _ _ Hb Q1) as P1. pose proof (minreq_pos _ _ Hb Q2) as P2.
  unfold CBT_resync. set (mh := minreq (s_h st3) big_number) in *. set (ms := minreq (s_s st3) big_number) in *.
  assert (0 < Rmin mh ms)%R as P0 by (apply Rmin_glb_lt; assumption).
  set (lmax := k_Nlevels c - 1). assert (0 < lmax) as Hlm by (destruct Hc; unfold lmax; lia).
  set (dm := (Rmin mh ms * 2 ^ Z.to_nat lmax)%R). assert (0 < dm)%R as Pd by (apply Rmult_lt_0_compat; [exact P0 | apply pow_lt; lra]).
  set (lh0 := Z.min (ComputeTimestepLevel mh dm) lmax). set (ls := lmax + k_istep c - 1).
  set (S1 := resync_star lmax ls lh0 dm (Rmin mh ms)).
  destruct (sink_neibs (k_ldm c) (map S1 (s_s st3)) (s_h st3) lh0) as [h1 lh] eqn:E.
  assert (Forall2 same_but_level (s_h st3) h1) as F1.
  { destruct (sink_neibs_ok (k_ldm c) (map S1 (s_s st3)) lmax (s_h st3) lh0) as [F1 _]; [destruct Hc; lia | | unfold lh0; lia | rewrite E in F1; exact F1].
    intros s Hs. apply in_map_iff in Hs as (p & <- & _). unfold S1, resync_star, lh0; cbn. lia. }
  cbn [s_lmax s_dtmax s_h s_s]. split; [reflexivity|]. split; [reflexivity|].
  assert (k_single c = false -> forall p q, In p (s_h st3) -> same_but_level p q -> b_dead p = false ->
     b_level (resync_hydro c lmax ls lh dm (Rmin mh ms) q) = Z.min (ComputeTimestepLevel (b_req p) dm) lmax) as HL.
  { intros Hk p q Hp B D. destruct B as (B1 & B2 & _). unfold resync_hydro. rewrite B1, D, Hk, B2. reflexivity. }
  split; [|split; [|split]].
  - intros Hk. apply Forall2_map2 with (P := same_but_level); [exact F1|]. intros p q Hp B D. rewrite (HL Hk p q Hp B D).
    apply CTL_calls; [apply Q1, Hp | exact Pd | lia].
  - intros Hk. exists lh. intros q Hq D. apply in_map_iff in Hq as (q0 & <- & Hq).
    unfold resync_hydro in *. destruct (b_dead q0) eqn:D0; [congruence|]. cbn. now rewrite Hk.
  - apply Forall2_map_self. intros p Hp. exists (Z.min (ComputeTimestepLevel (b_req p) dm) lmax), lh0.
    split; [apply CTL_calls; [apply Q2, Hp | exact Pd | lia]|]. split; [apply CTL_calls; [exact P1 | exact Pd | lia]|]. reflexivity.
  - intros Hk r q Hrr D Hq. apply in_map_iff in Hrr as (r0 & <- & Hr0). apply in_map_iff in Hq as (q0 & <- & Hq0).
    destruct (Forall2_in_r _ _ _ _ _ F1 Hr0) as (p & Hp & B).
    assert (b_dead p = false) as Dp.
    { destruct B as (B1 & _). destruct (b_dead p) eqn:Dp; [|reflexivity]. unfold resync_hydro in D. rewrite B1 in D. congruence. }
    rewrite (HL Hk p r0 Hp B Dp). unfold S1, resync_star. cbn [b_level].
    pose proof (CTL_mono mh (b_req p) dm (conj P1 (minreq_in _ _ _ Hp Dp)) Pd). unfold lh0. lia.
Qed.

(** ** Between resynchronisations *)
Lemma maxlev_deepest : forall l, deepest l (maxlev l 0).
Proof.
  intros l. split; [apply maxlev_ge|]. split; [intros; now apply maxlev_in|].
  assert (forall l m, maxlev l m = m \/ exists p, In p l /\ b_dead p = false /\ b_level p = maxlev l m) as A.
  { clear. induction l as [|p l IH]; intros m; [left; reflexivity|]. unfold maxlev. cbn [fold_left].
    fold (maxlev l (if b_dead p then m else Z.max m (b_level p))).
    destruct (IH (if b_dead p then m else Z.max m (b_level p))) as [E|(q & Hq & D & E)]; [|right; exists q; auto using in_cons].
    rewrite E. destruct (b_dead p) eqn:D; [left; reflexivity|]. destruct (Z.max_spec m (b_level p)) as [[? -> ]|[? -> ]]; [|left; reflexivity].
    right. exists p. auto using in_eq. }
  apply A.
Qed.
Lemma F2_impl : forall A (P Q : A -> A -> Prop) l l', (forall a b, P a b -> Q a b) -> Forall2 P l l' -> Forall2 Q l l'.
Proof. intros A P Q l l' H F. induction F; constructor; auto. Qed.
Lemma rem_dvd : forall n m, 0 < m -> (Z.rem n m =? 0) = true <-> (m | n).
Proof. intros. rewrite Z.eqb_eq. apply dvd_rem. lia. Qed.

Lemma next_shape : forall c st,
  let st' := CBT_next c st in
  let F1 := next_hydro c (s_n st) (s_lstep st) (s_dtmax st) (s_ts st) in
  let top := maxlev (map F1 (s_h st)) 0 in
  Forall2 (fun p q => b_dead q = b_dead p /\ (b_dead p = false -> b_level q = b_level (single_level c (s_n st) top (F1 p)) /\ b_neib q = b_neib (F1 p))) (s_h st) (s_h st') /\
  Forall2 (fun p q => b_level q = b_level (next_star (s_n st) (s_lstep st) top (s_dtmax st) (s_ts st) p)) (s_s st) (s_s st').
Proof.
  intros c st. cbv zeta. unfold CBT_next. set (F1 := next_hydro c (s_n st) (s_lstep st) (s_dtmax st) (s_ts st)).
  set (top := maxlev (map F1 (s_h st)) 0). set (F2 := next_star (s_n st) (s_lstep st) top (s_dtmax st) (s_ts st)).
  set (s1 := map F2 (s_s st)). set (h2 := map (live (single_level c (s_n st) top)) (map F1 (s_h st))).
  assert (Forall2 (fun p q => b_dead q = b_dead p /\ (b_dead p = false -> b_level q = b_level (single_level c (s_n st) top (F1 p)) /\ b_neib q = b_neib (F1 p))) (s_h st) h2) as H2.
  { unfold h2. rewrite map_map. apply Forall2_map_self. intros p _. unfold live.
    assert (b_dead (F1 p) = b_dead p) as D by apply next_hydro_dead. split.
    - destruct (b_dead (F1 p)) eqn:D1; [congruence|]. rewrite single_dead. congruence.
    - intros Dp. rewrite D, Dp. split; [reflexivity|]. unfold single_level. destruct (k_single c), (b_nlast (F1 p) =? s_n st); reflexivity. }
  assert (Forall2 (fun p q => b_level q = b_level (F2 p)) (s_s st) s1) as H3 by (apply Forall2_map_self; reflexivity).
  assert (forall n' ls', forall f, (forall p, b_level (f p) = b_level p /\ b_dead (f p) = b_dead p /\ b_neib (f p) = b_neib p) ->
     Forall2 (fun p q => b_dead q = b_dead p /\ (b_dead p = false -> b_level q = b_level (single_level c (s_n st) top (F1 p)) /\ b_neib q = b_neib (F1 p))) (s_h st) (map (live (restep n' ls')) (map (live f) h2)) /\
     Forall2 (fun p q => b_level q = b_level (F2 p)) (s_s st) (map (restep n' ls') (map f s1))) as G.
  { intros n' ls' f Hf. split; rewrite map_map.
    - eapply Forall2_map2; [exact H2|]. cbn. intros p q _ [D X].
      assert (b_dead (live f q) = b_dead q) as D1 by (apply live_dead; intros; apply Hf).
      assert (forall x, b_level (restep n' ls' x) = b_level x /\ b_neib (restep n' ls' x) = b_neib x /\ b_dead (restep n' ls' x) = b_dead x) as Rs.
      { intros x. unfold restep, set_step. destruct (b_nlast x =? n'); auto. }
      split; [rewrite live_dead by (intros; apply Rs); congruence|]. intros Dp. rewrite live_alive by congruence.
      destruct (Rs (live f q)) as (-> & -> & _). rewrite live_alive by congruence. destruct (Hf q) as (-> & _ & -> ). auto.
    - eapply Forall2_map2; [exact H3|]. cbn. intros p q _ X. unfold restep, set_step. destruct (b_nlast (f q) =? n'); cbn; destruct (Hf q) as (-> & _); exact X. }
  destruct (_ >? _); [|destruct (_ && _ && _)]; cbn [s_h s_s]; try apply G; try (intros p; cbn; auto).
  specialize (G (s_n st) (s_lmax st + k_istep c - 1) (fun p => p)). 
  assert (map (fun p : bpart => p) s1 = s1) as E1 by apply map_id. rewrite E1 in G.
  assert (map (live (fun p : bpart => p)) h2 = h2) as E2. { rewrite <- (map_id h2) at 2. apply map_ext. intros p. unfold live. destruct (b_dead p); reflexivity. }
  rewrite E2 in G. apply G. auto.
Qed.

Lemma next_levels : forall c st st3, conf_ok c -> run c KDK_Check st -> choosing c KDK_Check st st3 -> s_n st3 <> s_nresync st3 ->
  let st' := ComputeBlockTimesteps c st3 in
  let n := s_n st3 in
  exists top, deepest (s_h st') top /\
  (k_single c = false ->
     Forall2 (fun p q => b_dead p = false -> at_end n p -> exists w0,
       calls_for (s_dtmax st3) (b_req p) (w0 + 1) w0 /\
       let w := Z.max w0 (b_neib p - k_ldm c) in
       let cut := b_nstep p <> 2 ^ (s_lstep st3 - b_level p) in
       moves w (b_level p) (b_level q) (~ cut /\ w < b_level p /\ 1 < b_level p /\ (2 * b_nstep p | n)) /\
       (cut -> b_neib q = b_level q) /\ (~ cut -> b_neib q = w)) (s_h st3) (s_h st')) /\
  (k_single c = true ->
     Forall2 (fun p q => b_dead p = false -> at_end n p -> b_level q = top) (s_h st3) (s_h st')) /\
  Forall2 (fun p q => at_end n p -> exists w0,
       calls_for (s_dtmax st3) (b_req p) (w0 + 1) w0 /\
       let w := Z.max w0 top in
       moves w (b_level p) (b_level q) (top < w < b_level p /\ 1 < b_level p /\ (2 * b_nstep p | n))) (s_s st3) (s_s st').
Proof.
  intros c st st3 Hc Hr Ch Nr. cbv zeta. pose proof (choosing_mid c st st3 Hc Hr Ch) as M. unfold ComputeBlockTimesteps.
  rewrite (proj2 (Z.eqb_neq _ _) Nr). clear st Hr Ch. destruct (next_shape c st3) as (Sh & Ss).
  destruct M as ((K & Hn & Hh & Hs & Hd & Q1 & Q2) & HJ). pose proof (ls_ge _ _ Hc K) as L.
  set (F1 := next_hydro c (s_n st3) (s_lstep st3) (s_dtmax st3) (s_ts st3)) in *. set (top := maxlev (map F1 (s_h st3)) 0) in *.
  assert (0 < s_dtmax st3)%R as Pd by apply K.
  assert (forall p, In p (s_h st3) -> b_dead p = false -> at_end (s_n st3) p -> b_nlast (F1 p) = s_n st3) as Hl.
  { intros p Hp D A. unfold F1, next_hydro. unfold at_end in A. rewrite D, (proj2 (Z.eqb_eq _ _)) by lia.
    destruct (negb _); reflexivity. }
  pose proof (maxlev_deepest (map F1 (s_h st3))) as (T1 & T2 & T3). fold top in T1, T2, T3.
  exists top. split; [|split; [|split]].
  - split; [exact T1|]. split.
    + intros q Hq D. apply (Forall2_in_r _ _ _ _ _ Sh) in Hq as (p & Hp & Dp & X). rewrite Dp in D. destruct (X D) as [ -> _].
      unfold single_level. assert (b_level (F1 p) <= top) by (apply T2; [apply in_map, Hp | unfold F1; rewrite next_hydro_dead; exact D]).
      destruct (k_single c), (b_nlast (F1 p) =? s_n st3); cbn; lia.
    + destruct T3 as [T3|(x & Hx & Dx & Ex)]; [left; exact T3|]. right. apply in_map_iff in Hx as (p & <- & Hp).
      assert (exists q, In q (s_h (CBT_next c st3)) /\ b_dead q = b_dead p /\ (b_dead p = false -> b_level q = b_level (single_level c (s_n st3) top (F1 p)))) as (q & Hq & Dq & X).
      { clearbody top. clear - Sh Hp. induction Sh as [|a b l l' Hab Sh IH]; [destruct Hp|]. destruct Hp as [ -> |Hp].
        - exists b. destruct Hab as [H1 H2]. split; [left; reflexivity|]. split; [exact H1|]. intros D0. exact (proj1 (H2 D0)).
        - destruct (IH Hp) as (q & Hq & ?). exists q. split; [right; exact Hq | assumption]. }
      unfold F1 in Dx. rewrite next_hydro_dead in Dx. exists q. split; [exact Hq|]. split; [congruence|]. rewrite X by exact Dx.
      unfold single_level. destruct (k_single c), (b_nlast (F1 p) =? s_n st3); cbn; congruence.
  - intros Hk. apply Forall2_and_in in Sh. revert Sh. apply F2_impl. intros p q (Hp & _ & X) D A. destruct (X D) as [E1 E2]. clear X.
    exists (ComputeTimestepLevel (b_req p) (s_dtmax st3)). split; [apply CTL_calls_free; [apply Q1, Hp | exact Pd]|].
    rewrite E1, E2. unfold single_level. rewrite Hk. specialize (Hh p Hp D). destruct Hh as (M1 & M2 & M3 & M4 & M5 & M6 & M7).
    unfold F1, next_hydro. unfold at_end in A. rewrite D, (proj2 (Z.eqb_eq _ _)) by lia. rewrite (pow2i_nn (s_lstep st3 - b_level p)) by lia.
    set (w := Z.max _ _). destruct (Z.eqb_spec (b_nstep p) (2 ^ (s_lstep st3 - b_level p))) as [G|G]; cbn [negb b_level b_neib].
    + split; [|split; [contradiction | reflexivity]]. unfold moves.
      pose proof (rem_dvd (s_n st3) (2 * b_nstep p) ltac:(lia)) as Rm.
      split; [|split].
      * intros Hw. rewrite (proj2 (Z.ltb_ge _ _)) by lia. cbn [andb]. now rewrite (proj2 (Z.gtb_lt _ _)) by lia.
      * intros Hw (_ & U1 & U2 & U3). rewrite (proj2 (Z.ltb_lt _ _)), (proj2 (Z.gtb_lt _ _)), (proj2 Rm U3) by lia. reflexivity.
      * intros Hw U. destruct (Z.gtb_spec w (b_level p)); [lia|].
        destruct (Z.ltb_spec w (b_level p)), (Z.gtb_spec (b_level p) 1); cbn [andb]; try reflexivity.
        destruct (Z.rem (s_n st3) (2 * b_nstep p) =? 0) eqn:Er; [|reflexivity]. destruct U. split; [auto|]. split; [lia|]. split; [lia|]. now apply Rm.
    + split; [|split; [reflexivity | intros N; destruct N; exact G]]. unfold moves. split; [lia|]. split; [|lia]. intros _ ([] & _). exact G.
  - intros Hk. apply Forall2_and_in in Sh. revert Sh. apply F2_impl. intros p q (Hp & _ & X) D A. destruct (X D) as [E1 _].
    rewrite E1. unfold single_level. rewrite Hk, (Hl p Hp D A), Z.eqb_refl. reflexivity.
  - apply Forall2_and_in in Ss. revert Ss. apply F2_impl. intros p q (Hp & X) A.
    exists (ComputeTimestepLevel (b_req p) (s_dtmax st3)). split; [apply CTL_calls_free; [apply Q2, Hp | exact Pd]|].
    rewrite X. pose proof (Linv_star _ _ Hd Hs p Hp) as (M1 & M2 & M3 & _). unfold next_star. unfold at_end in A. rewrite (proj2 (Z.eqb_eq _ _)) by lia.
    set (w := Z.max _ _). cbn [b_level]. unfold moves. pose proof (rem_dvd (s_n st3) (2 * b_nstep p) ltac:(lia)) as Rm. split; [|split].
    + intros Hw. rewrite (proj2 (Z.ltb_ge _ _)) by lia. cbn [andb]. now rewrite (proj2 (Z.gtb_lt _ _)) by lia.
    + intros Hw (U1 & U2 & U3). rewrite (proj2 (Z.ltb_lt _ _)), !(proj2 (Z.gtb_lt _ _)), (proj2 Rm U3) by lia. reflexivity.
    + intros Hw U. destruct (Z.gtb_spec w (b_level p)); [lia|].
      destruct (Z.ltb_spec w (b_level p)), (Z.gtb_spec w top), (Z.gtb_spec (b_level p) 1); cbn [andb]; try reflexivity.
      destruct (Z.rem (s_n st3) (2 * b_nstep p) =? 0) eqn:Er; [|reflexivity]. destruct U. split; [lia|]. split; [lia|]. now apply Rm.
Qed.
