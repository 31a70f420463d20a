(** The state after ComputeBlockTimesteps, EndTimestep and whole runs. *)
From Verif Require Import Prelude M_Box M_Level L_Level M_Block S_Block L_Block L_Block2.
From Coq Require Import Reals ZArith List Bool Lia Lra Psatz.
Import ListNotations.
Local Open Scope Z_scope.

(** Particle [q] is particle [p] in the middle of its step, with the clock rescaled from a
    resynchronisation interval of 2^ls ticks to 2^ls' ticks. *)
Definition carried (ls ls' : Z) (p q : bpart) : Prop :=
  b_nlast q * 2 ^ ls = b_nlast p * 2 ^ ls' /\ b_nstep q * 2 ^ ls = b_nstep p * 2 ^ ls' /\
  b_level q = b_level p /\ b_neib q = b_neib p /\ b_dt q = b_dt p /\ b_dtnext q = b_dtnext p /\ b_end q = b_end p.
(** Particle [q] is particle [p] starting a new step. *)
Definition started (dm : R) (n' : Z) (p q : bpart) : Prop :=
  b_nlast q = n' /\ b_end q = true /\ ComputeTimestepLevel (b_req p) dm <= b_level q /\ b_dt q = b_dt p.
Definition kept (p q : bpart) : Prop := b_dead q = b_dead p /\ b_req q = b_req p.

Definition scaled (n ls n' ls' : Z) (f : bpart -> bpart) : Prop :=
  n' * 2 ^ ls = n * 2 ^ ls' /\
  forall p, kept p (f p) /\ b_level (f p) = b_level p /\ b_neib (f p) = b_neib p /\ b_dt (f p) = b_dt p /\
    b_dtnext (f p) = b_dtnext p /\ b_end (f p) = b_end p /\
    (b_nlast p = n -> b_nlast (f p) = n').

Definition rescale (n ls n' ls' old top lmax : Z) (f : bpart -> bpart) : Prop :=
  0 <= n' < 2 ^ ls' /\ n' * 2 ^ ls = n * 2 ^ ls' /\ 0 <= lmax /\ ls' - lmax = ls - old /\
  (forall p, kept p (f p) /\ b_level (f p) = b_level p /\ b_neib (f p) = b_neib p /\ b_dt (f p) = b_dt p /\
    b_dtnext (f p) = b_dtnext p /\ b_end (f p) = b_end p) /\
  (forall p, nxt n ls old top p -> fin n' ls' lmax (restep n' ls' (f p))) /\
  (forall p, nxt n ls old top p -> b_nlast p <> n ->
     b_nlast (f p) * 2 ^ ls = b_nlast p * 2 ^ ls' /\ b_nstep (f p) * 2 ^ ls = b_nstep p * 2 ^ ls' /\ b_nlast (f p) <> n') /\
  (forall p, nxt n ls old top p -> b_nlast p = n -> b_nlast (f p) = n').

(** The three ways levels change (2098-2132) as one statement. *)
Lemma levels_change : forall c n ls old top h s, (k_istep c = 1 \/ k_istep c = 2) -> ls = old + k_istep c - 1 -> 0 <= n < 2 ^ ls ->
  0 <= top -> 0 <= old ->
  exists n' lmax f,
    (if top >? old then
      let f := pow2i (top - old) in (n * f, top, map (live (grow f)) h, map (grow f) s)
    else if (top <=? old - 1) && (old >? 1) && (Z.rem n (pow2i (ls - old + 1)) =? 0) then
      let f := pow2i (old - (old - 1)) in
      (Z.quot n f, old - 1, map (live (shrink f)) h, map (shrink f) s)
    else (n, old, h, s)) = (n', lmax, map (live f) h, map f s) /\
    rescale n ls n' (lmax + k_istep c - 1) old top lmax f /\
    (lmax = old \/ top <= lmax /\ old < lmax \/ lmax = old - 1 /\ (2 ^ k_istep c | n)).
Proof.
  intros c n ls old top h s Hi L Hn Ht Ho. rewrite Z.gtb_ltb. destruct (Z.ltb_spec old top) as [G|G].
  - rewrite pow2i_nn by lia. exists (n * 2 ^ (top - old)), top, (grow (2 ^ (top - old))). split; [reflexivity|].
    replace (top + k_istep c - 1) with (ls + (top - old)) by lia. pose proof (pow2_pos (top - old) ltac:(lia)) as Hf.
    assert (2 ^ (ls + (top - old)) = 2 ^ ls * 2 ^ (top - old)) as E by (apply Z.pow_add_r; lia).
    split; [|lia]. unfold rescale. rewrite E. bsplit; try nia; try lia.
    + intros p. unfold kept, grow; cbn. tauto.
    + intros p N. apply (fin_grow n ls old top p); auto; lia.
    + intros p N Hp. unfold grow; cbn. bsplit; nia.
    + intros p N Hp. unfold grow; cbn. rewrite Hp. reflexivity.
  - destruct (_ && _ && _) eqn:C.
    + apply andb_prop in C as [C C3]. apply andb_prop in C as [C1 C2]. apply Z.leb_le in C1. apply Z.eqb_eq in C3. apply Z.gtb_lt in C2.
      rewrite pow2i_nn in C3 by lia. replace (ls - old + 1) with (k_istep c) in C3 by lia.
      pose proof (pow2_pos (k_istep c) ltac:(lia)). apply dvd_rem in C3; [|lia].
      rewrite pow2i_nn by lia. replace (old - (old - 1)) with 1 by ring. change (2 ^ 1) with 2.
      exists (Z.quot n 2), (old - 1), (shrink 2). split; [reflexivity|].
      replace (old - 1 + k_istep c - 1) with (ls - 1) by lia.
      assert (2 ^ ls = 2 * 2 ^ (ls - 1)) as E. { replace ls with (1 + (ls - 1)) at 1 by ring. apply Z.pow_add_r; lia. }
      assert (2 | n) as D2. { eapply Z.divide_trans; [|exact C3]. change 2 with (2 ^ 1) at 1. apply pow2_dvd. lia. }
      pose proof (quot2 n D2) as Qn. split; [|right; right; split; [reflexivity | exact C3]].
      unfold rescale. rewrite E. bsplit; try nia; try lia.
      * intros p. unfold kept, shrink; cbn. tauto.
      * intros p N. eapply (fin_shrink n ls old top p (k_istep c)); auto; lia.
      * intros p (A & N) Hp. unfold shrink; cbn [set_step b_nlast b_nstep]. destruct N as [(N1 & _)|(N1 & N2 & N3 & N4 & N5 & N6)]; [contradiction|].
        assert (2 | b_nstep p) as Ds. { rewrite N4. change 2 with (2 ^ 1) at 1. apply pow2_dvd. lia. }
        pose proof (quot2 _ Ds) as Qs. assert (2 | b_nlast p) as Dl by (eapply Z.divide_trans; eassumption). pose proof (quot2 _ Dl) as Ql.
        clear N4 N5 Ds Dl D2 C3 E. revert Qn Qs Ql. generalize (Z.quot n 2), (Z.quot (b_nstep p) 2), (Z.quot (b_nlast p) 2), (2 ^ (ls - 1)).
        intros a b d e Qn Qs Ql. bsplit; [rewrite <- Ql; ring | rewrite <- Qs; ring | lia].
      * intros p N Hp. unfold shrink; cbn. rewrite Hp. reflexivity.
    + exists n, old, (fun p => p). split.
      * rewrite map_id. assert (map (live (fun p => p)) h = h) as ->; [|reflexivity]. rewrite <- (map_id h) at 2. apply map_ext. intros p. unfold live. destruct (b_dead p); reflexivity.
      * split; [|left; reflexivity]. replace (old + k_istep c - 1) with ls by lia. unfold rescale. bsplit; try lia.
        all: intros p; unfold kept; try tauto.
        intros N. apply fin_same; try lia. destruct N as (A & N). split; [lia | exact N].
Qed.

Lemma restep_kept : forall n ls p, kept p (restep n ls p) /\ b_level (restep n ls p) = b_level p /\ b_neib (restep n ls p) = b_neib p /\
  b_dt (restep n ls p) = b_dt p /\ b_end (restep n ls p) = b_end p /\ b_nlast (restep n ls p) = b_nlast p /\ b_dtnext (restep n ls p) = b_dtnext p.
Proof. intros. unfold restep, kept. destruct (b_nlast p =? n); cbn; tauto. Qed.

Lemma next_hydro_cases : forall c n ls old dm ts p, b_dead p = false -> mid n ls old p ->
  (n = b_nlast p + b_nstep p /\ b_nlast (next_hydro c n ls dm ts p) = n /\ b_end (next_hydro c n ls dm ts p) = true /\
   ComputeTimestepLevel (b_req p) dm <= b_level (next_hydro c n ls dm ts p) /\
   b_dt (next_hydro c n ls dm ts p) = b_dt p /\ b_dtnext (next_hydro c n ls dm ts p) = (IZR (pow2i (ls - b_level (next_hydro c n ls dm ts p))) * ts)%R) \/
  n <> b_nlast p + b_nstep p /\ next_hydro c n ls dm ts p = p /\ b_nlast p <> n.
Proof.
  intros c n ls old dm ts p Dd M. unfold next_hydro. rewrite Dd. destruct M as (A & B & C & _).
  destruct (Z.eqb_spec (n - b_nlast p) (b_nstep p)) as [e|e]; [left | right; split; [lia | split; [reflexivity | lia]]].
  split; [lia|]. set (ctl := ComputeTimestepLevel (b_req p) dm). destruct (negb _); cbn; (bsplit; try reflexivity); [lia|].
  destruct (Z.ltb_spec (Z.max ctl (b_neib p - k_ldm c)) (b_level p)); cbn [andb].
  + destruct (_ && _); [lia|]. destruct (Z.gtb_spec (Z.max ctl (b_neib p - k_ldm c)) (b_level p)); lia.
  + destruct (Z.gtb_spec (Z.max ctl (b_neib p - k_ldm c)) (b_level p)); lia.
Qed.
Lemma next_star_cases : forall n ls lh old dm ts p, mid n ls old p ->
  (n = b_nlast p + b_nstep p /\ b_nlast (next_star n ls lh dm ts p) = n /\ b_end (next_star n ls lh dm ts p) = true /\
   ComputeTimestepLevel (b_req p) dm <= b_level (next_star n ls lh dm ts p) /\ lh <= b_level (next_star n ls lh dm ts p) /\
   b_dt (next_star n ls lh dm ts p) = b_dt p /\ b_dtnext (next_star n ls lh dm ts p) = (IZR (pow2i (ls - b_level (next_star n ls lh dm ts p))) * ts)%R) \/
  n <> b_nlast p + b_nstep p /\ next_star n ls lh dm ts p = p /\ b_nlast p <> n.
Proof.
  intros n ls lh old dm ts p M. unfold next_star. destruct M as (A & B & C & _).
  destruct (Z.eqb_spec (n - b_nlast p) (b_nstep p)) as [e|e]; [left | right; split; [lia | split; [reflexivity | lia]]].
  split; [lia|]. set (ctl := ComputeTimestepLevel (b_req p) dm). cbn. (bsplit; try reflexivity).
  - destruct (Z.ltb_spec (Z.max ctl lh) (b_level p)); cbn [andb].
    + destruct (_ && _ && _); [lia|]. destruct (Z.gtb_spec (Z.max ctl lh) (b_level p)); lia.
    + destruct (Z.gtb_spec (Z.max ctl lh) (b_level p)); lia.
  - destruct (Z.ltb_spec (Z.max ctl lh) (b_level p)); cbn [andb].
    + destruct (_ && _ && _); [lia|]. destruct (Z.gtb_spec (Z.max ctl lh) (b_level p)); lia.
    + destruct (Z.gtb_spec (Z.max ctl lh) (b_level p)); lia.
Qed.
Lemma single_cases : forall c n lh p, b_level p <= lh ->
  b_nlast (single_level c n lh p) = b_nlast p /\ b_end (single_level c n lh p) = b_end p /\ b_dt (single_level c n lh p) = b_dt p /\
  b_dtnext (single_level c n lh p) = b_dtnext p /\
  b_level p <= b_level (single_level c n lh p) /\ (b_nlast p <> n -> single_level c n lh p = p) /\
  (k_single c = false -> single_level c n lh p = p).
Proof.
  intros. unfold single_level. destruct (k_single c); [|bsplit; auto; lia]. destruct (Z.eqb_spec (b_nlast p) n); cbn; bsplit; auto; try lia; try contradiction; discriminate.
Qed.

(** What one call does to one particle. *)
Definition step_rel (ls n n' ls' : Z) (dm : R) (p q : bpart) : Prop :=
  kept p q /\ ((n = b_nlast p + b_nstep p /\ started dm n' p q) \/
               (n <> b_nlast p + b_nstep p /\ carried ls ls' p q)).


Lemma Linv_star : forall l P, Forall (fun p => b_dead p = false) l -> Linv l P -> forall p, In p l -> P p.
Proof. intros l P F H p Hp. rewrite Forall_forall in F. auto. Qed.

Lemma CBT_next_ok : forall c st, conf_ok c -> MidJc c st -> s_n st <> s_nresync st ->
  let st' := CBT_next c st in
  clock c st' /\ s_n st' < s_nresync st' /\ s_n st' * 2 ^ s_lstep st = s_n st * 2 ^ s_lstep st' /\
  s_dtmax st' = s_dtmax st /\ s_t st' = s_t st /\
  exists G Gs, s_h st' = map G (s_h st) /\ s_s st' = map Gs (s_s st) /\
    (forall p, b_dead p = true -> G p = p) /\
    (forall p, In p (s_h st) -> b_dead p = false ->
       fin (s_n st') (s_lstep st') (s_lmax st') (G p) /\ J (k_ldm c) (s_lmax st') (G p) /\
       step_rel (s_lstep st) (s_n st) (s_n st') (s_lstep st') (s_dtmax st) p (G p) /\
       (k_single c = false -> at_end (s_n st) p -> b_dtnext (G p) = (IZR (pow2i (s_lstep st - b_level (G p))) * s_ts st)%R)) /\
    (forall p, In p (s_s st) ->
       fin (s_n st') (s_lstep st') (s_lmax st') (Gs p) /\
       step_rel (s_lstep st) (s_n st) (s_n st') (s_lstep st') (s_dtmax st) p (Gs p) /\
       (at_end (s_n st) p -> b_dtnext (Gs p) = (IZR (pow2i (s_lstep st - b_level (Gs p))) * s_ts st)%R /\
         forall q, In q (s_h st) -> b_dead q = false -> b_level (G q) <= b_level (Gs p))).
Proof.
  intros c st Hc ((K & Hn & Hh & Hs & Hd & Q1 & Q2) & HJ) Nr. pose proof (ls_ge _ _ Hc K) as L.
  pose proof K as (K1 & K2 & K3 & K4 & K5 & K6). destruct Hc as (Hc1 & Hc2 & Hc3).
  unfold CBT_next. cbv zeta.
  set (F1 := next_hydro c (s_n st) (s_lstep st) (s_dtmax st) (s_ts st)).
  set (h1 := map F1 (s_h st)). set (lmaxh := maxlev h1 0).
  set (F2 := next_star (s_n st) (s_lstep st) lmaxh (s_dtmax st) (s_ts st)).
  set (s1 := map F2 (s_s st)). set (top := Z.max lmaxh (maxlev s1 0)).
  assert (0 <= lmaxh) as Hlh by apply maxlev_ge. assert (lmaxh <= top) as Hlt by (unfold top; clear; lia).
  assert (forall p, In p (s_h st) -> b_dead p = false -> b_level (F1 p) <= lmaxh) as Hl1.
  { intros p Hp D. apply maxlev_in; [apply in_map, Hp | unfold F1; rewrite next_hydro_dead; exact D]. }
  assert (forall p, In p (s_s st) -> b_level (F2 p) <= top) as Hl2.
  { intros p Hp. apply Z.le_trans with (maxlev s1 0); [|unfold top; clear; lia]. apply maxlev_in; [apply in_map, Hp | unfold F2; rewrite next_star_dead].
    rewrite Forall_forall in Hd. auto. }
  set (F3 := live (single_level c (s_n st) lmaxh)). set (h2 := map F3 h1).
  destruct (levels_change c (s_n st) (s_lstep st) (s_lmax st) top h2 s1) as (n' & lmax & f & E & RS & LC); [exact Hc2 | exact K2 | split; [exact K1 | rewrite <- K4; clear - Hn Nr; lia] | clear - Hlh; unfold top; lia | exact K3 |].
  cbv zeta in E. change (Z.max (maxlev h1 0) (maxlev s1 0)) with top.
  rewrite E. cbn [s_n s_nresync s_lmax s_lstep s_dtmax s_ts s_t s_h s_s]. unfold h2, h1, s1 in *. clear E.
  set (ls' := lmax + k_istep c - 1) in *.
  destruct RS as (R1 & R2 & R3 & R4 & R5 & R6 & R7 & R8).
  assert (0 <= ls') as Hls' by (unfold ls'; lia). rewrite (pow2i_nn ls' Hls').
  bsplit; try reflexivity; try lia.
  { unfold clock; cbn. bsplit; try reflexivity; try lia. exact K5. }
  exists (fun p => live (restep n' ls') (live f (F3 (F1 p)))), (fun p => restep n' ls' (f (F2 p))).
  split; [rewrite !map_map; reflexivity|]. split; [rewrite !map_map; reflexivity|].
  assert (forall p, b_dead p = false -> live (restep n' ls') (live f (F3 (F1 p))) = restep n' ls' (f (single_level c (s_n st) lmaxh (F1 p)))) as EG.
  { intros p D. assert (b_dead (F1 p) = false) as D1 by (unfold F1; rewrite next_hydro_dead; exact D).
    assert (b_dead (single_level c (s_n st) lmaxh (F1 p)) = false) as D2 by (rewrite single_dead; exact D1).
    assert (b_dead (f (single_level c (s_n st) lmaxh (F1 p))) = false) as D3 by (rewrite (proj1 (proj1 (R5 _))); exact D2).
    unfold F3, live. rewrite D1, D2, D3. reflexivity. }
  split; [|split].
  - intros p D. assert (F1 p = p) as -> by (unfold F1, next_hydro; rewrite D; reflexivity). unfold F3, live. rewrite !D. reflexivity.
  - intros p Hp D. rewrite (EG p D). specialize (Hh p Hp D). specialize (HJ p Hp D).
    pose proof (next_hydro_nxt c (s_n st) (s_lstep st) (s_lmax st) (s_dtmax st) (s_ts st) p ltac:(lia) D Hh top ltac:(fold F1; specialize (Hl1 p Hp D); clear - Hl1 Hlt; lia)) as N. fold F1 in N.
    pose proof (Hl1 p Hp D) as Hlp.
    pose proof (single_nxt c _ _ _ _ lmaxh _ (conj Hlp Hlt) N) as N'.
    pose proof (next_hydro_J c _ (s_lstep st) _ (s_dtmax st) (s_ts st) p Hc3 D HJ) as HJ'. fold F1 in HJ'.
    pose proof (single_J c _ _ _ _ lmaxh _ Hlp HJ') as HJ2.
    destruct (single_cases c (s_n st) lmaxh (F1 p) Hlp) as (S1 & S2 & S3 & S4 & S5 & S6 & S7).
    set (p2 := single_level c (s_n st) lmaxh (F1 p)) in *.
    destruct (restep_kept n' ls' (f p2)) as ((T1 & T2) & T3 & T4 & T5 & T6 & T7 & T8).
    destruct (R5 p2) as ((U1 & U2) & U3 & U4 & U5 & U6 & U7).
    split; [apply R6, N'|]. split; [|split].
    + unfold J. rewrite T3, T4, U3, U4. intros G. destruct (HJ2 G) as [G1 G2].
      destruct LC as [ -> |[LC|[LC1 LC2]]]; [lia | lia |]. specialize (G2 LC2). lia.
    + split.
      * unfold kept. rewrite T1, T2, U1, U2. unfold p2. rewrite single_dead, single_req. unfold F1. rewrite next_hydro_dead, next_hydro_req. auto.
      * destruct (next_hydro_cases c _ _ _ (s_dtmax st) (s_ts st) p D Hh) as [(C1 & C2 & C3 & C4 & C5 & C6)|(C1 & C2 & C3)]; fold F1 in C2; [fold F1 in C3, C4, C5, C6 | idtac].
        -- left. split; [exact C1|]. unfold started. rewrite T7, T6, T5, T3, U3, U5, U7. bsplit; try congruence; [|lia].
           apply R8; [exact N' | congruence].
        -- right. split; [exact C1|]. assert (p2 = p) as E2 by (rewrite S6; congruence).
           destruct (R7 p2 N' ltac:(rewrite E2; exact C3)) as (V1 & V2 & V3). unfold carried.
           rewrite T7, T3, T4, T5, T6, T8, U3, U4, U5, U6, U7. unfold restep. destruct (Z.eqb_spec (b_nlast (f p2)) n'); [contradiction|].
           rewrite V1, V2, E2. tauto.
    + intros Hk Ha. rewrite T8, T3, U3, U6. assert (p2 = F1 p) as -> by (apply S7, Hk).
      destruct (next_hydro_cases c _ _ _ (s_dtmax st) (s_ts st) p D Hh) as [(C1 & C2 & C3 & C4 & C5 & C6)|(C1 & _)]; [exact C6|]. contradiction.
  - intros p Hp. pose proof (Linv_star _ _ Hd Hs p Hp) as M.
    pose proof (next_star_nxt (s_n st) (s_lstep st) lmaxh (s_lmax st) (s_dtmax st) (s_ts st) p ltac:(lia) Hlh M top ltac:(fold F2; apply Hl2, Hp)) as N. fold F2 in N.
    destruct (restep_kept n' ls' (f (F2 p))) as ((T1 & T2) & T3 & T4 & T5 & T6 & T7 & T8).
    destruct (R5 (F2 p)) as ((U1 & U2) & U3 & U4 & U5 & U6 & U7).
    split; [apply R6, N|]. split.
    + split.
      * unfold kept. rewrite T1, T2, U1, U2. unfold F2. rewrite next_star_dead, next_star_req. auto.
      * destruct (next_star_cases _ _ lmaxh _ (s_dtmax st) (s_ts st) p M) as [(C1 & C2 & C3 & C4 & C5 & C6 & C7)|(C1 & C2 & C3)]; fold F2 in C2; [fold F2 in C3, C4, C5, C6, C7 | idtac].
        -- left. split; [exact C1|]. unfold started. rewrite T7, T6, T5, T3, U3, U5, U7. bsplit; try congruence; try exact C4.
           apply R8; [exact N | congruence].
        -- right. split; [exact C1|].
           destruct (R7 (F2 p) N ltac:(rewrite C2; exact C3)) as (V1 & V2 & V3). unfold carried.
           rewrite T7, T3, T4, T5, T6, T8, U3, U4, U5, U6, U7. unfold restep. destruct (Z.eqb_spec (b_nlast (f (F2 p))) n'); [contradiction|].
           rewrite V1, V2, C2. tauto.
    + intros Ha. destruct (next_star_cases _ _ lmaxh _ (s_dtmax st) (s_ts st) p M) as [(C1 & C2 & C3 & C4 & C5 & C6 & C7)|(C1 & _)]; [|contradiction].
      fold F2 in C7, C5. split; [rewrite T8, T3, U3, U6; exact C7|]. intros q Hq D. rewrite (EG q D).
      destruct (restep_kept n' ls' (f (single_level c (s_n st) lmaxh (F1 q)))) as (_ & W & _). rewrite W, T3, U3.
      destruct (R5 (single_level c (s_n st) lmaxh (F1 q))) as (_ & W' & _). rewrite W'.
      pose proof (Hl1 q Hq D). unfold single_level. destruct (k_single c), (b_nlast (F1 q) =? s_n st); cbn; lia.
Qed.
