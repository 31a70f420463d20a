(** The stored step length: when it is right. *)
From Verif Require Import Prelude M_Box M_Level L_Level M_Block S_Block L_Block L_Block2 L_Block3 L_Block4 L_Block5.
From Coq Require Import Reals ZArith List Bool Lia Lra Psatz.
Import ListNotations.
Local Open Scope Z_scope.

Lemma Forall2_map2 : forall A (P Q : A -> A -> Prop) f l l', Forall2 P l l' -> (forall a b, In a l -> P a b -> Q a (f b)) -> Forall2 Q l (map f l').
Proof. intros A P Q f l l' H HQ. apply Forall2_and_in in H. eapply Forall2_map_r; [exact H|]. cbn. intros a b [H1 H2]. auto. Qed.
Lemma end_dt : forall n p, b_end p = true -> b_dt (end_step n p) = b_dtnext p /\ b_nstep (end_step n p) = b_nstep p.
Proof. intros n p H. unfold end_step. rewrite H. split; reflexivity. Qed.
Lemma end_off : forall n p, b_end p = false -> end_step n p = p.
Proof. intros n p H. unfold end_step. rewrite H. reflexivity. Qed.

Lemma stored_iff : forall ts p, stored_ok ts p <-> b_dt p = (IZR (b_nstep p) * ts)%R.
Proof. intros. unfold stored_ok, t_end, t_start. rewrite plus_IZR. split; intros ->; ring. Qed.

Lemma stored_partial : forall c st st3, conf_ok c -> k_single c = false -> run c KDK_Check st -> choosing c KDK_Check st st3 ->
  let st' := EndTimesteps (ComputeBlockTimesteps c st3) in
  (s_n st3 = s_nresync st3 -> k_istep c = 1 ->
     (forall q, In q (s_h st') -> b_dead q = false -> stored_ok (s_ts st') q) /\ (forall q, In q (s_s st') -> stored_ok (s_ts st') q)) /\
  (s_n st3 <> s_nresync st3 ->
     Forall2 (fun p q => b_dead p = false ->
        (at_end (s_n st3) p -> b_level q <= s_lstep st3 -> stored_ok (s_ts st') q) /\
        (~ at_end (s_n st3) p -> stored_ok (s_ts st3) p -> stored_ok (s_ts st') q)) (s_h st3) (s_h st') /\
     Forall2 (fun p q =>
        (at_end (s_n st3) p -> b_level q <= s_lstep st3 -> stored_ok (s_ts st') q) /\
        (~ at_end (s_n st3) p -> stored_ok (s_ts st3) p -> stored_ok (s_ts st') q)) (s_s st3) (s_s st')).
Proof.
  intros c st st3 Hc Hk Hr Ch. cbv zeta. pose proof (choosing_mid c st st3 Hc Hr Ch) as M. unfold ComputeBlockTimesteps. split.
  - intros E Hi. rewrite (proj2 (Z.eqb_eq _ _) E). destruct M as ((_ & _ & _ & _ & Hd & Q1 & Q2) & _).
    destruct (CBT_resync_ok c st3 Hc Q1 Q2 Hd) as (K & En & Hr' & Et & El & P0 & Ets & Fh & Fs).
    rewrite Hi in Ets. cbn in Ets. rewrite Rmult_1_r in Ets. cbn [EndTimesteps s_ts s_h s_s]. rewrite Ets. split.
    + intros q Hq D. apply in_map_iff in Hq as (q0 & <- & Hq). rewrite live_dead in D by apply end_dead. rewrite (live_alive _ _ D).
      destruct (Forall2_in_r _ _ _ _ _ Fh Hq) as (p & Hp & (X1 & _) & X). rewrite X1 in D. destruct (X D) as (_ & _ & _ & Y1 & _ & Y2).
      apply stored_iff. destruct (end_dt (s_n (CBT_resync c st3)) q0 Y1) as [-> ->]. exact Y2.
    + intros q Hq. apply in_map_iff in Hq as (q0 & <- & Hq).
      destruct (Forall2_in_r _ _ _ _ _ Fs Hq) as (p & Hp & _ & _ & _ & Y1 & _ & Y2).
      apply stored_iff. destruct (end_dt (s_n (CBT_resync c st3)) q0 Y1) as [-> ->]. exact Y2.
  - intros Nr. rewrite (proj2 (Z.eqb_neq _ _) Nr). destruct (CBT_next_ok c st3 Hc M Nr) as (K & Hn & En & Edm & Et & G & Gs & EG & EGs & HD & HG & HGs).
    pose proof (ls_ge _ _ Hc K) as L'. destruct M as ((K1 & _ & Hh & Hs & Hd & _) & _). pose proof (ls_ge _ _ Hc K1) as L1.
    destruct K as (X1 & X2 & X3 & X4 & X5 & X6). destruct K1 as (Y1 & Y2 & Y3 & Y4 & Y5 & Y6).
    set (s' := CBT_next c st3) in *.
    assert (forall p q, mid (s_n st3) (s_lstep st3) (s_lmax st3) p -> fin (s_n s') (s_lstep s') (s_lmax s') q ->
       step_rel (s_lstep st3) (s_n st3) (s_n s') (s_lstep s') (s_dtmax st3) p q ->
       (at_end (s_n st3) p -> b_dtnext q = (IZR (pow2i (s_lstep st3 - b_level q)) * s_ts st3)%R) ->
       (at_end (s_n st3) p -> b_level (end_step (s_n s') q) <= s_lstep st3 -> stored_ok (s_ts s') (end_step (s_n s') q)) /\
       (~ at_end (s_n st3) p -> stored_ok (s_ts st3) p -> stored_ok (s_ts s') (end_step (s_n s') q))) as A.
    { intros p q Mp F (_ & S) Dn. split.
      - intros Ae Hl. rewrite end_level in Hl. destruct S as [(_ & S)|(S & _)]; [|contradiction]. destruct S as (S1 & S2 & _).
        apply stored_iff. destruct (end_dt (s_n s') q S2) as [-> ->]. rewrite (Dn Ae). destruct F as (F1 & _ & _ & _ & F5 & _).
        rewrite F5, X6, X4, Edm, Y6, Y4, pow2i_nn by lia. rewrite !duration by lia. reflexivity.
      - intros Ae St. destruct S as [(S & _)|(_ & S)]; [contradiction|]. destruct S as (S1 & S2 & S3 & S4 & S5 & S6 & S7).
        destruct Mp as (_ & _ & _ & _ & _ & _ & Me). rewrite end_off by congruence. apply stored_iff in St. apply stored_iff.
        rewrite S5, St, X6, X4, Edm, Y6, Y4. symmetry. apply IZR_ratio; lia. }
    cbn [EndTimesteps s_ts s_h s_s]. rewrite EG, EGs, !map_map. split; apply Forall2_map_self.
    + intros p Hp D. destruct (HG p Hp D) as (F & _ & S & Dn). rewrite live_alive by (destruct S as ((S & _) & _); congruence).
      apply A; auto.
    + intros p Hp. destruct (HGs p Hp) as (F & S & Dn). apply A; auto; [eapply Linv_star; eassumption|]. intros Ae. apply (Dn Ae).
Qed.

Lemma stars_finest : forall c st st3, conf_ok c -> run c KDK_Check st -> choosing c KDK_Check st st3 -> s_n st3 <> s_nresync st3 ->
  let st' := ComputeBlockTimesteps c st3 in
  Forall2 (fun p q => at_end (s_n st3) p -> forall r, In r (s_h st') -> b_dead r = false -> b_level r <= b_level q) (s_s st3) (s_s st').
Proof.
  intros c st st3 Hc Hr Ch Nr. cbv zeta. pose proof (choosing_mid c st st3 Hc Hr Ch) as M. unfold ComputeBlockTimesteps.
  rewrite (proj2 (Z.eqb_neq _ _) Nr). destruct (CBT_next_ok c st3 Hc M Nr) as (K & Hn & En & Edm & Et & G & Gs & EG & EGs & HD & HG & HGs).
  rewrite EGs. apply Forall2_map_self. intros p Hp Ae r Hin D. rewrite EG in Hin. apply in_map_iff in Hin as (q & <- & Hq).
  destruct (HGs p Hp) as (_ & _ & X). destruct (X Ae) as [_ X']. apply X'; [exact Hq|].
  destruct (b_dead q) eqn:Dq; [rewrite (HD q Dq) in D; congruence | reflexivity].
Qed.
