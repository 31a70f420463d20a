(** Proofs about the block timestep scheme. *)
From Verif Require Import Prelude M_Box M_Level L_Level M_Block S_Block.
From Coq Require Import Reals ZArith List Bool Lia Lra Psatz.
Import ListNotations.
Local Open Scope Z_scope.

Lemma pow2_pos : forall k, 0 <= k -> 0 < 2 ^ k.
Proof. intros. apply Z.pow_pos_nonneg; lia. Qed.
Lemma pow2i_nn : forall e, 0 <= e -> pow2i e = 2 ^ e.
Proof. intros e H. unfold pow2i. destruct (Z.ltb_spec e 0); [lia | reflexivity]. Qed.
Lemma pow2_dvd : forall a b, 0 <= a <= b -> (2 ^ a | 2 ^ b).
Proof. intros a b H. exists (2 ^ (b - a)). rewrite <- Z.pow_add_r by lia. f_equal. lia. Qed.
Lemma pow2_le : forall a b, a <= b -> 2 ^ a <= 2 ^ b.
Proof. intros. apply Z.pow_le_mono_r; lia. Qed.
Lemma dvd_rem : forall a b, b <> 0 -> (Z.rem a b = 0 <-> (b | a)).
Proof. intros. apply Z.rem_divide. assumption. Qed.
Lemma quot2 : forall x, (2 | x) -> 2 * Z.quot x 2 = x.
Proof.
  intros x [k ->]. rewrite Z.quot_mul by lia. lia.
Qed.
Lemma dvd_half : forall k x, 0 <= k -> (2 ^ (k + 1) | x) -> (2 ^ k | Z.quot x 2).
Proof.
  intros k x H [m ->]. exists m. rewrite Z.pow_add_r by lia. replace (m * (2 ^ k * 2 ^ 1)) with (m * 2 ^ k * 2) by ring.
  apply Z.quot_mul. lia.
Qed.

Lemma maxlev_ge : forall l m, m <= maxlev l m.
Proof.
  unfold maxlev. induction l as [|p l IH]; intros m; cbn [fold_left]; [lia|].
  destruct (b_dead p); [apply IH|]. specialize (IH (Z.max m (b_level p))). lia.
Qed.
Lemma maxlev_in : forall l m p, In p l -> b_dead p = false -> b_level p <= maxlev l m.
Proof.
  unfold maxlev. induction l as [|q l IH]; intros m p H D; [destruct H|]. destruct H as [ -> |H]; cbn [fold_left].
  - rewrite D. pose proof (maxlev_ge l (Z.max m (b_level p))) as G. unfold maxlev in G. lia.
  - apply IH; assumption.
Qed.
Lemma maxlev_le : forall l m b, m <= b -> (forall p, In p l -> b_dead p = false -> b_level p <= b) -> maxlev l m <= b.
Proof.
  unfold maxlev. induction l as [|q l IH]; intros m b Hm H; cbn [fold_left]; [exact Hm|].
  apply IH; [|intros p Hp; apply H; right; exact Hp].
  destruct (b_dead q) eqn:D; [exact Hm|]. specialize (H q (or_introl eq_refl) D). lia.
Qed.

(** ** Invariants of one particle *)

(** Before ComputeBlockTimesteps (clock advanced). *)
Definition mid (n ls lmax : Z) (p : bpart) : Prop :=
  0 <= b_level p <= lmax /\ 0 <= b_nlast p < n /\ n <= b_nlast p + b_nstep p /\
  (2 ^ (ls - b_level p) | b_nlast p) /\ (2 ^ (ls - b_level p) | b_nstep p) /\
  (b_nstep p = 2 ^ (ls - b_level p) \/ n = b_nlast p + b_nstep p) /\ b_end p = false.
(** After a pass. *)
Definition inv (n ls lmax : Z) (p : bpart) : Prop :=
  0 <= b_level p <= lmax /\ 0 <= b_nlast p <= n /\ n < b_nlast p + b_nstep p /\
  (b_nstep p | b_nlast p) /\ b_nstep p = 2 ^ (ls - b_level p) /\ b_end p = false.
(** levelneib never asks for a level that does not exist. *)
Definition J (ldm lmax : Z) (p : bpart) : Prop := b_neib p - b_level p > ldm -> b_neib p - ldm <= lmax.
Definition Jc (ist ldm n lmax : Z) (p : bpart) : Prop :=
  b_neib p - b_level p > ldm -> n <> b_nlast p + b_nstep p ->
  b_neib p - ldm <= lmax /\ ((2 ^ ist | n) -> b_neib p - ldm <= lmax - 1).
Definition livep (P : bpart -> Prop) (p : bpart) : Prop := b_dead p = false -> P p.

Definition Linv (l : list bpart) (P : bpart -> Prop) : Prop := forall p, In p l -> b_dead p = false -> P p.

(** State invariants. *)
Definition clock (c : bconf) (st : bstate) : Prop :=
  0 <= s_n st /\ s_lstep st = s_lmax st + k_istep c - 1 /\ 0 <= s_lmax st /\
  s_nresync st = 2 ^ s_lstep st /\ (0 < s_dtmax st)%R /\ s_ts st = (s_dtmax st / IZR (s_nresync st))%R.
Definition Req (l : list bpart) : Prop := forall p, In p l -> (0 < b_req p)%R.
Definition Inv (c : bconf) (st : bstate) : Prop :=
  clock c st /\ s_n st < s_nresync st /\
  Linv (s_h st) (inv (s_n st) (s_lstep st) (s_lmax st)) /\ Linv (s_h st) (J (k_ldm c) (s_lmax st)) /\
  Linv (s_s st) (inv (s_n st) (s_lstep st) (s_lmax st)) /\
  Forall (fun p => b_dead p = false) (s_s st) /\ Req (s_h st) /\ Req (s_s st).
Definition Mid (c : bconf) (st : bstate) : Prop :=
  clock c st /\ s_n st <= s_nresync st /\
  Linv (s_h st) (mid (s_n st) (s_lstep st) (s_lmax st)) /\
  Linv (s_s st) (mid (s_n st) (s_lstep st) (s_lmax st)) /\
  Forall (fun p => b_dead p = false) (s_s st) /\ Req (s_h st) /\ Req (s_s st).
Definition MidJ (c : bconf) (st : bstate) : Prop := Mid c st /\ Linv (s_h st) (J (k_ldm c) (s_lmax st)).
Definition MidJc (c : bconf) (st : bstate) : Prop :=
  Mid c st /\ Linv (s_h st) (Jc (k_istep c) (k_ldm c) (s_n st) (s_lmax st)).

Ltac bsplit := repeat match goal with |- _ /\ _ => split end.

Lemma ls_ge : forall c st, conf_ok c -> clock c st -> s_lmax st <= s_lstep st <= s_lmax st + 1.
Proof. intros c st (_ & Hi & _) (_ & E & _). lia. Qed.

(** ** tick *)
Lemma inv_mid : forall n ls lmax p, inv n ls lmax p -> mid (n + 1) ls lmax p.
Proof.
  intros n ls lmax p (A & B & C & D & E & F). unfold mid. rewrite <- E. bsplit; try lia; try assumption.
  apply Z.divide_refl.
Qed.
Lemma tick_mid : forall c st, Inv c st -> MidJ c (tick st).
Proof.
  intros c st (K & Hn & Hh & Hj & Hs & Hd & Q1 & Q2). unfold tick. split; [|exact Hj].
  destruct K as (K1 & K2 & K3 & K4 & K5 & K6). unfold Mid, clock; cbn [s_n s_nresync s_lmax s_lstep s_dtmax s_ts s_t s_h s_s].
  bsplit; try assumption; try lia; intros p Hp D; apply inv_mid; auto.
Qed.

(** ** levelneib updates *)
Lemma neib_mid : forall n ls lmax top p q, neib_part top p q -> mid n ls lmax p -> mid n ls lmax q.
Proof. intros n ls lmax top p q (m & _ & ->) H. exact H. Qed.
Lemma Forall2_in_r : forall A (P : A -> A -> Prop) l l' q, Forall2 P l l' -> In q l' -> exists p, In p l /\ P p q.
Proof.
  intros A P l l' q H. induction H as [|a b l l' H _ IH]; intros []; [subst b; exists a; split; [left; reflexivity | exact H]|].
  destruct (IH H0) as (p & Hp & Hq). exists p. split; [right; exact Hp | exact Hq].
Qed.
Lemma neib_dead : forall top p q, neib_part top p q -> b_dead q = b_dead p.
Proof. intros top p q (m & _ & ->). reflexivity. Qed.
Lemma top_level_le : forall c st, Mid c st -> top_level st <= s_lmax st.
Proof.
  intros c st ((K1 & K2 & K3 & _) & _ & Hh & Hs & _). unfold top_level.
  apply Z.max_lub; (apply maxlev_le; [exact K3 |]); intros p Hp D; [destruct (Hh p Hp D) | destruct (Hs p Hp D)]; lia.
Qed.
Lemma neibs_Mid : forall c st st', neibs st st' -> Mid c st -> Mid c st'.
Proof.
  intros c st st' [h F] M. destruct M as (K & Hn & Hh & Hs & Hd & Q1 & Q2). unfold Mid, with_h, clock; cbn.
  bsplit; try assumption; try apply K.
  - intros q Hq D. destruct (Forall2_in_r _ _ _ _ _ F Hq) as (p & Hp & Hn').
    eapply neib_mid; [exact Hn'|]. apply Hh; [exact Hp|]. rewrite <- (neib_dead _ _ _ Hn'). exact D.
  - intros q Hq. destruct (Forall2_in_r _ _ _ _ _ F Hq) as (p & Hp & (m & _ & ->)). cbn. apply Q1, Hp.
Qed.
Lemma neibs_J : forall c st st', conf_ok c -> neibs st st' -> MidJ c st -> MidJ c st'.
Proof.
  intros c st st' Hc N (M & HJ). split; [eapply neibs_Mid; eassumption|].
  pose proof (top_level_le _ _ M) as T. destruct N as [h F]. intros q Hq D. unfold with_h, J in *; cbn in *.
  destruct (Forall2_in_r _ _ _ _ _ F Hq) as (p & Hp & (m & Hm & ->)). cbn in *. specialize (HJ p Hp D). unfold conf_ok in Hc.
  unfold J in HJ. lia.
Qed.
Lemma neibs_Jc : forall c st st', conf_ok c -> neibs st st' -> MidJc c st -> MidJc c st'.
Proof.
  intros c st st' Hc N (M & HJ). split; [eapply neibs_Mid; eassumption|].
  pose proof (top_level_le _ _ M) as T. destruct N as [h F]. intros q Hq D. unfold with_h, Jc in *; cbn in *.
  destruct (Forall2_in_r _ _ _ _ _ F Hq) as (p & Hp & (m & Hm & ->)). cbn in *. specialize (HJ p Hp D). unfold conf_ok in Hc.
  unfold Jc in HJ. intros H1 H2. destruct (Z_le_gt_dec m (s_lmax st)) as [L|G]; [lia|].
  destruct HJ as [H3 H4]; [lia | exact H2 |]. split; [lia|]. intros H5. specialize (H4 H5). lia.
Qed.

(** ** The limiter *)
Definition kcheck (ldm ls n : Z) (p : bpart) : bpart :=
  if b_dead p then p else if n - b_nlast p =? b_nstep p then p else
  if b_neib p - b_level p >? ldm then
    if Z.rem (n - b_nlast p) (2 ^ (ls - (b_neib p - ldm))) =? 0
    then set_level (b_neib p - ldm) (set_step (n - b_nlast p) (b_nlast p) p) else p
  else p.
Definition kchanged (ldm ls n : Z) (p : bpart) : bool :=
  negb (b_dead p) && negb (n - b_nlast p =? b_nstep p) && (b_neib p - b_level p >? ldm) &&
  (Z.rem (n - b_nlast p) (2 ^ (ls - (b_neib p - ldm))) =? 0).

Lemma KDK_Check_eq : forall ldm ls n lmax p, lmax <= ls -> livep (mid n ls lmax) p -> livep (J ldm lmax) p ->
  KDK_Check ldm ls n p = Some (kcheck ldm ls n p, kchanged ldm ls n p).
Proof.
  intros ldm ls n lmax p L M HJ. unfold KDK_Check, kcheck, kchanged, livep in *.
  destruct (b_dead p); [reflexivity|]. specialize (M eq_refl). specialize (HJ eq_refl). destruct M as (A & B & C & _).
  destruct (Z.eqb_spec (n - b_nlast p) (b_nstep p)); [reflexivity|]. rewrite !Z.gtb_ltb.
  destruct (Z.ltb_spec ldm (b_neib p - b_level p)); [|reflexivity]. unfold J in HJ.
  rewrite pow2i_nn by lia. pose proof (pow2_pos (ls - (b_neib p - ldm)) ltac:(lia)).
  destruct (Z.eqb_spec (2 ^ (ls - (b_neib p - ldm))) 0); [lia|].
  destruct (Z.eqb_spec (Z.rem (n - b_nlast p) (2 ^ (ls - (b_neib p - ldm)))) 0); [|reflexivity].
  destruct (Z.ltb_spec 0 (n - b_nlast p)); [reflexivity | lia].
Qed.

Lemma kcheck_mid : forall ldm ls n lmax p, 0 <= ldm -> lmax <= ls -> mid n ls lmax p -> J ldm lmax p ->
  mid n ls lmax (kcheck ldm ls n p).
Proof.
  intros ldm ls n lmax p Hl L M HJ. pose proof M as (A & B & C & D1 & D2 & E & F). unfold kcheck.
  destruct (b_dead p); [exact M|]. destruct (Z.eqb_spec (n - b_nlast p) (b_nstep p)); [exact M|].
  rewrite Z.gtb_ltb. destruct (Z.ltb_spec ldm (b_neib p - b_level p)); [|exact M].
  destruct (Z.eqb_spec (Z.rem (n - b_nlast p) (2 ^ (ls - (b_neib p - ldm)))) 0) as [R|R]; [|exact M].
  unfold J in HJ. pose proof (pow2_pos (ls - (b_neib p - ldm)) ltac:(lia)).
  apply dvd_rem in R; [|lia]. unfold mid, set_level, set_step; cbn. bsplit; try lia; try assumption.
  eapply Z.divide_trans; [|exact D1]. apply pow2_dvd. lia.
Qed.
Lemma kcheck_Jc : forall ist ldm ls n lmax p, 0 <= ldm -> 1 <= ist -> ls = lmax + ist - 1 -> b_dead p = false ->
  mid n ls lmax p -> J ldm lmax p -> Jc ist ldm n lmax (kcheck ldm ls n p).
Proof.
  intros ist ldm ls n lmax p Hl Hi L Dd M HJ. pose proof M as (A & B & C & D1 & D2 & E & F). unfold kcheck. rewrite Dd.
  destruct (Z.eqb_spec (n - b_nlast p) (b_nstep p)); [intros _ ?; lia|].
  rewrite Z.gtb_ltb. destruct (Z.ltb_spec ldm (b_neib p - b_level p)); [|intros ?; lia].
  unfold J in HJ. pose proof (pow2_pos (ls - (b_neib p - ldm)) ltac:(lia)).
  destruct (Z.eqb_spec (Z.rem (n - b_nlast p) (2 ^ (ls - (b_neib p - ldm)))) 0) as [R|R].
  - unfold Jc, set_level, set_step; cbn. lia.
  - intros _ _. split; [lia|]. intros Hn. destruct (Z_le_gt_dec (b_neib p - ldm) (lmax - 1)) as [G|G]; [exact G|].
    exfalso. apply R, dvd_rem; [lia|]. apply Z.divide_sub_r.
    + eapply Z.divide_trans; [|exact Hn]. apply pow2_dvd. lia.
    + eapply Z.divide_trans; [|exact D1]. apply pow2_dvd. lia.
Qed.
Lemma kcheck_dead : forall ldm ls n p, b_dead (kcheck ldm ls n p) = b_dead p.
Proof. intros. unfold kcheck. destruct (b_dead p) eqn:D; [exact D|]. repeat (match goal with |- context [if ?b then _ else _] => destruct b end); auto. Qed.
Lemma kcheck_req : forall ldm ls n p, b_req (kcheck ldm ls n p) = b_req p.
Proof. intros. unfold kcheck. repeat (match goal with |- context [if ?b then _ else _] => destruct b end); auto. Qed.
Lemma kcheck_neib : forall ldm ls n p, b_neib (kcheck ldm ls n p) = b_neib p.
Proof. intros. unfold kcheck. repeat (match goal with |- context [if ?b then _ else _] => destruct b end); auto. Qed.
Lemma kcheck_level : forall ldm ls n p, b_level (kcheck ldm ls n p) = b_level p \/
  b_neib p - b_level p > ldm /\ b_level (kcheck ldm ls n p) = b_neib p - ldm.
Proof. intros. unfold kcheck. destruct (b_dead p), (n - b_nlast p =? b_nstep p); auto. rewrite Z.gtb_ltb.
  destruct (Z.ltb_spec ldm (b_neib p - b_level p)); auto. destruct (Z.rem _ _ =? 0); [right; cbn; lia | auto]. Qed.

Definition countb (f : bpart -> bool) (l : list bpart) : Z := Z.of_nat (length (filter f l)).
Lemma Checks_eq : forall c st, conf_ok c -> MidJ c st ->
  Checks (KDK_Check (k_ldm c) (s_lstep st) (s_n st)) (s_h st) =
  Some (map (kcheck (k_ldm c) (s_lstep st) (s_n st)) (s_h st), countb (kchanged (k_ldm c) (s_lstep st) (s_n st)) (s_h st)).
Proof.
  intros c st Hc ((K & _ & Hh & _) & HJ). pose proof (ls_ge _ _ Hc K) as L. revert Hh HJ. generalize (s_h st).
  induction l as [|p l IH]; intros Hh HJ; [reflexivity|]. cbn [Checks map].
  rewrite (KDK_Check_eq _ _ _ (s_lmax st)); [|lia | intros D; apply Hh; [left; reflexivity | exact D] | intros D; apply HJ; [left; reflexivity | exact D]].
  rewrite IH; [|intros q Hq; apply Hh; right; exact Hq|intros q Hq; apply HJ; right; exact Hq].
  unfold countb. cbn [filter]. destruct (kchanged _ _ _ p); f_equal; f_equal; cbn [length]; lia.
Qed.
Lemma Check_MidJ : forall c st h k, conf_ok c -> MidJ c st ->
  Checks (KDK_Check (k_ldm c) (s_lstep st) (s_n st)) (s_h st) = Some (h, k) ->
  MidJ c (with_h st h) /\ MidJc c (with_h st h).
Proof.
  intros c st h k Hc MJ. rewrite (Checks_eq _ _ Hc MJ). intros [= <- <-].
  destruct MJ as (M & HJ). pose proof M as (K & Hn & Hh & Hs & Hd & Q1 & Q2). pose proof (ls_ge _ _ Hc K) as L.
  assert (Mid c (with_h st (map (kcheck (k_ldm c) (s_lstep st) (s_n st)) (s_h st)))) as M'.
  { unfold Mid, clock, with_h; cbn. bsplit; try assumption; try apply K.
    - intros q Hq D. apply in_map_iff in Hq as (p & <- & Hp). rewrite kcheck_dead in D. unfold conf_ok in Hc.
      apply kcheck_mid; auto; lia.
    - intros q Hq. apply in_map_iff in Hq as (p & <- & Hp). rewrite kcheck_req. auto. }
  split; (split; [exact M'|]); unfold with_h; cbn; intros q Hq D; apply in_map_iff in Hq as (p & <- & Hp); rewrite kcheck_dead in D.
  - unfold J. rewrite kcheck_neib. specialize (HJ p Hp D). unfold J in HJ.
    destruct (kcheck_level (k_ldm c) (s_lstep st) (s_n st) p) as [-> | [_ ->]]; lia.
  - unfold conf_ok in Hc. destruct K as (_ & K2 & _). apply kcheck_Jc; auto; lia.
Qed.
Lemma rounds_MidJc : forall c st st', conf_ok c -> rounds c KDK_Check st st' -> MidJ c st -> MidJc c st'.
Proof.
  intros c st st' Hc H. induction H as [st st1 h N E | st st1 h k st2 N E Hk _ IH]; intros M.
  - eapply Check_MidJ; [exact Hc | eapply neibs_J; eassumption | exact E].
  - apply IH. eapply Check_MidJ; [exact Hc | eapply neibs_J; eassumption | exact E].
Qed.

(** Each round with activecount = k > 0 closes exactly k steps. *)
Lemma open_kcheck : forall ldm ls n p, b_dead p = false ->
  open_step n (kcheck ldm ls n p) = open_step n p && negb (kchanged ldm ls n p).
Proof.
  intros ldm ls n p D. unfold open_step. rewrite kcheck_dead, D. cbn [negb andb]. unfold kchanged, kcheck. rewrite D. cbn [negb andb].
  destruct (Z.eqb_spec (n - b_nlast p) (b_nstep p)) as [e|e]; cbn [negb andb]; [rewrite (proj2 (Z.eqb_eq _ _) e); reflexivity|].
  destruct (b_neib p - b_level p >? ldm); cbn [negb andb].
  - destruct (Z.rem _ _ =? 0); cbn [negb andb set_level set_step b_nlast b_nstep]; [rewrite Z.eqb_refl; reflexivity|].
    rewrite (proj2 (Z.eqb_neq _ _) e). reflexivity.
  - rewrite (proj2 (Z.eqb_neq _ _) e). reflexivity.
Qed.
Lemma kchanged_open : forall ldm ls n p, kchanged ldm ls n p = true -> open_step n p = true.
Proof. intros ldm ls n p. unfold kchanged, open_step. destruct (b_dead p), (_ =? b_nstep p); cbn; congruence. Qed.
Lemma open_count : forall ldm ls n l,
  Z.of_nat (open_steps n (map (kcheck ldm ls n) l)) + countb (kchanged ldm ls n) l = Z.of_nat (open_steps n l).
Proof.
  intros ldm ls n l. unfold open_steps, countb. induction l as [|p l IH]; [reflexivity|]. cbn [map filter].
  destruct (b_dead p) eqn:D.
  - assert (open_step n (kcheck ldm ls n p) = false) as -> by (unfold open_step; rewrite kcheck_dead, D; reflexivity).
    assert (open_step n p = false) as -> by (unfold open_step; rewrite D; reflexivity).
    assert (kchanged ldm ls n p = false) as -> by (unfold kchanged; rewrite D; reflexivity). exact IH.
  - rewrite (open_kcheck _ _ _ _ D). destruct (kchanged ldm ls n p) eqn:C.
    + rewrite (kchanged_open _ _ _ _ C). cbn [andb negb length] in *. lia.
    + destruct (open_step n p); cbn [andb negb length] in *; lia.
Qed.
