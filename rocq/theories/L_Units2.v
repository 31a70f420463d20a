(** Proofs about units: sizes, acceptance and conversions. *)
From Coq Require Import Reals String Lra.
From Verif Require Import Prelude M_Units S_Units L_Units.
Local Open Scope string_scope.
Local Open Scope R_scope.

Definition kelvins (L T : R) : R := m_hydrogen / k_boltzmann * (L ^ 2 / T ^ 2).
Ltac prz := cbv [size dim_of dadd dmul d0 Length Mass Time Temperature Charge Velocity Acceleration Volume Area Force Energy Power
  d_l d_m d_t d_k d_c Z.mul Z.add Pos.mul Pos.add Z.opp Z.pos_sub Pos.succ Z.double Z.succ_double Z.pred_double Pos.pred_double
  powerRZ Pos.to_nat Pos.iter_op Nat.add].
Lemma kB_pos : 0 < k_boltzmann. Proof. unfold k_boltzmann. lra. Qed.
Lemma mH_pos : 0 < m_hydrogen. Proof. unfold m_hydrogen. lra. Qed.
Lemma sz_size L M T q : 0 < L -> 0 < M -> 0 < T -> usual q -> q <> QL -> sz L M T q = size L M T (kelvins L T) 1 (dim_of q).
Proof.
  intros HL HM HT Hu Hq. pose proof kB_pos. pose proof mH_pos.
  destruct q; cbn [usual] in Hu; try contradiction; prz; unfold kelvins; cbn [sz]; try (field; repeat split; lra).
Qed.
Lemma sz_pos L M T q : 0 < L -> 0 < M -> 0 < T -> 0 < sz L M T q.
Proof.
  intros HL HM HT. pose proof kB_pos. pose proof mH_pos.
  destruct q; cbn [sz]; try assumption; try lra;
    repeat first [ assumption | apply Rdiv_lt_0_compat | apply Rmult_lt_0_compat | apply pow_lt | lra ].
Qed.
Lemma cgs_size q : usual q -> q <> Qpress -> cgs_of q = size 100 1000 1 1 1 (dim_of q).
Proof. intros Hu Hq. destruct q; cbn [usual] in Hu; try contradiction; prz; cbn [cgs_of]; try (field; repeat split; lra); lra. Qed.

Lemma copy_key_in p q : q <> Qf -> copy_units p (key_in q) = p (outkey q).
Proof. intros H. rewrite <- copy_in. destruct q; try reflexivity. contradiction. Qed.
Lemma copy_key_out p q : q <> Qf -> copy_units p (key_out q) = p (outkey q).
Proof. intros H. rewrite <- copy_out. destruct q; try reflexivity. contradiction. Qed.
Global Opaque copy_units.

Definition accepted (q : quantity) (s : string) : Prop := exists x, SIUnit q s = Ok x.

(** Success and failure of the setup. *)
Lemma bind_or {A B} (x : res A) (f : A -> res B) (P : Prop) :
  (exists a, x = Ok a) \/ (x = Raise /\ P) -> (forall a, x = Ok a -> (exists b, f a = Ok b) \/ (f a = Raise /\ P)) ->
  (exists b, bind x f = Ok b) \/ (bind x f = Raise /\ P).
Proof. intros [(a & ->)|(-> & HP)] H; cbn; auto. Qed.
Lemma block_or p q ki ko cgs vi vo (P : Prop) :
  (~ (accepted q (p ki) /\ accepted q (p ko)) -> P) ->
  (exists u, block p q ki ko cgs vi vo = Ok u) \/ (block p q ki ko cgs vi vo = Raise /\ P).
Proof.
  intros H. unfold block. destruct (SIUnit_or q (p ki)) as [(i & Hi)|Hi]; rewrite Hi; cbn [bind].
  - destruct (SIUnit_or q (p ko)) as [(o & Ho)|Ho]; rewrite Ho; cbn [bind]; [eauto|].
    right. split; [reflexivity|]. apply H. intros [_ (x & Hx)]. congruence.
  - right. split; [reflexivity|]. apply H. intros [(x & Hx) _]. congruence.
Qed.
Lemma SIUnit_orP q s (P : Prop) : (~ accepted q s -> P) -> (exists x, SIUnit q s = Ok x) \/ (SIUnit q s = Raise /\ P).
Proof. intros H. destruct (SIUnit_or q s) as [?|E]; [auto|]. right. split; [assumption|]. apply H. intros (x & Hx). congruence. Qed.

Lemma setup_or (p0 : params) (b : bool) us0 :
  let p := if b then p0 else copy_units p0 in
  (exists us, SetupUnits p0 false b us0 = Ok us) \/
  (SetupUnits p0 false b us0 = Raise /\ exists q, usual q /\ ~ (accepted q (p (key_in q)) /\ accepted q (p (key_out q)))).
Proof.
  intros p. unfold SetupUnits. fold p. generalize p. clear p b p0. intros p.
  set (P := exists q, usual q /\ ~ (accepted q (p (key_in q)) /\ accepted q (p (key_out q)))).
  assert (HP : forall q, usual q -> ~ (accepted q (p (key_in q)) /\ accepted q (p (key_out q))) -> P) by (intros q; unfold P; eauto).
  apply bind_or; [apply SIUnit_orP; intros E; apply (HP Qr); [exact I|tauto]|intros ri _].
  apply bind_or; [apply SIUnit_orP; intros E; apply (HP Qr); [exact I|tauto]|intros ro _].
  apply bind_or; [apply SIUnit_orP; intros E; apply (HP Qm); [exact I|tauto]|intros mi _].
  apply bind_or; [apply SIUnit_orP; intros E; apply (HP Qm); [exact I|tauto]|intros mo _].
  apply bind_or; [apply block_or; apply (HP Qt I)|intros t _].
  apply bind_or; [apply block_or; apply (HP Qv I)|intros v _].
  apply bind_or; [apply block_or; apply (HP Qa I)|intros a _].
  apply bind_or; [apply block_or; apply (HP Qrho I)|intros rho _].
  apply bind_or; [apply block_or; apply (HP Qsigma I)|intros sg _].
  apply bind_or; [apply block_or; apply (HP Qpress I)|intros pr _].
  apply bind_or; [apply block_or; apply (HP Qf I)|intros f _].
  apply bind_or; [apply block_or; apply (HP QE I)|intros E _].
  apply bind_or; [apply block_or; apply (HP Qmom I)|intros mom _].
  apply bind_or; [apply block_or; apply (HP Qangmom I)|intros am _].
  apply bind_or; [apply block_or; apply (HP Qangvel I)|intros av _].
  apply bind_or; [apply block_or; apply (HP Qdmdt I)|intros dm _].
  apply bind_or; [apply block_or; apply (HP QL I)|intros L _].
  apply bind_or; [apply block_or; apply (HP Qkappa I)|intros ka _].
  apply bind_or; [apply block_or; apply (HP Qu I)|intros u _].
  apply bind_or; [apply block_or; apply (HP Qdudt I)|intros du _].
  apply bind_or; [apply block_or; apply (HP Qtemp I)|intros te _].
  left. eexists. reflexivity.
Qed.

(** A unit set up by [SetupUnits]. *)
Definition fine (v : R) (u : sunit) : Prop :=
  0 < inSI u /\ 0 < outSI u /\ 0 < v /\ inscale u = v / inSI u /\ outscale u = v / outSI u.
Lemma good_fine p q v u : good p q v u -> 0 < v -> fine v u.
Proof.
  intros G Hv. destruct G as [gi go gin gout _ _ _]. pose proof (SIUnit_pos _ _ _ gi). pose proof (SIUnit_pos _ _ _ go).
  unfold fine. repeat split; try assumption.
  - rewrite <- gin. field. lra.
  - rewrite <- gout. field. lra.
Qed.
Lemma setup_fine p b us0 us q : SetupUnits p false b us0 = Ok us -> usual q -> exists v, fine v (us q).
Proof.
  intros H Hu. apply setup_inv in H as (L & M & HL & HM & _ & _ & G & _). exists (sz L M (code_time L M) q).
  apply (good_fine _ _ _ _ (G q Hu)). apply sz_pos; auto. now apply code_time_pos.
Qed.

(** The defaults. *)
Lemma default_setup us0 : exists us, SetupUnits default_params false false us0 = Ok us.
Proof.
  destruct (setup_or default_params false us0) as [H|(_ & q & Hu & H)]; [assumption|]. exfalso. apply H. clear H.
  destruct q; cbn [usual] in Hu; try contradiction; cbn [key_in key_out]; rewrite ?copy_in, ?copy_out, ?(proj1 (copy_force _)), ?(proj2 (copy_force _));
    split; eexists; reflexivity.
Qed.
Lemma GML : G_const * m_sun / r_pc > 4000.
Proof.
  unfold G_const, m_sun, r_pc. apply Rmult_gt_reg_l with (308568025 * 10 ^ 8); [lra|].
  replace (308568025 * 10 ^ 8 * (667384 / 10 ^ 16 * (198892 * 10 ^ 25) / (308568025 * 10 ^ 8))) with (667384 / 10 ^ 16 * (198892 * 10 ^ 25)) by field. lra.
Qed.
