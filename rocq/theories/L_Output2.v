(** Structure of what the calls of Output write. *)
From Coq Require Import Ascii String Reals Lra.
From Verif Require Import Prelude M_Params S_Params L_Params M_Output S_Output L_Output.
Local Open Scope Z_scope.

Section Out.
Variable p : pars.
Hypothesis G : good_pars p.

Definition fmt : format := match read_format (out_file_form p) with Some k => k | None => Column end.
Lemma fmt_of : format_of (out_file_form p) fmt.
Proof. destruct (good_format p G) as (k & F & E & _). unfold fmt. now rewrite E. Qed.
Lemma fmt_read : read_format (out_file_form p) = Some fmt.
Proof. destruct (good_format p G) as (k & F & E & _). unfold fmt. now rewrite E. Qed.
Lemma fmt_write : write_format (out_file_form p) = Some fmt.
Proof. destruct (good_format p G) as (k & F & E & E'). unfold fmt. now rewrite E. Qed.
Definition cont (s : sim) : file := Hdr fmt (header_of p fmt s) :: map Dat (parts s).
Lemma Write_eq : forall f s, WriteSnapshotFile p f (out_file_form p) s = write f (cont s).
Proof. intros. unfold WriteSnapshotFile. now rewrite fmt_write. Qed.
Lemma cont_snapshot : forall s, snapshot p (cont s) (header_of p fmt s) (parts s).
Proof. intros. exists fmt. split; [exact fmt_of|]. split; [reflexivity|]. unfold header_of. destruct fmt; reflexivity. Qed.

(** Time of the last snapshot, when [n] have been written. *)
Definition last (n : Z) : R := if n =? 0 then 0%R else due p n.
Definition sched (s : sim) : Prop := 0 <= Noutsnap s /\ tsnapnext s = due p (Noutsnap s + 1) /\ tsnaplast s = last (Noutsnap s).

(** What is written at time [th], and the number of snapshots before and after. *)
Inductive chunks (th : R) : Z -> list op -> Z -> Prop :=
| ch_nil n : chunks th n [] n
| ch_lite n m c o n' : chunks th n o n' -> (exists h r, c = Hdr SerenLite h :: r) -> chunks th n (write (lite_name p m) c ++ o) n'
| ch_snap n s o n' : sched s -> t s = th -> Noutsnap s = n + 1 -> 0 <= n -> chunks th (n + 1) o n' ->
    chunks th n ((write (snap_name p (n + 1)) (cont s) ++ write_restart p (snap_name p (n + 1))) ++ o) n'
| ch_tmp n s o n' : sched s -> t s = th -> Noutsnap s = n -> (n = 0 -> (th < due p 1)%R) -> chunks th n o n' ->
    chunks th n ((write (tmp_name p) (cont s) ++ write_restart p (tmp_name p)) ++ o) n'.
Lemma chunks_app : forall th n a m b k, chunks th n a m -> chunks th m b k -> chunks th n (a ++ b) k.
Proof.
  intros th n a m b k A B. induction A; [exact B | rewrite <- app_assoc; constructor; auto | rewrite <- app_assoc; eapply ch_snap; eauto
    | rewrite <- app_assoc; eapply ch_tmp; eauto].
Qed.
Lemma Lite_chunks : forall s s' o, OutputLite p s = (s', o) -> chunks (t s) (Noutsnap s) o (Noutsnap s) /\
  t s' = t s /\ Noutsnap s' = Noutsnap s /\ tsnapnext s' = tsnapnext s /\ tsnaplast s' = tsnaplast s /\ Nsteps s' = Nsteps s.
Proof.
  intros s s' o E. unfold OutputLite in E. destruct (_ && _) in E; injection E as <- <-; cbn [t Noutsnap tsnapnext tsnaplast Nsteps]; (split; [|tauto]); [|constructor].
  rewrite <- (app_nil_r (WriteSnapshotFile _ _ _ _)). unfold WriteSnapshotFile.
  replace (write_format (lit "slite")) with (Some SerenLite) by reflexivity.
  constructor; [constructor|]. eauto.
Qed.
(** How a call of Output proceeds: [n] snapshots before, [n'] after. *)
Definition one (th : R) (n n' : Z) : Prop := (n' = n + 1 /\ (due p (n + 1) <= th)%R) \/ (n' = n /\ (th < due p (n + 1))%R).
Lemma one_0 : forall th s m, one th (Noutsnap s) m -> sched s -> m = 0 -> (th < due p 1)%R.
Proof. intros th s m O (N & _) ->. unfold one in O. destruct O as [[A _] | [A B]]; [lia|]. rewrite <- A in B. exact B. Qed.
Lemma Output_chunks : forall sync late s s' o, sched s -> Output p sync late s = (s', o) ->
  chunks (t s) (Noutsnap s) o (Noutsnap s') /\ one (t s) (Noutsnap s) (Noutsnap s') /\ sched s' /\ t s' = t s /\ Nsteps s' = Nsteps s.
Proof.
  intros sync late s s' o H E. unfold Output in E. destruct (OutputLite p s) as [s1 o1] eqn:E1.
  apply Lite_chunks in E1 as (C1 & T1 & N1 & X1 & L1 & S1). destruct (OutputSnap p late s1) as [s2 o2] eqn:E2.
  destruct (OutputTmp p sync s2) as [s3 o3] eqn:E3. injection E as <- <-.
  assert (A2 : chunks (t s) (Noutsnap s) o2 (Noutsnap s2) /\ one (t s) (Noutsnap s) (Noutsnap s2) /\ sched s2 /\ t s2 = t s /\ Nsteps s2 = Nsteps s).
  { unfold OutputSnap in E2. destruct H as (H0 & H & HL). destruct (Rle_dec (tsnapnext s1) (t s1)) as [L | L].
    - cbv zeta in E2. set (x := Sim _ _ _ _ _ _ _ _ _ _ _) in E2. rewrite Write_eq in E2. assert (LL : sched x).
      { subst x. unfold sched, last. cbn [t Noutsnap tsnapnext tsnaplast Nsteps]. rewrite N1, X1, H. split; [lia|]. destruct (Z.eqb_spec (Noutsnap s + 1) 0); [lia|].
        split; [|reflexivity]. unfold due. replace (Noutsnap s + 1 - 1) with (Noutsnap s) by lia. replace (Noutsnap s + 1 + 1 - 1) with (Noutsnap s + 1) by lia. rewrite plus_IZR. lra. }
      assert (Noutsnap x = Noutsnap s + 1) as NX by (subst x; cbn; lia). assert (t x = t s) as TX by exact T1. assert (Nsteps x = Nsteps s) as SX by exact S1. apply pair_equal_spec in E2 as [<- <-]. clearbody x. rewrite NX, <- (app_nil_r (_ ++ _)).
      split; [|split; [|split; [|split]]]; [|left; rewrite <- H, <- X1, <- T1; auto | exact LL | exact TX | exact SX].
      eapply ch_snap; [exact LL | exact TX | exact NX | exact H0 | constructor].
    - injection E2 as <- <-. rewrite N1, T1, S1, X1 in *. split; [|split; [|split; [|split]]]; auto; [constructor | right | unfold sched; rewrite N1, X1, L1; auto ]. split; [reflexivity | lra]. }
  destruct A2 as (C2 & O2 & D2 & T2 & S2). unfold OutputTmp in E3. destruct (sync && _) in E3; injection E3 as <- <-; cbn [t Noutsnap tsnapnext tsnaplast Nsteps].
  - split; [|split; [|split; [|split]]]; auto. eapply chunks_app; [exact C1|]. eapply chunks_app; [exact C2|].
    unfold RestartSnapshot. rewrite <- (app_nil_r (_ ++ _)), Write_eq. eapply ch_tmp; [exact D2 | exact T2 | reflexivity | apply (one_0 _ _ _ O2 H) | constructor].
  - split; [|split; [|split; [|split]]]; auto. eapply chunks_app; [exact C1|]. rewrite app_nil_r. exact C2.
Qed.

(** A sequence of calls of Output. *)
Inductive calls : Z -> list call -> Z -> Prop :=
| cl_nil n : calls n [] n
| cl_cons n c m cs n' : 0 <= n -> chunks (c_t c) n (c_ops c) m -> one (c_t c) n m -> calls m cs n' -> calls n (c :: cs) n'.
Lemma calls_app : forall n a m b k, calls n a m -> calls m b k -> calls n (a ++ b) k.
Proof. intros n a m b k A B. induction A; [exact B | cbn; econstructor; eauto]. Qed.
Lemma calls_le : forall n cs n', calls n cs n' -> n <= n'.
Proof. induction 1 as [|n c m cs n' N0 C O _ IH]; [lia|]. unfold one in O. lia. Qed.
Lemma Run_calls : forall N xs s s' cs, sched s -> Run p N xs s = (s', cs) -> calls (Noutsnap s) cs (Noutsnap s') /\ sched s'.
Proof.
  intros N xs. induction xs as [|x xs IH]; intros s s' cs H E; cbn [Run] in E; [injection E as <- <-; split; [constructor | exact H]|].
  destruct ((if Rlt_dec _ _ then _ else _) && _); [|injection E as <- <-; split; [constructor | exact H]].
  destruct (Output p (s_sync x) (s_late x) (MainLoop x s)) as [s1 o] eqn:E1. assert (H0 : 0 <= Noutsnap s) by apply H.
  apply Output_chunks in E1 as (C & O & H1 & T & _); [|exact H]. cbn [MainLoop Noutsnap] in C, O.
  destruct (kill s1 || s_stop x).
  - injection E as <- <-. split; [|exact H1]. econstructor; [exact H0 | | | constructor]; cbn [c_t c_ops]; rewrite T; [|exact O].
    eapply chunks_app; [exact C|]. unfold RestartSnapshot. rewrite <- (app_nil_r (_ ++ _)), Write_eq. eapply ch_tmp; [exact H1 | exact T | reflexivity | apply (one_0 _ _ _ O H) | constructor].
  - destruct (Run p N xs s1) as [s2 cs2] eqn:E2. injection E as <- <-. apply IH in E2 as [E2 H2]; [|exact H1]. split; [|exact H2].
    econstructor; [exact H0 | | | exact E2]; cbn [c_t c_ops]; rewrite T; assumption.
Qed.
(** The job of a simulation that starts with [s]. *)
Lemma Job_calls : forall d j s0 s' cs, GenerateIC p d (j_restart j) (j_ic j) (initial p) = Some s0 -> sched (PostInitialConditionsSetup p s0) ->
  Job_run p d j = Some (s', cs) -> calls (Noutsnap (PostInitialConditionsSetup p s0)) cs (Noutsnap s') /\ sched s'.
Proof.
  intros d j s0 s' cs E H J. unfold Job_run, SetupSimulation in J. rewrite E in J.
  destruct (Output p true (j_late j) (PostInitialConditionsSetup p s0)) as [s1 o] eqn:E1. apply Output_chunks in E1 as (C & O & H1 & T & _); [|exact H].
  destruct (Run p (j_target j) (j_steps j) s1) as [s2 cs2] eqn:E2. injection J as <- <-. apply Run_calls in E2 as [E2 H2]; [|exact H1]. split; [|exact H2].
  cbn [app]. econstructor; [apply H | | | exact E2]; cbn [c_t c_ops]; rewrite T; assumption.
Qed.
Lemma fresh_sched : forall d ic s0, GenerateIC p d false ic (initial p) = Some s0 -> sched (PostInitialConditionsSetup p s0) /\ Noutsnap (PostInitialConditionsSetup p s0) = 0 /\
  t (PostInitialConditionsSetup p s0) = 0%R.
Proof.
  intros d ic s0 E. cbn in E. injection E as <-. unfold PostInitialConditionsSetup, sched, last. destruct (nbody p); cbn; (split; [split; [lia|]; split; [unfold due; cbn; lra | reflexivity] | auto]).
Qed.

(** ** Numbers and times *)
Lemma opens_app : forall a b, opens (a ++ b) = opens a ++ opens b.
Proof. intros a b. induction a as [|[f | f i] a IH]; cbn; [reflexivity | now f_equal | exact IH]. Qed.
Lemma opens_write : forall f l, opens (write f l) = [f].
Proof. intros. unfold write. cbn. f_equal. induction l; cbn; auto. Qed.
Definition upto (n n' : Z) : list Z := map (fun i => n + 1 + Z.of_nat i) (seq 0 (Z.to_nat (n' - n))).
Lemma upto_nil : forall n, upto n n = [].
Proof. intros. unfold upto. now rewrite Z.sub_diag. Qed.
Lemma upto_cons : forall n n', n < n' -> upto n n' = (n + 1) :: upto (n + 1) n'.
Proof.
  intros n n' L. unfold upto. replace (Z.to_nat (n' - n)) with (S (Z.to_nat (n' - (n + 1)))) by lia. cbn [seq map]. f_equal; [lia|].
  rewrite <- seq_shift, map_map. apply map_ext. intros. lia.
Qed.
Lemma upto_app : forall n m k, n <= m <= k -> upto n k = upto n m ++ upto m k.
Proof.
  intros n m k [A B]. remember (Z.to_nat (m - n)) as q eqn:Q. revert n A Q. induction q as [|q IH]; intros n A Q.
  - replace m with n by lia. now rewrite upto_nil.
  - rewrite (upto_cons n m), (upto_cons n k) by lia. cbn. f_equal. apply IH; lia.
Qed.
Lemma upto_In : forall n n' k, In k (upto n n') <-> n < k <= n'.
Proof.
  intros. unfold upto. rewrite in_map_iff. split.
  - intros (i & <- & I). apply in_seq in I. lia.
  - intros. exists (Z.to_nat (k - n - 1)). split; [lia|]. apply in_seq. lia.
Qed.
Lemma upto_len : forall n n', n <= n' -> zlen (upto n n') = n' - n.
Proof. intros. unfold zlen, upto. rewrite map_length, seq_length. lia. Qed.
Lemma sub_app : forall A (P : A -> Prop) a b a' b', sub_of P a a' -> sub_of P b b' -> sub_of P (a ++ b) (a' ++ b').
Proof. intros A P a b a' b' X Y. induction X; cbn; [exact Y | constructor; auto | constructor; auto]. Qed.
Lemma sub_fun : forall A (P : A -> Prop) a b c, sub_of P a b -> sub_of P a c -> b = c.
Proof. intros A P a b c X. revert c. induction X; intros c Y; inversion Y; subst; try contradiction; auto. f_equal. auto. Qed.
Lemma sub_In : forall A (P : A -> Prop) a b x, sub_of P a b -> P x -> (In x a <-> In x b).
Proof. intros A P a b x X H. induction X; cbn; [tauto | tauto|]. split; [|tauto]. intros [-> | I]; [contradiction | tauto]. Qed.
Lemma is_snap : forall n, 0 <= n -> is_snapshot p (snap_name p n).
Proof. intros n N. exists n. apply snapshot_name_iff. auto. Qed.
Lemma not_snap_lite : forall n, ~ is_snapshot p (lite_name p n).
Proof. intros n (k & H). apply snapshot_name_iff in H as [_ H]. exact (lite_not_snap p G _ _ H). Qed.
Lemma not_snap_tmp : ~ is_snapshot p (tmp_name p).
Proof. intros (k & H). apply snapshot_name_iff in H as [K H]. exact (snap_not_tmp p k K (eq_sym H)). Qed.
Lemma not_snap_restart : ~ is_snapshot p (restart_name p).
Proof. intros (k & H). apply snapshot_name_iff in H as [K H]. exact (snap_not_restart p G k (eq_sym H)). Qed.
Lemma chunks_opens : forall th n o n', chunks th n o n' -> n <= n' /\ sub_of (is_snapshot p) (opens o) (map (snap_name p) (upto n n')).
Proof.
  induction 1 as [n | n m c o n' _ [L IH] _ | n s o n' _ _ _ N0 _ [L IH] | n s o n' _ _ _ _ _ [L IH]].
  - rewrite upto_nil. split; [lia | constructor].
  - split; [exact L|]. rewrite opens_app, opens_write. cbn. apply sub_skip; [apply not_snap_lite | exact IH].
  - split; [lia|]. unfold write_restart. rewrite !opens_app, !opens_write. rewrite (upto_cons n n') by lia. cbn.
    apply sub_take; [apply is_snap; lia|]. apply sub_skip; [apply not_snap_restart | exact IH].
  - split; [exact L|]. unfold write_restart. rewrite !opens_app, !opens_write. cbn. apply sub_skip; [apply not_snap_tmp|]. apply sub_skip; [apply not_snap_restart | exact IH].
Qed.
Lemma calls_opens : forall n cs n', calls n cs n' -> sub_of (is_snapshot p) (flat_map (fun c => opens (c_ops c)) cs) (map (snap_name p) (upto n n')).
Proof.
  induction 1 as [n | n c m cs n' N0 C O H IH]; [rewrite upto_nil; constructor|]. apply chunks_opens in C as [L C]. apply calls_le in H.
  rewrite (upto_app n m n') by lia. rewrite map_app. cbn [flat_map]. now apply sub_app.
Qed.
Lemma names_F2 : forall n n', 0 <= n -> Forall2 (snapshot_name p) (upto n n') (map (snap_name p) (upto n n')).
Proof.
  intros n n' N. assert (A : Forall (fun k => 0 <= k) (upto n n')) by (apply Forall_forall; intros k K; apply upto_In in K; lia).
  induction A; cbn; constructor; [apply snapshot_name_iff; auto | assumption].
Qed.
Lemma calls_written : forall n cs n', 0 <= n -> calls n cs n' -> snapshots_written p cs (upto n n').
Proof. intros n cs n' N H. exists (map (snap_name p) (upto n n')). split; [now apply calls_opens | now apply names_F2]. Qed.
Lemma written_fun : forall cs ns ns', snapshots_written p cs ns -> snapshots_written p cs ns' -> ns = ns'.
Proof.
  intros cs ns ns' (f & S & F) (f' & S' & F'). rewrite (sub_fun _ _ _ _ _ S' S) in F'. clear S S' f'. revert ns' F'. induction F as [|n f1 ns f H F IH]; intros ns' F'; inversion F'; subst; [reflexivity|].
  f_equal; [|auto]. apply snapshot_name_iff in H as [A ->]. match goal with X : snapshot_name _ _ _ |- _ => apply snapshot_name_iff in X as [B X]; symmetry in X; apply snap_name_inj in X; congruence end.
Qed.
Lemma calls_nth : forall n cs n' i c, calls n cs n' -> nth_error cs i = Some c -> exists m m', calls n (firstn i cs) m /\ 0 <= m /\ chunks (c_t c) m (c_ops c) m' /\ one (c_t c) m m' /\ calls m' (skipn (S i) cs) n'.
Proof.
  intros n cs n' i c H. revert i. induction H as [|n c0 m cs n' N0 C O H IH]; intros i E; [destruct i; discriminate|]. destruct i as [|i].
  - cbn in E. injection E as ->. exists n, m. repeat split; auto. constructor.
  - cbn [nth_error] in E. destruct (IH i E) as (a & b & A & M0 & A2 & A3 & A4). exists a, b. repeat split; auto. cbn [firstn]. econstructor; eauto.
Qed.
Lemma one_upto : forall th m m', one th m m' -> forall k, In k (upto m m') <-> k = m + 1 /\ (due p k <= th)%R.
Proof.
  intros th m m' O k. rewrite upto_In. destruct O as [[-> L] | [-> L]]; split.
  - intros H. replace k with (m + 1) by lia. auto.
  - intros [-> _]. lia.
  - lia.
  - intros [-> L']. lra.
Qed.
Lemma opened_iff : forall th m c m' k f, th = c_t c -> 0 <= m -> chunks th m (c_ops c) m' -> one th m m' -> snapshot_name p k f -> (opened f c <-> k = m + 1 /\ (due p k <= th)%R).
Proof.
  intros th m c m' k f -> M C O F. apply chunks_opens in C as [L C]. unfold opened. rewrite (sub_In _ _ _ _ f C) by (exists k; exact F).
  rewrite <- (one_upto _ _ _ O k). rewrite in_map_iff. apply snapshot_name_iff in F as [K ->]. split.
  - intros (x & E & I). assert (m < x) by (apply upto_In in I; lia). apply snap_name_inj in E; [now subst | lia | lia].
  - intros I. exists k. auto.
Qed.
(** Snapshot [k] is written in call [i] exactly if [k - 1 - n] were written before and it is due. *)
Lemma calls_when : forall n cs n' i c k f, 0 <= n -> calls n cs n' -> nth_error cs i = Some c -> snapshot_name p k f ->
  (opened f c <-> (exists ns, snapshots_written p (firstn i cs) ns /\ n + zlen ns = k - 1) /\ (due p k <= c_t c)%R).
Proof.
  intros n cs n' i c k f N H E F. destruct (calls_nth n cs n' i c H E) as (m & m' & A & M & C & O & _). rewrite (opened_iff (c_t c) m c m' k f eq_refl M C O F).
  pose proof (calls_le _ _ _ A). split.
  - intros [-> L]. split; [|exact L]. exists (upto n m). split; [now apply calls_written|]. rewrite upto_len by lia. lia.
  - intros [(ns & W & L) D]. split; [|exact D]. rewrite (written_fun _ _ _ W (calls_written _ _ _ N A)), upto_len in L by lia. lia.
Qed.
(** Times do not jump over an output time. *)
Inductive paced (dt : R) : R -> list call -> Prop :=
| pc_nil th : paced dt th []
| pc_cons th c cs : (th <= c_t c <= th + dt)%R -> paced dt (c_t c) cs -> paced dt th (c :: cs).
Lemma Run_paced : forall dt N xs s s' cs, Forall (fun x => (0 <= s_dt x <= dt)%R) xs -> sched s -> Run p N xs s = (s', cs) -> paced dt (t s) cs.
Proof.
  intros dt N xs. induction xs as [|x xs IH]; intros s s' cs H D E; cbn [Run] in E; [injection E as <- <-; constructor|].
  destruct ((if Rlt_dec _ _ then _ else _) && _); [|injection E as <- <-; constructor].
  destruct (Output p (s_sync x) (s_late x) (MainLoop x s)) as [s1 o] eqn:E1. apply Output_chunks in E1 as (_ & _ & D1 & T & _); [|exact D]. cbn in T.
  pose proof (Forall_inv H) as H1. cbn in H1. destruct (kill s1 || s_stop x).
  - injection E as <- <-. constructor; [cbn; lra | constructor].
  - destruct (Run p N xs s1) as [s2 cs2] eqn:E2. injection E as <- <-. constructor; [cbn; lra|]. cbn. eapply IH; [exact (Forall_inv_tail H) | exact D1 | exact E2].
Qed.
Lemma due_S : forall k, due p (k + 1) = (due p k + dt_snap p)%R.
Proof. intros. unfold due. replace (k + 1 - 1) with (k - 1 + 1) by lia. rewrite plus_IZR. lra. Qed.
Lemma due_mono : forall j k, (0 <= dt_snap p)%R -> j <= k -> (due p j <= due p k)%R.
Proof. intros j k D L. unfold due. apply IZR_le in L. rewrite !minus_IZR. nra. Qed.
Lemma calls_tail_opened : forall n cs n' k f i c, 0 <= n -> calls n cs n' -> nth_error cs i = Some c -> snapshot_name p k f -> opened f c -> n < k.
Proof.
  intros n cs n' k f i c N H E F O. apply (calls_when n cs n' i c k f N H E F) in O as [(ns & _ & L) _]. pose proof (zlen_nonneg _ ns). lia.
Qed.
Lemma calls_first : forall n cs n', (0 < dt_snap p)%R -> calls n cs n' -> forall th, paced (dt_snap p) th cs -> 0 <= n -> (th < due p (n + 1))%R ->
  forall i c k f, nth_error cs i = Some c -> snapshot_name p k f -> n < k ->
  (opened f c <-> (due p k <= c_t c)%R /\ forall j b, (j < i)%nat -> nth_error cs j = Some b -> (c_t b < due p k)%R).
Proof.
  intros n cs n' DT. induction 1 as [n | n c0 m cs n' N0 C O H IH]; intros th P _ T i c k f E F K; [destruct i; discriminate|].
  inversion P as [|? ? ? PT PC]; subst. assert (M : n <= m) by (destruct O as [[-> _] | [-> _]]; lia).
  assert (T2 : (c_t c0 < due p (m + 1))%R).
  { destruct O as [[-> L] | [-> L]]; [|exact L]. rewrite due_S. lra. }
  destruct i as [|i].
  - cbn in E. injection E as ->. rewrite (opened_iff (c_t c) n c m k f eq_refl N0 C O F). split.
    + intros [-> L]. split; [exact L|]. intros j b J. lia.
    + intros [L _]. split; [|exact L]. assert (k < m + 1). { destruct (Z_lt_le_dec k (m + 1)) as [|B]; [assumption|]. pose proof (due_mono (m + 1) k ltac:(lra) B). lra. }
      destruct O as [[-> _] | [-> _]]; lia.
  - cbn [nth_error] in E. destruct (Z_lt_le_dec m k) as [MK | MK].
    + rewrite (IH (c_t c0) PC ltac:(lia) T2 i c k f E F MK). split; intros [A B]; (split; [exact A|]).
      * intros [|j] b J Ej; [cbn in Ej; injection Ej as <- | apply (B j b); [lia | exact Ej]]. pose proof (due_mono (m + 1) k ltac:(lra) ltac:(lia)). lra.
      * intros j b J Ej. apply (B (S j) b); [lia | exact Ej].
    + split.
      * intros X. apply (calls_tail_opened m cs n' k f i c ltac:(lia) H E F) in X. lia.
      * intros [_ B]. exfalso. specialize (B 0%nat c0 ltac:(lia) eq_refl). destruct O as [[-> L] | [-> L]]; [|lia]. replace k with (n + 1) in B by lia. lra.
Qed.
End Out.
