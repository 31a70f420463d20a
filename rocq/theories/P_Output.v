(** C32: numbers and times of the snapshot files.  C33: the restart file after a crash. *)
From Coq Require Import Ascii String Reals Lra.
From Verif Require Import Prelude M_Params S_Params L_Params M_Output S_Output L_Output L_Output2 L_Output3 L_Output4.
Local Open Scope Z_scope.

Lemma upto_nat : forall k n, 0 <= n -> upto k (k + n) = map (fun i => k + Z.of_nat i) (seq 1 (Z.to_nat n)).
Proof. intros k n N. unfold upto. replace (k + n - k) with n by lia. rewrite <- seq_shift, map_map. apply map_ext. intros. lia. Qed.

(** ** A run from initial conditions *)

(** Snapshots are numbered 1, 2, 3, ... in the order in which they are written, the name of a file
    tells its number, and the next output time is one interval after the last. *)
Theorem C32_numbers : forall p d j s cs, good_pars p -> j_restart j = false -> Job_run p d j = Some (s, cs) ->
  exists n : nat, snapshots_written p cs (map Z.of_nat (seq 1 n)) /\ Noutsnap s = Z.of_nat n /\ tsnapnext s = due p (Z.of_nat n + 1) /\
  forall i k f, snapshot_name p i f -> snapshot_name p k f -> i = k.
Proof.
  intros p d j s cs G R J. assert (J' := J). unfold Job_run, SetupSimulation in J'. rewrite R in J'.
  destruct (GenerateIC p d false (j_ic j) (initial p)) as [s0|] eqn:E0; [|discriminate]. clear J'.
  destruct (fresh_sched p _ _ _ E0) as (A & B & _). rewrite <- R in E0. destruct (Job_calls p G d j s0 s cs E0 A J) as [H S]. rewrite B in H.
  exists (Z.to_nat (Noutsnap s)). assert (0 <= Noutsnap s) by apply S. rewrite Z2Nat.id by assumption.
  split; [|split; [reflexivity | split; [apply S|]]].
  - replace (map Z.of_nat (seq 1 (Z.to_nat (Noutsnap s)))) with (upto 0 (Noutsnap s)); [apply calls_written; [exact G | lia | exact H]|].
    rewrite <- (Z.add_0_l (Noutsnap s)) at 1. now apply upto_nat.
  - intros i k f F1 F2. apply snapshot_name_iff in F1 as [I ->]. apply snapshot_name_iff in F2 as [K E]. exact (snap_name_inj p i k I K E).
Qed.
Print Assumptions C32_numbers.

(** The i-th call of Output writes snapshot [k] exactly if the [k - 1] snapshots before it are written and it is due. *)
Theorem C32_when : forall p d j s cs, good_pars p -> j_restart j = false -> Job_run p d j = Some (s, cs) ->
  forall i c k f, nth_error cs i = Some c -> snapshot_name p k f ->
  (opened f c <-> (exists ns, snapshots_written p (firstn i cs) ns /\ zlen ns = k - 1) /\ (due p k <= c_t c)%R).
Proof.
  intros p d j s cs G R J i c k f E F. assert (J' := J). unfold Job_run, SetupSimulation in J'. rewrite R in J'.
  destruct (GenerateIC p d false (j_ic j) (initial p)) as [s0|] eqn:E0; [|discriminate]. clear J'.
  destruct (fresh_sched p _ _ _ E0) as (A & B & _). rewrite <- R in E0. destruct (Job_calls p G d j s0 s cs E0 A J) as [H S]. rewrite B in H.
  rewrite (calls_when p G 0 cs _ i c k f ltac:(lia) H E F). split; intros [(ns & W & L) D]; (split; [exists ns; split; [exact W | lia] | exact D]).
Qed.
Print Assumptions C32_when.

(** With steps no longer than the output interval, a snapshot is written at the first call of Output at which it is due. *)
Theorem C32_first_opportunity : forall p d j s cs, good_pars p -> j_restart j = false -> Job_run p d j = Some (s, cs) ->
  (0 < dt_snap p)%R -> (0 < due p 2)%R -> Forall (fun x => 0 <= s_dt x <= dt_snap p)%R (j_steps j) ->
  forall i c k f, nth_error cs i = Some c -> snapshot_name p k f -> 1 <= k ->
  (opened f c <-> (due p k <= c_t c)%R /\ forall i' b, (i' < i)%nat -> nth_error cs i' = Some b -> (c_t b < due p k)%R).
Proof.
  intros p d j s cs G R J DT D2 ST. assert (J' := J). unfold Job_run, SetupSimulation in J'. rewrite R in J'.
  destruct (GenerateIC p d false (j_ic j) (initial p)) as [s0|] eqn:E0; [|discriminate].
  destruct (fresh_sched p _ _ _ E0) as (A & B & C). rewrite <- R in E0. destruct (Job_calls p G d j s0 s cs E0 A J) as [H S]. rewrite B in H.
  destruct (Output p true (j_late j) (PostInitialConditionsSetup p s0)) as [s1 o] eqn:E1. pose proof E1 as E1'. apply Output_chunks in E1 as (CH & O & H1 & T & _); [|exact G | exact A].
  destruct (Run p (j_target j) (j_steps j) s1) as [s2 cs2] eqn:E2. injection J' as <- <-. pose proof (Run_paced p G _ _ _ _ _ _ ST H1 E2) as PC.
  rewrite C in T. cbn [app] in *. rewrite B, C in O. unfold one in O. change (0 + 1) with 1 in O.
  intros i c k f E F K. destruct (Rlt_dec 0 (due p 1)) as [L | L].
  - assert (PC' : paced (dt_snap p) 0 (Call (t s1) o :: cs2)) by (constructor; [cbn [c_t]; rewrite T; lra | exact PC]).
    apply (calls_first p G 0 _ _ DT H 0%R PC' (Z.le_refl 0) L i c k f E F). lia.
  - (* snapshot 1 is due at once *)
    destruct O as [[N1 O] | [N1 O]]; [|exfalso; lra]. destruct (Run_calls p G _ _ _ _ _ H1 E2) as [H2 _]. rewrite N1 in H2.
    destruct i as [|i].
    + cbn in E. injection E as <-. rewrite (opened_iff p G (c_t (Call (t s1) o)) 0 (Call (t s1) o) 1 k f eq_refl ltac:(lia)); [| | |exact F].
      * cbn [c_t]. rewrite T. split; [intros [-> X]; split; [exact X | lia]|]. intros [X _]. split; [|exact X].
        destruct (Z_lt_le_dec k 2); [lia|]. pose proof (due_mono p 2 k ltac:(lra) ltac:(lia)). lra.
      * cbn [c_t c_ops]. rewrite T. rewrite B, C, N1 in CH. exact CH.
      * left. cbn [c_t]. rewrite T. split; [reflexivity | exact O].
    + cbn [nth_error] in E. destruct (Z.eq_dec k 1) as [-> | NK].
      * split; [intros X; apply (calls_tail_opened p G 1 _ _ 1 f i c ltac:(lia) H2 E F) in X; lia|].
        intros [_ X]. specialize (X 0%nat _ ltac:(lia) eq_refl). cbn in X. lra.
      * rewrite (calls_first p G 1 _ _ DT H2 (t s1) PC ltac:(lia) ltac:(cbn; lra) i c k f E F ltac:(lia)).
        split; intros [X Y]; (split; [exact X|]).
        -- intros [|i'] b I Ei; [cbn in Ei; injection Ei as <-; cbn; pose proof (due_mono p 2 k ltac:(lra) ltac:(lia)); lra | apply (Y i' b); [lia | exact Ei]].
        -- intros i' b I Ei. apply (Y (Datatypes.S i') b); [lia | exact Ei].
Qed.
Print Assumptions C32_first_opportunity.

(** At the end of the job the file holds the complete snapshot, with its number, the time at which it
    was due and the time at which it was written. *)
Theorem C32_contents : forall p d j s cs, good_pars p -> j_restart j = false -> Job_run p d j = Some (s, cs) ->
  forall c k f, In c cs -> snapshot_name p k f -> opened f c ->
  exists file h xs, apply d (ops_of cs) f = Some file /\ snapshot p file h xs /\ snapshot_header p k (c_t c) h.
Proof.
  intros p d j s cs G R J c k f I F O. assert (J' := J). unfold Job_run, SetupSimulation in J'. rewrite R in J'.
  destruct (GenerateIC p d false (j_ic j) (initial p)) as [s0|] eqn:E0; [|discriminate]. clear J'.
  destruct (fresh_sched p _ _ _ E0) as (A & B & _). rewrite <- R in E0. destruct (Job_calls p G d j s0 s cs E0 A J) as [H S]. rewrite B in H.
  apply In_nth_error in I as (i & E). destruct (calls_content p G 0 cs _ d i c k f ltac:(lia) H E F O) as (x & X1 & X2 & X3 & X4).
  exists (cont p x), (header_of p (fmt p) x), (parts x). split; [exact X4|]. split; [now apply cont_snapshot|]. rewrite <- X2, <- X3. apply cont_header; [exact X1|].
  apply (calls_tail_opened p G 0 cs _ k f i c ltac:(lia) H E F) in O. lia.
Qed.
Print Assumptions C32_contents.

(** ** Restarts *)

(** Jobs in the same directory, interrupted anywhere and restarted: the numbers go on after the number of the snapshot that the
    restart file names, and a snapshot still has the time that belongs to its number. *)
Theorem C32_restarts_partial : forall p d j s cs, good_pars p -> seren_pars p -> nbody p = false -> (0 < scale p)%R ->
  tsnapfirst p = dt_snap p \/ (tsnapfirst p <= 0)%R ->
  history p d -> Forall (fun x => 0 <= s_dt x)%R (j_steps j) -> Job_run p d j = Some (s, cs) ->
  exists k0 (n : nat), 0 <= k0 /\ starts_after p d j k0 /\ snapshots_written p cs (map (fun i => k0 + Z.of_nat i) (seq 1 n)) /\
  forall i c k f, nth_error cs i = Some c -> snapshot_name p k f ->
  (opened f c <-> (exists ns, snapshots_written p (firstn i cs) ns /\ k0 + zlen ns = k - 1) /\ (due p k <= c_t c)%R).
Proof.
  intros p d j s cs G SP NB SC TF H ST J. destruct (Job_any p G SP NB SC TF d j s cs (history_cons p G SP NB SC TF d H) ST J) as (n & N & C & _ & SA & _).
  exists n, (Z.to_nat (Noutsnap s - n)). split; [exact N|]. split; [exact SA|]. pose proof (calls_le p _ _ _ C). split.
  - rewrite <- upto_nat by lia. replace (n + (Noutsnap s - n)) with (Noutsnap s) by lia. apply calls_written; assumption.
  - intros i c k f E F. exact (calls_when p G n cs _ i c k f N C E F).
Qed.
Print Assumptions C32_restarts_partial.

(** ** The restart file *)

(** After a crash anywhere in a first job or in a restarted one, unless the restart file or the temporary snapshot it names
    was just being rewritten, the restart file names a completely written snapshot. *)
Theorem C33_crash_partial : forall p d j s cs d', good_pars p -> seren_pars p -> nbody p = false -> (0 < scale p)%R ->
  tsnapfirst p = dt_snap p \/ (tsnapfirst p <= 0)%R ->
  history p d -> Forall (fun x => 0 <= s_dt x)%R (j_steps j) -> Job_run p d j = Some (s, cs) ->
  j_restart j = true \/ d (restart_file p) = None -> crash d (ops_of cs) d' ->
  d' (restart_file p) = None \/ usable p d' \/ rewriting_restart p d' \/ rewriting_tmp p d'.
Proof.
  intros p d j s cs d' G SP NB SC TF H ST J F D. destruct (Job_any p G SP NB SC TF d j s cs (history_cons p G SP NB SC TF d H) ST J) as (n & N & C & _ & _ & SO).
  exact (calls_crash p G n cs _ d C (SO F) d' D).
Qed.
Print Assumptions C33_crash_partial.
(** The same for a first job, in any format and also for N-body simulations. *)
Theorem C33_first_partial : forall p d j s cs d', good_pars p -> j_restart j = false -> d (restart_file p) = None -> Job_run p d j = Some (s, cs) ->
  crash d (ops_of cs) d' ->
  d' (restart_file p) = None \/ usable p d' \/ rewriting_restart p d' \/ rewriting_tmp p d'.
Proof.
  intros p d j s cs d' G R DR J D. assert (J' := J). unfold Job_run, SetupSimulation in J'. rewrite R in J'.
  destruct (GenerateIC p d false (j_ic j) (initial p)) as [s0|] eqn:E0; [|discriminate]. clear J'.
  destruct (fresh_sched p _ _ _ E0) as (A & B & _). rewrite <- R in E0. destruct (Job_calls p G d j s0 s cs E0 A J) as [H S]. rewrite B in H.
  apply (calls_crash p G 0 cs _ d H); [now left | exact D].
Qed.
Print Assumptions C33_first_partial.
(** Numbered snapshots are not touched again: when number [k+1] has been opened, number [k] is complete. *)
Theorem C33_numbered_kept : forall p d j s cs d', good_pars p -> j_restart j = false -> (forall f, is_snapshot p f -> d f = None) -> Job_run p d j = Some (s, cs) ->
  crash d (ops_of cs) d' -> forall k f g, 1 <= k -> snapshot_name p k f -> snapshot_name p (k + 1) g -> d' g <> None ->
  exists c h xs th, d' f = Some c /\ snapshot p c h xs /\ snapshot_header p k th h.
Proof.
  intros p d j s cs d' G R DN J D k f g K F F' NG. assert (J' := J). unfold Job_run, SetupSimulation in J'. rewrite R in J'.
  destruct (GenerateIC p d false (j_ic j) (initial p)) as [s0|] eqn:E0; [|discriminate]. clear J'.
  destruct (fresh_sched p _ _ _ E0) as (A & B & _). rewrite <- R in E0. destruct (Job_calls p G d j s0 s cs E0 A J) as [H S]. rewrite B in H.
  assert (HV : have p 0 0 d). { split; [intros; lia|]. intros i I. apply DN. apply is_snap; lia. }
  destruct (calls_have p G 0 cs _ 0 d H ltac:(lia) HV d' D) as (m & M & H1 & H2).
  apply snapshot_name_iff in F as [_ ->]. apply snapshot_name_iff in F' as [_ ->].
  assert (k <= m). { destruct (Z_le_gt_dec k m); [assumption|]. exfalso. apply NG. apply H2. lia. }
  destruct (H1 k ltac:(lia)) as (x & X1 & X2 & X3). exists (cont p x), (header_of p (fmt p) x), (parts x), (t x). split; [exact X3|]. split; [now apply cont_snapshot|].
  rewrite <- X2. apply cont_header; [exact X1 | lia].
Qed.
Print Assumptions C33_numbered_kept.

(** ** Counterexamples *)

Definition empty : disk := fun _ => None.
Definition par (form : string) (nb : bool) (tfirst dt : R) (nrs : Z) (sc : R) : pars :=
  Pars (lit "A") (lit form) nb tfirst dt 0 0 1 nrs sc 10.
Definition stepx (dt : R) : step := Step dt [7; 9] true false false.
Definition jobx (restart : bool) (l : list R) : job := Job restart [7; 8] false 100 (map stepx l).
Ltac ev := cbn -[snap_name tmp_name restart_name WriteSnapshotFile write_restart RestartSnapshot Rle_dec Rlt_dec Rplus Rmult Rdiv].
Ltac run1 := match goal with
  | |- context [Rle_dec ?a ?b] => destruct (Rle_dec a b); [try (exfalso; lra) | try (exfalso; lra)]
  | |- context [Rlt_dec ?a ?b] => destruct (Rlt_dec a b); [try (exfalso; lra) | try (exfalso; lra)]
  end; ev.
Ltac runx := unfold Job_run, SetupSimulation; ev; unfold Output, OutputLite; ev; unfold OutputSnap; ev; repeat run1; reflexivity.
Ltac runy d' x := assert (GI : GenerateIC _ d' true [7; 8] _ = Some x) by reflexivity; unfold Job_run, SetupSimulation; cbn [j_restart j_ic jobx]; rewrite GI; clear GI; ev; unfold Output, OutputLite; ev; unfold OutputSnap; ev; repeat run1; reflexivity.
Ltac good := split; [cbn; tauto | intros ? [<- | []]; cbn; intuition discriminate].

(** Steps longer than the output interval: snapshot 2 is due at time 2 and not written at time 5. *)
Theorem C32_lag_refuted : exists p j s cs k f, good_pars p /\ j_restart j = false /\ (0 < dt_snap p)%R /\ Job_run p empty j = Some (s, cs) /\
  snapshot_name p k f /\ 1 <= k /\ (due p k <= t s)%R /\ forall c, In c cs -> ~ opened f c.
Proof.
  exists (par "su" false 1 1 100 1), (jobx false [5%R]). do 2 eexists. exists 2, (snap_name (par "su" false 1 1 100 1) 2).
  split; [good|]. split; [reflexivity|]. split; [cbn; lra|]. split; [runx|].
  split; [apply snapshot_name_iff; split; [lia | reflexivity]|]. split; [lia|]. split; [unfold due; cbn; lra|].
  intros c [<- | [<- | []]]; unfold opened; vm_compute; intuition discriminate.
Qed.
Print Assumptions C32_lag_refuted.

(** After a restart in column format the numbers start again: the second job overwrites snapshot 1 of the first. *)
Theorem C32_column_restart_refuted : exists p j1 s1 cs1 j2 s2 cs2 f, good_pars p /\ nbody p = false /\ scale p = 1%R /\
  j_restart j1 = false /\ Job_run p empty j1 = Some (s1, cs1) /\ j_restart j2 = true /\ Job_run p (apply empty (ops_of cs1)) j2 = Some (s2, cs2) /\
  snapshot_name p 1 f /\ (exists c, In c cs1 /\ opened f c) /\ exists c, In c cs2 /\ opened f c.
Proof.
  exists (par "column" false 0 1 100 1), (jobx false []). do 2 eexists. exists (jobx true [1%R]). do 2 eexists. exists (snap_name (par "column" false 0 1 100 1) 1).
  split; [good|]. split; [reflexivity|]. split; [reflexivity|]. split; [reflexivity|]. split; [runx|]. split; [reflexivity|]. split.
  { match goal with |- Job_run _ ?d' _ = _ => assert (GI : GenerateIC (par "column" false 0 1 100 1) d' true [7; 8] (initial (par "column" false 0 1 100 1)) =
      Some (Sim (0 * 1 / 1 / 1)%R (0 * 1 / 1 / 1 + 1)%R (0 * 1 / 1 / 1)%R 0 (0 / 1 + 1)%R (0 / 1)%R 0 0 0 false [7; 8])) by reflexivity end.
    unfold Job_run, SetupSimulation; cbn [j_restart j_ic jobx]; rewrite GI; clear GI; ev; unfold Output, OutputLite; ev; unfold OutputSnap; ev.
    repeat run1. reflexivity. }
  split; [apply snapshot_name_iff; split; [lia | reflexivity]|]. split; [eexists; split; [left; reflexivity | left; reflexivity] | eexists; split; [right; left; reflexivity | left; reflexivity]].
Qed.
Print Assumptions C32_column_restart_refuted.

(** In that format the time is converted to code units twice. *)
Theorem C32_column_time_refuted : exists p j1 s1 cs1 j2 s2 cs2, good_pars p /\ nbody p = false /\ (0 < scale p)%R /\
  j_restart j1 = false /\ Job_run p empty j1 = Some (s1, cs1) /\ j_restart j2 = true /\ j_steps j2 = [] /\
  Job_run p (apply empty (ops_of cs1)) j2 = Some (s2, cs2) /\ t s2 <> t s1.
Proof.
  exists (par "column" false 4 1 100 2), (jobx false [4%R]). do 2 eexists. exists (jobx true []). do 2 eexists.
  split; [good|]. split; [reflexivity|]. split; [cbn; lra|]. split; [reflexivity|]. split; [runx|]. split; [reflexivity|]. split; [reflexivity|]. split.
  { match goal with |- Job_run _ ?d' _ = _ => assert (GI : GenerateIC (par "column" false 4 1 100 2) d' true [7; 8] (initial (par "column" false 4 1 100 2)) =
      Some (Sim ((0 + 4) * 2 / 2 / 2)%R ((0 + 4) * 2 / 2 / 2 + 1)%R ((0 + 4) * 2 / 2 / 2)%R 0 (0 / 2 + 1)%R (0 / 2)%R 0 0 0 false [7; 9])) by reflexivity end.
    unfold Job_run, SetupSimulation; cbn [j_restart j_ic jobx]; rewrite GI; clear GI; ev; unfold Output, OutputLite; ev; unfold OutputSnap; ev.
    repeat run1. reflexivity. }
  cbn. lra.
Qed.
Print Assumptions C32_column_time_refuted.

(** The same in an N-body simulation, in any format. *)
Theorem C32_nbody_restart_refuted : exists p j1 s1 cs1 j2 s2 cs2 f, good_pars p /\ seren_pars p /\ scale p = 1%R /\
  j_restart j1 = false /\ Job_run p empty j1 = Some (s1, cs1) /\ j_restart j2 = true /\ Job_run p (apply empty (ops_of cs1)) j2 = Some (s2, cs2) /\
  snapshot_name p 1 f /\ (exists c, In c cs1 /\ opened f c) /\ exists c, In c cs2 /\ opened f c.
Proof.
  exists (par "su" true 0 1 100 1), (jobx false []). do 2 eexists. exists (jobx true [1%R]). do 2 eexists. exists (snap_name (par "su" true 0 1 100 1) 1).
  split; [good|]. split; [cbn; tauto|]. split; [reflexivity|]. split; [reflexivity|]. split; [runx|]. split; [reflexivity|]. split.
  { match goal with |- Job_run _ ?d' _ = _ => assert (GI : GenerateIC (par "su" true 0 1 100 1) d' true [7; 8] (initial (par "su" true 0 1 100 1)) =
      Some (Sim (0 * 1 / 1)%R (0 * 1 / 1 + 1)%R (0 * 1 / 1)%R 1 (0 * 1 / 1 + 1)%R (0 * 1 / 1)%R 0 0 0 false [7; 8])) by reflexivity end.
    unfold Job_run, SetupSimulation; cbn [j_restart j_ic jobx]; rewrite GI; clear GI; ev; unfold Output, OutputLite; ev; unfold OutputSnap; ev.
    repeat run1. reflexivity. }
  split; [apply snapshot_name_iff; split; [lia | reflexivity]|]. split; [eexists; split; [left; reflexivity | left; reflexivity] | eexists; split; [right; left; reflexivity | left; reflexivity]].
Qed.
Print Assumptions C32_nbody_restart_refuted.

(** A restart from a temporary snapshot before the first output time: that time is forgotten, snapshot 1 (due at 5) is written at 1. *)
Theorem C32_first_refuted : exists p j1 s1 cs1 j2 s2 cs2 f c, good_pars p /\ seren_pars p /\ nbody p = false /\ scale p = 1%R /\
  j_restart j1 = false /\ Job_run p empty j1 = Some (s1, cs1) /\ j_restart j2 = true /\ Job_run p (apply empty (ops_of cs1)) j2 = Some (s2, cs2) /\
  snapshot_name p 1 f /\ In c cs2 /\ opened f c /\ (c_t c < due p 1)%R.
Proof.
  exists (par "su" false 5 1 0 1), (jobx false []). do 2 eexists. exists (jobx true [1%R]). do 2 eexists. exists (snap_name (par "su" false 5 1 0 1) 1). eexists.
  split; [good|]. split; [cbn; tauto|]. split; [reflexivity|]. split; [reflexivity|]. split; [reflexivity|]. split; [runx|]. split; [reflexivity|]. split.
  { match goal with |- Job_run _ ?d' _ = _ => assert (GI : GenerateIC (par "su" false 5 1 0 1) d' true [7; 8] (initial (par "su" false 5 1 0 1)) =
      Some (Sim (0 * 1 / 1)%R (0 * 1 / 1 + 1)%R (0 * 1 / 1)%R 0 (0 * 1 / 1 + 1)%R (0 * 1 / 1)%R 0 0 0 false [7; 8])) by reflexivity end.
    unfold Job_run, SetupSimulation; cbn [j_restart j_ic jobx]; rewrite GI; clear GI; ev; unfold Output, OutputLite; ev; unfold OutputSnap; ev.
    repeat run1. reflexivity. }
  split; [apply snapshot_name_iff; split; [lia | reflexivity]|]. split; [right; left; reflexivity|]. split; [left; reflexivity|]. cbn. unfold due. cbn. lra.
Qed.
Print Assumptions C32_first_refuted.

(** A crash just after the restart file was opened for writing: snapshot 1 and the temporary snapshot are complete, the
    restart file named the first one before, but now it names nothing and a restarted job reads no snapshot. *)
Theorem C33_restart_refuted : exists p j s cs d1 f l d2, good_pars p /\ j_restart j = false /\ Job_run p empty j = Some (s, cs) /\
  crash empty (ops_of cs) d1 /\ names p d1 f /\ complete p d1 f /\ crash d1 l d2 /\ crash empty (ops_of cs) d2 /\
  complete p d2 f /\ ~ (exists g, names p d2 g) /\ forall ic, Job_run p d2 (Job true ic false 100 []) = None.
Proof.
  set (p := par "su" false 0 1 0 1). set (s := Sim 0 (0 + 1) 0 1 0 0 0 0 0 false [7; 8]).
  set (o1 := WriteSnapshotFile p (snap_name p 1) (out_file_form p) s ++ write_restart p (snap_name p 1)).
  set (o2 := WriteSnapshotFile p (tmp_name p) (out_file_form p) s ++ [Trunc (restart_name p)]).
  exists p, (jobx false []). do 2 eexists. exists (apply empty o1), (snap_name p 1), o2, (apply empty (o1 ++ o2)).
  split; [good|]. split; [reflexivity|]. split; [subst p; runx|].
  split; [exists o1, (o2 ++ map (App (restart_name p)) (restart_lines p (tmp_name p))); split; reflexivity|].
  split; [left; reflexivity|].
  split; [exists (Hdr SerenUnform (header_of p SerenUnform s) :: map Dat (parts s)), (header_of p SerenUnform s), (parts s); split; [reflexivity|]; exists SerenUnform; split; [left; reflexivity|]; split; [reflexivity|]; reflexivity|].
  split; [exists o2, []; split; [now rewrite app_nil_r | apply apply_app]|].
  split; [exists (o1 ++ o2), (map (App (restart_name p)) (restart_lines p (tmp_name p))); split; reflexivity|].
  split; [exists (Hdr SerenUnform (header_of p SerenUnform s) :: map Dat (parts s)), (header_of p SerenUnform s), (parts s); split; [reflexivity|]; exists SerenUnform; split; [left; reflexivity|]; split; [reflexivity|]; reflexivity|].
  split; [intros (f & [E | E]); discriminate E|]. intros ic. reflexivity.
Qed.
Print Assumptions C33_restart_refuted.

(** A crash just after the temporary snapshot was opened for writing, while the restart file names it: a restarted job reads no snapshot. *)
Theorem C33_tmp_refuted : exists p j s cs d1 l d2, good_pars p /\ j_restart j = false /\ Job_run p empty j = Some (s, cs) /\
  crash empty (ops_of cs) d1 /\ usable p d1 /\ crash d1 l d2 /\ crash empty (ops_of cs) d2 /\
  names p d2 (tmp_file p) /\ ~ complete p d2 (tmp_file p) /\ forall ic, Job_run p d2 (Job true ic false 100 []) = None.
Proof.
  set (p := par "su" false 0 1 0 1). set (s := Sim 0 (0 + 1) 0 1 0 0 0 0 0 false [7; 8]).
  set (s' := Sim (0 + 1 / 2) (0 + 1) 0 1 0 0 0 1 0 false [7; 9]).
  set (o1 := (WriteSnapshotFile p (snap_name p 1) (out_file_form p) s ++ write_restart p (snap_name p 1)) ++ WriteSnapshotFile p (tmp_name p) (out_file_form p) s ++ write_restart p (tmp_name p)).
  set (o2 := [Trunc (tmp_name p)]). set (o3 := map (App (tmp_name p)) (Hdr SerenUnform (header_of p SerenUnform s') :: map Dat (parts s')) ++ write_restart p (tmp_name p)).
  exists p, (jobx false [1 / 2]%R). do 2 eexists. exists (apply empty o1), o2, (apply empty (o1 ++ o2)).
  split; [good|]. split; [reflexivity|]. split; [subst p; runx|].
  split; [exists o1, (o2 ++ o3); split; reflexivity|].
  split; [exists (tmp_name p); split; [left; reflexivity|]; exists (Hdr SerenUnform (header_of p SerenUnform s) :: map Dat (parts s)), (header_of p SerenUnform s), (parts s); split; [reflexivity|]; exists SerenUnform; split; [left; reflexivity|]; split; [reflexivity|]; reflexivity|].
  split; [exists o2, []; split; [now rewrite app_nil_r | apply apply_app]|].
  split; [exists (o1 ++ o2), o3; split; reflexivity|].
  split; [left; reflexivity|]. split; [intros (c & h & xs & E & k & _ & -> & _); discriminate E|]. intros ic. reflexivity.
Qed.
Print Assumptions C33_tmp_refuted.

(** ** A run that meets the hypotheses *)
Definition ex_p : pars := par "su" false 1 1 2 1.
Example C32_ex : good_pars ex_p /\ seren_pars ex_p /\ tsnapfirst ex_p = dt_snap ex_p /\ exists s cs s2 cs2,
  Job_run ex_p empty (jobx false [1; 1 / 2; 1]%R) = Some (s, cs) /\ Noutsnap s = 2 /\
  snapshots_written ex_p cs [1; 2] /\
  Job_run ex_p (apply empty (ops_of cs)) (jobx true [1 / 2]%R) = Some (s2, cs2) /\ snapshots_written ex_p cs2 [3].
Proof.
  split; [good|]. split; [cbn; tauto|]. split; [reflexivity|]. do 4 eexists. split; [runx|]. split; [reflexivity|]. split.
  { destruct (C32_numbers ex_p empty (jobx false [1; 1 / 2; 1]%R) _ _ ltac:(good) eq_refl ltac:(runx)) as (n & W & N & _). cbn in N. assert (n = 2%nat) as -> by lia. exact W. }
  split.
  { match goal with |- Job_run _ ?d' _ = _ => assert (GI : GenerateIC ex_p d' true [7; 8] (initial ex_p) =
      Some (Sim ((0 + 1 + 1 / 2 + 1) * 1 / 1)%R ((1 + 1) * 1 / 1 + 1)%R ((1 + 1) * 1 / 1)%R 2 (0 * 1 / 1 + 1)%R (0 * 1 / 1)%R 0 3 0 false [7; 9])) by reflexivity end.
    unfold Job_run, SetupSimulation; cbn [j_restart j_ic jobx]; rewrite GI; clear GI; ev; unfold Output, OutputLite; ev; unfold OutputSnap; ev.
    repeat run1. reflexivity. }
  exists [snap_name ex_p 3]. split; [|constructor; [apply snapshot_name_iff; split; [lia | reflexivity] | constructor]].
  assert (GP : good_pars ex_p) by good. cbn [flat_map c_ops]. rewrite !opens_app. unfold RestartSnapshot, write_restart. rewrite !opens_app, !opens_write.
  change (opens (WriteSnapshotFile ?a ?b ?c ?e)) with [b]. cbn [app].
  repeat first [apply sub_nil | apply sub_skip; [first [now apply not_snap_tmp | now apply not_snap_restart]|] | apply sub_take; [now apply is_snap|]].
Qed.
