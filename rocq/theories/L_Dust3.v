From Verif Require Import Prelude Vec M_Box L_Box M_Dust S_Diag S_Dust L_Diag L_Dust L_Dust2.
From Coq Require Import Reals Lra Lia List Permutation.
Local Open Scope R_scope.

Lemma osum_go : forall (l : list (option R)) x a, fold_left oplus l x = Some a -> exists b, x = Some b.
Proof.
  intros l. induction l as [|y l IH]; intros x a; cbn [fold_left]; [eauto|]. intros H. destruct (IH _ _ H) as (b & E).
  destruct x; [eauto|discriminate].
Qed.
Lemma osum_some : forall (l : list (option R)) f x, (forall y, In y l -> y = Some (f y)) -> fold_left oplus l (Some x) = Some (x + lsum f l).
Proof.
  intros l. induction l as [|y l IH]; intros f x H; cbn [fold_left lsum]; [f_equal; lra|].
  rewrite (H y) at 1 by (left; reflexivity). cbn [oplus]. rewrite (IH f); [f_equal; ring|]. intros; apply H; right; auto.
Qed.
Definition val (x : option R) : R := match x with Some a => a | None => 0 end.
Lemma osum_val l : (forall y, In y l -> y <> None) -> osum l = Some (lsum val l).
Proof. intros H. unfold osum. rewrite (osum_some l val); [f_equal; ring|]. intros [a|] I; [reflexivity|]. destruct (H _ I). reflexivity. Qed.

Lemma active_in N active i : Permutation active (seq 0 N) -> (i < N)%nat -> existsb (Nat.eqb i) active = true.
Proof.
  intros act I. apply existsb_exists. exists i. split; [|apply Nat.eqb_refl]. apply (Permutation_in _ (Permutation_sym act)). apply in_seq. lia.
Qed.
Section Energy.
Variables (ndim : nat) (sch : scheme) (w_tstep : R) (wdrag : R -> R) (lw : law) (Kd : R).
Notation wkern := (wkern ndim wdrag).
Notation drag_of := (drag_of ndim sch w_tstep wdrag lw Kd true).
Notation dudt_of := (dudt_of ndim sch w_tstep wdrag lw Kd true).
Notation dragdt := (drag_timestep w_tstep).
Variables (ps : nat -> dpt) (N : nat) (neibs : nat -> list (nat * vec)) (active : list nat).
Hypothesis act : Permutation active (seq 0 N).
Hypothesis inN : forall i x, (i < N)%nat -> In x (neibs i) -> (fst x < N)%nat.
Hypothesis rho : forall i, (i < N)%nat -> d_kind (ps i) = Gas -> d_rho (ps i) <> 0.
(** Sum of the kernel over the gas seen by a dust particle. *)
Definition gas_weight (i : nat) : R :=
  lsum (fun x => match d_kind (ps (fst x)) with Gas => wkern (ps i) (set_pos (ps (fst x)) (snd x)) * (d_m (ps (fst x)) / d_rho (ps (fst x))) | _ => 0 end) (neibs i).
Hypothesis nz : forall i, (i < N)%nat -> d_kind (ps i) = Dust -> gas_weight i <> 0.

Definition dEk (i : nat) : R := let acc := x_acc (drag_of ps neibs i) in
  sumf ndim (fun k => acc k * (init_v sch (ps i) k + total_accel sch (ps i) k * dragdt (ps i) + acc k * dragdt (ps i) / 2)).
Definition gneibs (i : nat) := filter (fun q : nat * dpt => dragmask (d_kind (ps i)) (d_kind (snd q))) (copies ps (neibs i)).
Lemma gneibs_in i q : (i < N)%nat -> d_kind (ps i) = Dust -> In q (gneibs i) ->
  (fst q < N)%nat /\ d_kind (ps (fst q)) = Gas /\ d_m (snd q) = d_m (ps (fst q)) /\ d_rho (snd q) = d_rho (ps (fst q)).
Proof.
  intros I K. unfold gneibs, copies. rewrite filter_In, in_map_iff. intros ((x & <- & X) & M). cbn [fst snd set_pos d_m d_rho d_kind] in *.
  repeat split; auto. - apply (inN i); auto. - rewrite K in M. destruct (d_kind (ps (fst x))); try discriminate. reflexivity.
Qed.
Lemma norm_is i dt s0 : d_kind (ps i) = Dust -> g_norm s0 = 0 ->
  g_norm (fold_left (fun s q => drag_step ndim sch wdrag lw Kd (ps i) dt s (snd q)) (gneibs i) s0) = gas_weight i.
Proof.
  intros K Z. destruct (drag_fold ndim sch wdrag lw Kd (ps i) dt (gneibs i) s0) as (A & _). rewrite A, Z.
  unfold gas_weight, gneibs. rewrite lsum_filter. unfold copies. rewrite lsum_map, Rplus_0_l. apply lsum_ext. intros x X. cbn [fst snd set_pos d_m d_rho d_kind].
  rewrite K. destruct (d_kind (ps (fst x))); reflexivity.
Qed.
Lemma own_is i : (i < N)%nat -> x_own (drag_of ps neibs i) = Some (match d_kind (ps i) with Gas => - dEk i | _ => 0 end).
Proof.
  intros I. unfold M_Dust.drag_of. cbv zeta. fold (gneibs i). unfold dEk, M_Dust.drag_of. cbv zeta. fold (gneibs i).
  unfold ComputeDragForces. cbv zeta. destruct (d_kind (ps i)); cbn [drag_forces x_own x_acc]; reflexivity.
Qed.
Lemma neib_is i : (i < N)%nat -> x_neib (drag_of ps neibs i) =
  match d_kind (ps i) with
  | Dust => map (fun q => (fst q, Some (- (d_m (ps i) * dEk i) * (wkern (ps i) (snd q) / (gas_weight i * d_rho (snd q)))))) (gneibs i)
  | _ => [] end.
Proof.
  intros I. unfold M_Dust.drag_of. cbv zeta. fold (gneibs i). unfold dEk, M_Dust.drag_of. cbv zeta. fold (gneibs i).
  unfold ComputeDragForces. cbv zeta. destruct (d_kind (ps i)) eqn:K; cbn [drag_forces x_neib x_acc]; try reflexivity.
  apply map_ext_in. intros q Q. f_equal. rewrite (norm_is i); auto.
  destruct (gneibs_in i q I K Q) as (Q1 & Q2 & Q3 & Q4).
  unfold odiv. destruct (Req_EM_T _ 0) as [E|_].
  { apply Rmult_integral in E. destruct E as [E|E]; [destruct (nz i I K E)|]. rewrite Q4 in E. destruct (rho _ Q1 Q2 E). }
  cbn [oscal option_map]. reflexivity.
Qed.
(** Heat given to i, as a number. *)
Definition share (a i : nat) : R := match d_kind (ps a) with
  | Dust => lsum (fun q => if Nat.eqb (fst q) i then - (d_m (ps a) * dEk a) * (wkern (ps a) (snd q) / (gas_weight a * d_rho (snd q))) else 0) (gneibs a)
  | _ => 0 end.
Definition own (i : nat) : R := match d_kind (ps i) with Gas => - dEk i | _ => 0 end.
Lemma dudt_is i : (i < N)%nat -> dudt_of ps neibs active i = Some (own i + lsum (fun a => share a i) (seq 0 N)).
Proof.
  intros I. assert (AN : forall a, In a active -> (a < N)%nat). { intros a A. apply (Permutation_in _ act) in A. apply in_seq in A. lia. }
  unfold M_Dust.dudt_of. rewrite osum_val.
  - rewrite lsum_flat. f_equal.
    rewrite (lsum_ext _ _ (fun a => (if Nat.eqb a i then own a else 0) + share a i)).
    + rewrite (lsum_perm _ _ _ _ act), lsum_plus, pick by apply seq_NoDup.
      replace (existsb (Nat.eqb i) (seq 0 N)) with true; [reflexivity|]. symmetry. apply existsb_exists. exists i. split; [apply in_seq; lia|apply Nat.eqb_refl].
    + intros a A. specialize (AN a A). rewrite lsum_app. f_equal.
      * destruct (Nat.eqb a i); cbn [lsum]; [|reflexivity]. rewrite own_is by auto. cbn [val]. unfold own. lra.
      * rewrite lsum_map, lsum_filter, neib_is by auto. unfold share. destruct (d_kind (ps a)); try reflexivity. rewrite lsum_map. reflexivity.
  - intros y Y. apply in_flat_map in Y. destruct Y as (a & A & Y). specialize (AN a A). apply in_app_iff in Y. destruct Y as [Y|Y].
    + destruct (Nat.eqb a i); [|destruct Y]. destruct Y as [<-|[]]. rewrite own_is by auto. discriminate.
    + apply in_map_iff in Y. destruct Y as (z & <- & Z). apply filter_In in Z. destruct Z as (Z & _). rewrite neib_is in Z by auto.
      destruct (d_kind (ps a)); try destruct Z. apply in_map_iff in Z. destruct Z as (q & <- & _). cbn [snd]. discriminate.
Qed.
Lemma gas_pick (f : nat -> R) j : (j < N)%nat -> d_kind (ps j) = Gas -> lsum (fun i => if Nat.eqb j i then f i else 0) (of_kind Gas ps N) = f j.
Proof.
  intros J K. unfold of_kind.
  rewrite (lsum_ext _ _ (fun i => if Nat.eqb i j then f i else 0)) by (intros; rewrite Nat.eqb_sym; reflexivity).
  rewrite pick by (apply NoDup_filter, seq_NoDup).
  replace (existsb _ _) with true; [reflexivity|]. symmetry. apply existsb_exists. exists j. rewrite filter_In, in_seq, K, Nat.eqb_refl. cbn. repeat split; auto; lia.
Qed.
Lemma share_total a : (a < N)%nat -> d_kind (ps a) = Dust -> lsum (fun i => d_m (ps i) * share a i) (of_kind Gas ps N) = - (d_m (ps a) * dEk a).
Proof.
  intros A K. unfold share. rewrite K.
  rewrite (lsum_ext _ _ (fun i => lsum (fun q => if Nat.eqb (fst q) i then d_m (ps i) * (- (d_m (ps a) * dEk a) * (wkern (ps a) (snd q) / (gas_weight a * d_rho (snd q)))) else 0) (gneibs a))).
  2:{ intros i _. rewrite <- lsum_scal. apply lsum_ext. intros q _. destruct (Nat.eqb _ _); ring. }
  rewrite lsum_swap.
  rewrite (lsum_ext _ _ (fun q => - (d_m (ps a) * dEk a) / gas_weight a * (wkern (ps a) (snd q) * (d_m (snd q) / d_rho (snd q))))).
  - rewrite lsum_scal.
    destruct (drag_fold ndim sch wdrag lw Kd (ps a) 0 (gneibs a) (mkdrag 0 (fun _ => 0) 0 0)) as (E & _). cbn [g_norm] in E. rewrite Rplus_0_l in E.
    rewrite <- E, (norm_is a) by auto. field. apply nz; auto.
  - intros q Q. destruct (gneibs_in a q A K Q) as (Q1 & Q2 & Q3 & Q4).
    rewrite (gas_pick (fun i => d_m (ps i) * (- (d_m (ps a) * dEk a) * (wkern (ps a) (snd q) / (gas_weight a * d_rho (snd q))))) (fst q)) by auto. rewrite Q3. field. rewrite Q4. split; [apply rho; auto|apply nz; auto].
Qed.
Lemma heat_received : lsum (fun i => d_m (ps i) * lsum (fun a => share a i) (seq 0 N)) (of_kind Gas ps N) = - lsum (fun a => d_m (ps a) * dEk a) (of_kind Dust ps N).
Proof.
  rewrite (lsum_ext _ _ (fun i => lsum (fun a => d_m (ps i) * share a i) (seq 0 N))) by (intros; rewrite lsum_scal; reflexivity).
  rewrite lsum_swap. unfold of_kind at 2. rewrite lsum_filter, <- lsum_opp. apply lsum_ext. intros a A. apply in_seq in A.
  destruct (d_kind (ps a)) eqn:K; cbn [kind_eqb].
  - rewrite Ropp_0. apply lsum_0. intros i _. unfold share. rewrite K. ring.
  - rewrite Ropp_0. apply lsum_0. intros i _. unfold share. rewrite K. ring.
  - apply share_total; auto; lia.
Qed.
Lemma dEk_kin i : dEk i * dragdt (ps i) = kin ndim (fun k => init_v sch (ps i) k + total_accel sch (ps i) k * dragdt (ps i) + x_acc (drag_of ps neibs i) k * dragdt (ps i)) -
  kin ndim (fun k => init_v sch (ps i) k + total_accel sch (ps i) k * dragdt (ps i)).
Proof.
  unfold dEk, kin, dot. cbv zeta. rewrite Rmult_comm, <- !sumf_scal, <- sumf_minus. apply sumf_ext. intros k _. field.
Qed.
Lemma all_kinds (f : nat -> R) : (forall i, (i < N)%nat -> d_kind (ps i) = Cdm -> f i = 0) -> lsum f (seq 0 N) = lsum f (of_kind Gas ps N) + lsum f (of_kind Dust ps N).
Proof.
  intros C. unfold of_kind. rewrite !lsum_filter, <- lsum_plus. apply lsum_ext. intros i I. apply in_seq in I.
  destruct (d_kind (ps i)) eqn:K; cbn [kind_eqb]; [ring| |ring]. rewrite C; auto; [ring|lia].
Qed.
Lemma cdm_free i : (i < N)%nat -> d_kind (ps i) = Cdm -> forall k, x_acc (drag_of ps neibs i) k = 0.
Proof. intros I K k. unfold M_Dust.drag_of. cbv zeta. rewrite K. reflexivity. Qed.
End Energy.

