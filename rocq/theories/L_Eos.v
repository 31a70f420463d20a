(** Lemmas about the equations of state. *)
From Verif Require Import Prelude Vec M_Box L_Box M_Eos S_Eos.
From Coq Require Import Reals String Lra Lia.
Local Open Scope R_scope.

Lemma rpower_pos a b : 0 < Rpower a b.
Proof. apply exp_pos. Qed.
Lemma rpower_succ a b : 0 < a -> Rpower a (b + 1) = Rpower a b * a.
Proof. intros A. rewrite Rpower_plus, (Rpower_1 a A). reflexivity. Qed.
Lemma dlinear c r : derivable_pt_lim (fun s => c * s) r c.
Proof.
  pose proof (derivable_pt_lim_scal id c r 1 (derivable_pt_lim_id r)) as H. rewrite Rmult_1_r in H. exact H.
Qed.
Lemma dpower c y r : 0 < r -> derivable_pt_lim (fun s => c * Rpower s y) r (c * (y * Rpower r (y - 1))).
Proof. intros A. apply (derivable_pt_lim_scal (fun s => Rpower s y)). apply derivable_pt_lim_power; exact A. Qed.
Lemma dext f g x l : (forall z, x / 2 < z < x + 1 -> f z = g z) -> 0 < x -> derivable_pt_lim f x l -> derivable_pt_lim g x l.
Proof. intros A B C. apply derivable_pt_lim_locally_ext with (f := f) (a := x / 2) (b := x + 1); [lra|exact A|exact C]. Qed.
Lemma fold_min (l : list vec) (f : vec -> R) : forall m, (forall s, In s l -> f s <= m) ->
  let d := fold_left (fun m s => Rmin (f s) m) l m in
  (l <> [] -> exists s, In s l /\ d = f s) /\ (forall s, In s l -> d <= f s) /\ d <= m.
Proof.
  assert (G : forall l m, let d := fold_left (fun m s => Rmin (f s) m) l m in
     (d = m \/ exists s, In s l /\ d = f s) /\ (forall s, In s l -> d <= f s) /\ d <= m).
  { clear l. induction l as [|a l IH]; intros m; cbn [fold_left].
    - split; [left; reflexivity|split; [intros s []|apply Rle_refl]].
    - destruct (IH (Rmin (f a) m)) as (A & B & C). cbv zeta in *. split; [|split].
      + destruct A as [A|(s & I & A)]; [|right; exists s; split; [right; exact I|exact A]].
        rewrite A. unfold Rmin. destruct (Rle_dec (f a) m); [right; exists a; split; [left; reflexivity|reflexivity]|left; reflexivity].
      + intros s [->|I]; [|apply B; exact I]. eapply Rle_trans; [exact C|apply Rmin_l].
      + eapply Rle_trans; [exact C|apply Rmin_r]. }
  intros m H. destruct (G l m) as (A & B & C). cbv zeta in *. repeat split; auto.
  intros N. destruct A as [A|A]; [|exact A]. destruct l as [|a l]; [congruence|]. exists a. split; [left; reflexivity|].
  apply Rle_antisym; [apply B; left; reflexivity|]. rewrite A. apply H. left; reflexivity.
Qed.
Lemma sqrt_fold_min n l r m : l <> [] -> (forall s, In s l -> dot n (vsub r s) (vsub r s) <= m) ->
  nearest n l r (sqrt (fold_left (fun m s => Rmin (dot n (vsub r s) (vsub r s)) m) l m)).
Proof.
  intros N H. destruct (fold_min l (fun s => dot n (vsub r s) (vsub r s)) m H) as (A & B & C). cbv zeta in *. split.
  - destruct (A N) as (s & I & E). exists s. split; [exact I|]. rewrite E. reflexivity.
  - intros s I. unfold norm. apply sqrt_le_1_alt. apply B. exact I.
Qed.
Lemma fold_energy n rho (v : vec) : forall a, fold_left (fun a i => a + 1 / 2 * rho * v i * v i) (seq 0 n) a = a + 1 / 2 * rho * dot n v v.
Proof.
  assert (G : forall l a, fold_left (fun a i => a + 1 / 2 * rho * v i * v i) l a = a + 1 / 2 * rho * fold_right (fun i t => v i * v i + t) 0 l).
  { induction l as [|i l IH]; intros a; cbn [fold_left fold_right]; [lra|]. rewrite IH. lra. }
  intros a. rewrite G. f_equal. f_equal. unfold dot.
  assert (Q : forall n k, fold_right (fun i t => v i * v i + t) 0 (seq k n) = sumf n (fun i => v (k + i)%nat * v (k + i)%nat)).
  { clear. induction n as [|n IH]; intros k; [reflexivity|]. rewrite seq_S, fold_right_app. cbn [fold_right sumf]. rewrite Rplus_0_r.
    rewrite <- IH. generalize (seq k n). induction l as [|i l IHl]; cbn [fold_right]; [ring|]. rewrite IHl. ring. }
  rewrite Q. apply f_equal. reflexivity.
Qed.
