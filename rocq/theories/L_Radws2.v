(** Lemmas for reading the table. *)
From Verif Require Import Prelude Vec M_Box L_Box M_Eos M_Radws S_Radws.
From Coq Require Import Reals Lra Lia Psatz List.
Import ListNotations.
Local Open Scope R_scope.

Section Read.
Variables su sk st sd : R.
(** What the first [l] lines of [ls] have put in the table. *)
Definition filled (ls : list line) (t : table) (l : nat) : Prop :=
  forall k x, (k < l)%nat -> nth_error ls k = Some x ->
    let i := (k / ntemp t)%nat in let j := (k mod ntemp t)%nat in
    eos_energy t i j = l_energy x / su /\ eos_mu t i j = l_mu x /\ kappa_table t i j = l_kappa x / sk /\
    kappap_table t i j = l_kappap x / sk /\ eos_gamma t i j = l_gamma x /\ eos_gamma1 t i j = l_gamma1 x /\
    ((k < ntemp t)%nat -> eos_temp t k = log10 (l_temp x / st)) /\
    ((S k mod ntemp t)%nat = 0%nat -> eos_dens t i = log10 (l_dens x / sd)).
Record rinv (ls : list line) (nd nt : nat) (s : rd) : Prop := mkrinv {
  ri_nd : ndens (r_t s) = nd; ri_nt : ntemp (r_t s) = nt;
  ri_i : r_i s = (r_l s / nt)%nat; ri_j : r_j s = (r_l s mod nt)%nat;
  ri_f : filled ls (r_t s) (r_l s) }.

Lemma upd_same A (f : nat -> A) i a : upd f i a i = a.
Proof. unfold upd. now rewrite Nat.eqb_refl. Qed.
Lemma upd_other A (f : nat -> A) i a k : k <> i -> upd f i a k = f k.
Proof. intros H. unfold upd. now rewrite (proj2 (Nat.eqb_neq k i) H). Qed.
Lemma upd2_same A (f : nat -> nat -> A) i j a : upd2 f i j a i j = a.
Proof. unfold upd2. now rewrite Nat.eqb_refl, upd_same. Qed.
Lemma upd2_other A (f : nat -> nat -> A) i j a k m : (k, m) <> (i, j) -> upd2 f i j a k m = f k m.
Proof.
  intros H. unfold upd2. destruct (Nat.eqb_spec k i) as [->|]; [|reflexivity]. apply upd_other. intros ->. now apply H.
Qed.
Lemma divmod_step nt l : (0 < nt)%nat ->
  (if Nat.eqb (S l mod nt) 0 then S (l / nt) else (l / nt))%nat = (S l / nt)%nat /\
  (if Nat.eqb (S l mod nt) 0 then 0 else S (l mod nt))%nat = (S l mod nt)%nat.
Proof.
  intros N. assert (NZ : nt <> 0%nat) by lia.
  pose proof (Nat.div_mod l nt NZ) as D. pose proof (Nat.mod_upper_bound l nt NZ) as U.
  destruct (Nat.eq_dec (S (l mod nt)) nt) as [E|E].
  - assert (Q : (S l = nt * S (l / nt) + 0)%nat) by lia.
    rewrite <- (Nat.div_unique (S l) nt (S (l / nt)) 0), <- (Nat.mod_unique (S l) nt (S (l / nt)) 0) by lia. cbn. auto.
  - assert (Q : (S l = nt * (l / nt) + S (l mod nt))%nat) by lia.
    rewrite <- (Nat.div_unique (S l) nt (l / nt) (S (l mod nt))), <- (Nat.mod_unique (S l) nt (l / nt) (S (l mod nt))) by lia. cbn. auto.
Qed.

Lemma read_line_ok ls nd nt s x : (0 < nt)%nat -> rinv ls nd nt s -> nth_error ls (r_l s) = Some x -> (r_l s < nd * nt)%nat ->
  exists s', read_line su sk st sd s x = Ok s' /\ r_l s' = S (r_l s) /\ rinv ls nd nt s'.
Proof.
  intros N [ND NT RI RJ F] X L. assert (NZ : nt <> 0%nat) by lia. set (l := r_l s) in *.
  assert (LI : (l / nt < nd)%nat) by (apply Nat.div_lt_upper_bound; lia).
  assert (LJ : (l mod nt < nt)%nat) by (apply Nat.mod_upper_bound; lia).
  destruct (divmod_step nt l N) as [Q1 Q2].
  unfold read_line. rewrite ND, NT, RI, RJ. rewrite (proj2 (Nat.ltb_lt _ _) LI), (proj2 (Nat.ltb_lt _ _) LJ). cbn [andb].
  fold l. rewrite Q1. rewrite Q2. eexists. split; [reflexivity|]. split; [reflexivity|].
  constructor; cbn [r_t r_i r_j r_l ndens ntemp]; try reflexivity.
  intros k y K Y. cbn [ntemp eos_energy eos_mu kappa_table kappap_table eos_gamma eos_gamma1 eos_temp eos_dens].
  destruct (Nat.eq_dec k l) as [->|NE].
  - rewrite X in Y. injection Y as <-. rewrite !upd2_same. repeat (split; [reflexivity|]). split.
    + intros H. rewrite (proj2 (Nat.ltb_lt _ _) H). apply upd_same.
    + intros H. rewrite H. cbn [Nat.eqb]. apply upd_same.
  - assert (KL : (k < l)%nat) by lia. pose proof (F k y KL Y) as G. cbn zeta in G. rewrite NT in G.
    destruct G as (G1 & G2 & G3 & G4 & G5 & G6 & G7 & G8).
    assert (P : ((k / nt)%nat, (k mod nt)%nat) <> ((l / nt)%nat, (l mod nt)%nat)).
    { intros E. injection E as E1 E2. apply NE. rewrite (Nat.div_mod k nt NZ), (Nat.div_mod l nt NZ), E1, E2. reflexivity. }
    rewrite !upd2_other by exact P. repeat (split; [assumption|]). split.
    + intros H. rewrite <- (G7 H). destruct (Nat.ltb l nt); [apply upd_other; lia|reflexivity].
    + intros H. rewrite <- (G8 H). destruct (Nat.eqb_spec (S l mod nt) 0) as [E|E]; [|reflexivity].
      apply upd_other. intros EQ. apply Nat.mod_divides in H; [|exact NZ]. apply Nat.mod_divides in E; [|exact NZ].
      destruct H as [a A], E as [b B].
      assert (k / nt = a - 1)%nat. { symmetry. apply (Nat.div_unique k nt (a - 1) (nt - 1)); [lia|]. destruct a; nia. }
      assert (l / nt = b - 1)%nat. { symmetry. apply (Nat.div_unique l nt (b - 1) (nt - 1)); [lia|]. destruct b; nia. }
      destruct a, b; nia.
Qed.

Lemma nth_error_split_cons A (pre : list A) x post : nth_error (pre ++ x :: post) (length pre) = Some x.
Proof. rewrite nth_error_app2 by lia. now rewrite Nat.sub_diag. Qed.

Lemma read_lines_ok nd nt : (0 < nt)%nat -> forall post pre s, rinv (pre ++ post) nd nt s -> r_l s = length pre ->
  (length (pre ++ post) <= nd * nt)%nat ->
  exists s', read_lines su sk st sd s post = Ok s' /\ r_l s' = length (pre ++ post) /\ rinv (pre ++ post) nd nt s'.
Proof.
  intros N. induction post as [|x post IH]; intros pre s V L B.
  - exists s. cbn [read_lines]. rewrite app_nil_r in *. auto.
  - destruct (read_line_ok (pre ++ x :: post) nd nt s x N V) as (s1 & E & L1 & V1).
    { rewrite L. apply nth_error_split_cons. }
    { rewrite app_length in B. cbn [length] in B. lia. }
    cbn [read_lines]. rewrite E. cbn [bind].
    replace (pre ++ x :: post) with ((pre ++ [x]) ++ post) in * by (rewrite <- app_assoc; reflexivity).
    apply IH; [exact V1| |exact B]. rewrite L1, L, app_length. cbn. lia.
Qed.
Lemma read_lines_app s a : forall b, read_lines su sk st sd s (a ++ b) = bind (read_lines su sk st sd s a) (fun s' => read_lines su sk st sd s' b).
Proof.
  revert s. induction a as [|x a IH]; intros s b; [reflexivity|]. cbn [app read_lines].
  destruct (read_line su sk st sd s x) as [s1| | |]; cbn [bind]; [apply IH|reflexivity..].
Qed.
Lemma read_table_ok t ls : (0 < ntemp t)%nat -> length ls = (ndens t * ntemp t)%nat ->
  exists t', read_table su sk st sd t ls = Ok t' /\ ndens t' = ndens t /\ ntemp t' = ntemp t /\ filled ls t' (length ls).
Proof.
  intros N L. destruct (read_lines_ok (ndens t) (ntemp t) N ls [] (mkrd 0 0 0 t)) as (s' & E & L1 & V).
  - constructor; cbn [r_t r_i r_j r_l]; try reflexivity; [rewrite Nat.div_0_l by lia; reflexivity|rewrite Nat.mod_0_l by lia; reflexivity|].
    intros k x K. lia.
  - reflexivity.
  - cbn [app]. lia.
  - exists (r_t s'). unfold read_table. rewrite E. cbn [bind app] in *. rewrite <- L1.
    split; [reflexivity|]. split; [apply V|]. split; [apply V|apply V].
Qed.
Lemma read_table_more t ls : (0 < ntemp t)%nat -> (ndens t * ntemp t < length ls)%nat -> read_table su sk st sd t ls = UB.
Proof.
  intros N L. set (n := (ndens t * ntemp t)%nat) in *.
  assert (LF : length (firstn n ls) = n) by (apply firstn_length_le; lia).
  assert (LS : skipn n ls <> []). { intros E. pose proof (skipn_length n ls) as H. rewrite E in H. cbn in H. lia. }
  unfold read_table. rewrite <- (firstn_skipn n ls), read_lines_app.
  destruct (read_lines_ok (ndens t) (ntemp t) N (firstn n ls) [] (mkrd 0 0 0 t)) as (s' & E & L1 & V).
  - constructor; cbn [r_t r_i r_j r_l]; try reflexivity; [rewrite Nat.div_0_l by lia; reflexivity|rewrite Nat.mod_0_l by lia; reflexivity|].
    intros k x K. lia.
  - reflexivity.
  - cbn [app]. lia.
  - rewrite E. cbn [bind app] in *. destruct (skipn n ls) as [|x r]; [contradiction|]. cbn [read_lines].
    unfold read_line. rewrite (ri_i _ _ _ _ V), (ri_nd _ _ _ _ V), L1, LF. unfold n at 1. rewrite Nat.div_mul by lia.
    rewrite (proj2 (Nat.ltb_ge _ _) (le_n _)). reflexivity.
Qed.
End Read.
