(** What the code samples is the profile; rotations. *)
From Verif Require Import Prelude Vec M_Box L_Box M_Exact S_Exact L_Exact L_Exact2 L_Exact3 L_Exact4 L_Eos L_Diag3.
From Coq Require Import Reals Lra Lia Psatz List.
From Coquelicot Require Import Coquelicot.
Local Open Scope R_scope.

Definition toS (w : fluid) : state := (f_d w, f_u w, f_p w).
Definition val (x : res fluid) : state := match x with Ok w => toS w | _ => (0, 0, 0) end.

Section Sample.
Variables (gamma pl pr dl dr cl cr ul ur ps us : R).
Hypotheses (Hg : 1 < gamma) (Hpl : 0 < pl) (Hpr : 0 < pr) (Hdl : 0 < dl) (Hdr : 0 < dr)
  (Hcl : cl = sqrt (gamma * pl / dl)) (Hcr : cr = sqrt (gamma * pr / dr)) (Hps : 0 < ps)
  (Hul : us = ul - fside gamma pl dl cl ps) (Hur : us = ur + fside gamma pr dr cr ps).
Local Notation SL := (sample_left gamma pl dl cl ul ps us).
Local Notation SR := (sample_right gamma pr dr cr ur ps us).

Lemma star_sh_pos p d : 0 < p -> 0 < d -> 0 < d * (ps / p + g6 gamma) / (ps / p * g6 gamma + 1).
Proof.
  intros. pose proof (g6_pos gamma Hg). assert (0 < ps / p) by (apply Rdiv_lt_0_compat; lra). assert (0 < ps / p * g6 gamma) by (apply Rmult_lt_0_compat; lra).
  apply Rdiv_lt_0_compat; [apply Rmult_lt_0_compat; lra|lra].
Qed.
Lemma star_same p d : ps = p -> 0 < p -> star_sh gamma p d ps us = star_ra gamma p d ps us.
Proof.
  intros E Hp. unfold star_sh, star_ra. rewrite E. replace (p / p) with 1 by (field; lra). rewrite rpower_1_l. pose proof (g6_pos gamma Hg). f_equal. f_equal. field. lra.
Qed.
Lemma left_half : half gamma pl dl cl ul ps us (fun s => val (SL s)) /\ (forall s, exists w, s <= us -> SL s = Ok w /\ 0 < f_d w /\ 0 < f_p w).
Proof.
  pose proof (c_pos gamma pl dl cl Hg Hpl Hdl Hcl) as C. assert (Q : 0 < ps / pl) by (apply Rdiv_lt_0_compat; lra).
  assert (Esh : cl * sqrt (g2 gamma * (ps / pl) + g1 gamma) = qshock gamma pl dl ps / dl) by (apply shock_speed; lra).
  split; [split|].
  - intros L. unfold sample_left. rewrite (proj2 (rleb_false _ _) L). cbv zeta. rewrite Esh. split; intros s Hs.
    + rewrite (proj2 (rleb_true _ _)) by lra. reflexivity.
    + rewrite (proj2 (rleb_false _ _)) by lra. reflexivity.
  - intros L. pose proof (head_tail gamma pl dl cl ul ps us Hg Hpl Hdl Hcl Hps Hul L) as HT. unfold sample_left. rewrite (proj2 (rleb_true _ _) L). cbv zeta.
    fold (kfan gamma cl ul). split; [|split]; intros s Hs.
    + rewrite (proj2 (rleb_true _ _)) by lra. reflexivity.
    + rewrite (proj2 (rleb_false _ _)) by lra. rewrite (pw_pos (ps / pl)) by exact Q. cbn [bind]. change (cl * Rpower (ps / pl) (g1 gamma)) with (cm gamma pl cl ps).
      rewrite (proj2 (rltb_false _ _)) by lra. fold (kfan gamma cl ul s). assert (K : 0 < kfan gamma cl ul s / cl).
      { apply Rdiv_lt_0_compat; [|lra]. apply (kfan_pos gamma pl dl cl ul ps us); lra. }
      rewrite !pw_pos by exact K. cbn [bind]. reflexivity.
    + rewrite (proj2 (rleb_false _ _)) by lra. rewrite (pw_pos (ps / pl)) by exact Q. cbn [bind]. change (cl * Rpower (ps / pl) (g1 gamma)) with (cm gamma pl cl ps).
      rewrite (proj2 (rltb_true _ _)) by lra. rewrite pw_pos by exact Q. cbn [bind]. reflexivity.
  - intros s. destruct (Rle_dec s us) as [Hs|Hs]; [|exists (mkfl 0 0 0); intros; lra].
    assert (P : exists w, SL s = Ok w /\ 0 < f_d w /\ 0 < f_p w); [|destruct P as [w P]; exists w; intros; exact P].
    unfold sample_left. destruct (Rle_dec ps pl) as [L|L].
    + rewrite (proj2 (rleb_true _ _) L). destruct (Rle_dec s (ul - cl)) as [A|A].
      { rewrite (proj2 (rleb_true _ _) A). eexists. split; [reflexivity|]. cbn [f_d f_p]. lra. }
      rewrite (proj2 (rleb_false _ _)) by lra. rewrite (pw_pos (ps / pl)) by exact Q. cbn [bind]. cbv zeta. change (cl * Rpower (ps / pl) (g1 gamma)) with (cm gamma pl cl ps).
      destruct (Rlt_dec (us - cm gamma pl cl ps) s) as [B|B].
      { rewrite (proj2 (rltb_true _ _) B). rewrite pw_pos by exact Q. cbn [bind]. eexists. split; [reflexivity|]. cbn [f_d f_p]. split; [|lra]. apply Rmult_lt_0_compat; [lra|apply rpower_pos]. }
      rewrite (proj2 (rltb_false _ _)) by lra. fold (kfan gamma cl ul s). assert (K : 0 < kfan gamma cl ul s / cl).
      { apply Rdiv_lt_0_compat; [|lra]. apply (kfan_pos gamma pl dl cl ul ps us); lra. }
      rewrite !pw_pos by exact K. cbn [bind]. eexists. split; [reflexivity|]. cbn [f_d f_p]. split; (apply Rmult_lt_0_compat; [lra|apply rpower_pos]).
    + rewrite (proj2 (rleb_false _ _)) by lra. cbv zeta. destruct (rleb s _); eexists; (split; [reflexivity|]); cbn [f_d f_p]; [lra|].
      split; [apply star_sh_pos; lra|lra].
Qed.
Lemma right_half : half gamma pr dr cr (- ur) ps (- us) (fun s => mir (val (SR (- s)))) /\ (forall s, exists w, us <= s -> SR s = Ok w /\ 0 < f_d w /\ 0 < f_p w).
Proof.
  assert (Hur' : - us = - ur - fside gamma pr dr cr ps) by lra.
  pose proof (c_pos gamma pr dr cr Hg Hpr Hdr Hcr) as C. assert (Q : 0 < ps / pr) by (apply Rdiv_lt_0_compat; lra).
  assert (Esh : cr * sqrt (g2 gamma * (ps / pr) + g1 gamma) = qshock gamma pr dr ps / dr) by (apply shock_speed; lra).
  assert (KF : forall s, g5 gamma * (cr - g7 gamma * (ur - s)) = kfan gamma cr (- ur) (- s)) by (intros; unfold kfan; ring).
  split; [split|].
  - intros L. unfold sample_right. rewrite (proj2 (rleb_true _ _)) by lra. cbv zeta. rewrite Esh. split; intros s Hs.
    + rewrite (proj2 (rleb_true _ _)) by lra. reflexivity.
    + rewrite (proj2 (rleb_false _ _)) by lra. reflexivity.
  - intros L. pose proof (head_tail gamma pr dr cr (- ur) ps (- us) Hg Hpr Hdr Hcr Hps Hur' L) as HT. pose proof (cm_pos gamma pr dr cr ps Hg Hpr Hdr Hcr) as CMP.
    destruct (Req_dec ps pr) as [E|E].
    + assert (CM : cm gamma pr cr ps = cr) by (unfold cm; rewrite E; replace (pr / pr) with 1 by (field; lra); rewrite rpower_1_l; ring).
      assert (EU : us = ur). { rewrite Hur, (fs_lo gamma pr dr cr) by lra. cbv beta. rewrite E. replace (pr / pr) with 1 by (field; lra). rewrite rpower_1_l. ring. }
      assert (S1 : sqrt (g2 gamma * (ps / pr) + g1 gamma) = 1). { rewrite E. replace (pr / pr) with 1 by (field; lra). replace (g2 gamma * 1 + g1 gamma) with 1 by (unfold g1, g2; field; lra). apply sqrt_1. }
      unfold sample_right. rewrite (proj2 (rleb_true _ _)) by lra. cbv zeta. rewrite S1. split; [|split]; intros s Hs.
      * rewrite (proj2 (rleb_true _ _)) by lra. reflexivity.
      * exfalso. lra.
      * rewrite (proj2 (rleb_false _ _)) by lra. change (val _) with (star_sh gamma pr dr ps us). rewrite star_same by lra. reflexivity.
    + unfold sample_right. rewrite (proj2 (rleb_false _ _)) by lra. cbv zeta. split; [|split]; intros s Hs.
      * rewrite (proj2 (rleb_true _ _)) by lra. reflexivity.
      * rewrite (proj2 (rleb_false _ _)) by lra. rewrite (pw_pos (ps / pr)) by exact Q. cbn [bind]. change (cr * Rpower (ps / pr) (g1 gamma)) with (cm gamma pr cr ps).
        rewrite (proj2 (rleb_false _ _)) by lra. rewrite KF, Ropp_involutive. assert (K : 0 < kfan gamma cr (- ur) s / cr).
        { apply Rdiv_lt_0_compat; [|lra]. apply (kfan_pos gamma pr dr cr (- ur) ps (- us)); lra. }
        rewrite !pw_pos by exact K. cbn [bind]. unfold val, toS, mir, de, ve, pe, fan. simpl. f_equal. f_equal. ring.
      * rewrite (proj2 (rleb_false _ _)) by lra. rewrite (pw_pos (ps / pr)) by exact Q. cbn [bind]. change (cr * Rpower (ps / pr) (g1 gamma)) with (cm gamma pr cr ps).
        rewrite (proj2 (rleb_true _ _)) by lra. rewrite pw_pos by exact Q. cbn [bind]. reflexivity.
  - intros s. destruct (Rle_dec us s) as [Hs|Hs]; [|exists (mkfl 0 0 0); intros; lra].
    assert (P : exists w, SR s = Ok w /\ 0 < f_d w /\ 0 < f_p w); [|destruct P as [w P]; exists w; intros; exact P].
    unfold sample_right. destruct (Rle_dec pr ps) as [L|L].
    + rewrite (proj2 (rleb_true _ _)) by lra. cbv zeta. destruct (rleb _ s); eexists; (split; [reflexivity|]); cbn [f_d f_p]; [lra|].
      split; [apply star_sh_pos; lra|lra].
    + rewrite (proj2 (rleb_false _ _)) by lra. destruct (Rle_dec (ur + cr) s) as [A|A].
      { rewrite (proj2 (rleb_true _ _) A). eexists. split; [reflexivity|]. cbn [f_d f_p]. lra. }
      rewrite (proj2 (rleb_false _ _)) by lra. rewrite (pw_pos (ps / pr)) by exact Q. cbn [bind]. cbv zeta. change (cr * Rpower (ps / pr) (g1 gamma)) with (cm gamma pr cr ps).
      destruct (Rle_dec s (us + cm gamma pr cr ps)) as [B|B].
      { rewrite (proj2 (rleb_true _ _) B). rewrite pw_pos by exact Q. cbn [bind]. eexists. split; [reflexivity|]. cbn [f_d f_p]. split; [|lra]. apply Rmult_lt_0_compat; [lra|apply rpower_pos]. }
      rewrite (proj2 (rleb_false _ _)) by lra. rewrite KF. assert (K : 0 < kfan gamma cr (- ur) (- s) / cr).
      { apply Rdiv_lt_0_compat; [|lra]. apply (kfan_pos gamma pr dr cr (- ur) ps (- us)); lra. }
      rewrite !pw_pos by exact K. cbn [bind]. eexists. split; [reflexivity|]. cbn [f_d f_p]. split; (apply Rmult_lt_0_compat; [lra|apply rpower_pos]).
Qed.
Local Notation SS := (SampleExactSolution gamma pl pr dl dr cl cr ul ur ps us).
Lemma SS_left s : s <= us -> SS s = SL s.
Proof.
  intros H. unfold SampleExactSolution. rewrite (proj2 (rleb_true _ _) H). destruct (proj2 left_half s) as [w W]. destruct (W H) as [E [_ P]]. rewrite E. cbn [bind].
  rewrite (proj2 (rltb_false _ _)) by lra. reflexivity.
Qed.
Lemma SS_right s : us < s -> SS s = SR s.
Proof.
  intros H. unfold SampleExactSolution. rewrite (proj2 (rleb_false _ _) H). destruct (proj2 right_half s) as [w W]. destruct (W ltac:(lra)) as [E [_ P]]. rewrite E. cbn [bind].
  rewrite (proj2 (rltb_false _ _)) by lra. reflexivity.
Qed.
Lemma half_ext p d c u v A B : (forall s, s < v -> A s = B s) -> v = u - fside gamma p d c ps -> 0 < p -> 0 < d -> c = sqrt (gamma * p / d) ->
  half gamma p d c u ps v A -> half gamma p d c u ps v B.
Proof.
  intros E Hv Hp Hd Hc [H1 H2]. split; intros L.
  - destruct (H1 L) as [X Y]. pose proof (shock_before_contact gamma p d c u ps v Hg Hp Hd Hps Hv ltac:(lra)). split; intros s Hs; rewrite <- E by lra; [apply X|apply Y]; lra.
  - destruct (H2 L) as [X [Y Z]]. pose proof (head_tail gamma p d c u ps v Hg Hp Hd Hc Hps Hv L). pose proof (cm_pos gamma p d c ps Hg Hp Hd Hc).
    split; [|split]; intros s Hs; rewrite <- E by lra; [apply X|apply Y|apply Z]; lra.
Qed.
Lemma sample_solves : let W := fun s => val (SS s) in
  (forall s, exists w, SS s = Ok w /\ toS w = W s) /\ solves gamma (dl, ul, pl) (dr, ur, pr) W.
Proof.
  intros W. set (V := fun s => mir (W (- s))).
  assert (HL : half gamma pl dl cl ul ps us W).
  { apply half_ext with (6 := proj1 left_half); try assumption. intros s Hs. unfold W. rewrite SS_left by lra. reflexivity. }
  assert (HR : half gamma pr dr cr (- ur) ps (- us) V).
  { apply half_ext with (6 := proj1 right_half); try assumption; [|lra]. intros s Hs. unfold V, W. rewrite SS_right by lra. reflexivity. }
  assert (WV : forall x, W x = mir (V (- x))) by (intros; unfold V; rewrite mir_mir, Ropp_involutive; reflexivity).
  assert (OK : forall s, exists w, SS s = Ok w /\ 0 < f_d w /\ 0 < f_p w).
  { intros s. destruct (Rle_dec s us) as [H|H].
    - destruct (proj2 left_half s) as [w X]. exists w. rewrite SS_left by lra. apply X. lra.
    - destruct (proj2 right_half s) as [w X]. exists w. rewrite SS_right by lra. apply X. lra. }
  destruct (half_good gamma pl dl cl ul ps us Hg Hpl Hdl Hcl Hps Hul W HL) as [BL [GL [IL [[mL [ML1 ML2]] [nL NL]]]]].
  destruct (half_good gamma pr dr cr (- ur) ps (- us) Hg Hpr Hdr Hcr Hps ltac:(lra) V HR) as [BR [GR [IR [[mR [MR1 MR2]] [nR NR]]]]].
  split; [|split; [|split; [|split]]].
  - intros s. destruct (OK s) as [w [E _]]. exists w. split; [exact E|]. unfold W. rewrite E. reflexivity.
  - exists (BL ++ us :: map Ropp BR)%list. intros s. destruct (Rtotal_order s us) as [H|[H|H]].
    + split; intros Hi.
      * apply GL; [exact H|]. intros X. apply Hi, in_or_app. left. exact X.
      * apply GL; [exact H|]. apply in_app_or in Hi. destruct Hi as [Hi|[Hi|Hi]]; [exact Hi|lra|].
        apply in_map_iff in Hi. destruct Hi as [x [E X]]. specialize (IR x X). lra.
    + subst s. split; intros Hi; [exfalso; apply Hi, in_or_app; right; left; reflexivity|].
      apply (jump_two gamma W (fun _ => star_of gamma pl dl ps us) (fun _ => mir (star_of gamma pr dr ps (- us))) us mL (- mR));
        [lra|exact ML2|intros x Hx; rewrite WV, MR2 by lra; reflexivity|apply conts_const|apply conts_const| |].
      * unfold star_of. destruct (rltb pl ps), (rltb pr ps); unfold star_sh, star_ra, mir, de, ve, pe; simpl; rewrite Ropp_involutive; apply contact_rankine.
      * unfold star_of. destruct (rltb pl ps), (rltb pr ps); unfold star_sh, star_ra, mir, de, ve, pe; simpl; rewrite Ropp_involutive; apply contact_rankine.
    + destruct (GR (- s) ltac:(lra)) as [G1 G2]. split; intros Hi.
      * apply (euler_mir gamma W V s WV), G1. intros X. apply Hi, in_or_app. right. right. apply in_map_iff. exists (- s). split; [ring|exact X].
      * apply (jump_mir gamma W V s WV), G2. apply in_app_or in Hi. destruct Hi as [Hi|[Hi|Hi]]; [specialize (IL s Hi); lra|lra|].
        apply in_map_iff in Hi. destruct Hi as [x [<- X]]. rewrite Ropp_involutive. exact X.
  - exists nL. exact NL.
  - exists (- nR). intros s Hs. rewrite WV, NR by lra. unfold side, mir, de, ve, pe. simpl. rewrite Ropp_involutive. reflexivity.
  - intros s. destruct (OK s) as [w [E [P1 P2]]]. unfold W. rewrite E. split; assumption.
Qed.
End Sample.
