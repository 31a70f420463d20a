(** The opening criterion, and progress of the retry loop for stars. *)
From Verif Require Import Prelude L_Prelude Vec S_Tree M_Walk L_Tree M_KDTree L_StockTree M_Search L_Search M_Stock S_Stock L_Stock
  M_Box S_Box L_Box M_Gather S_Search L_Gather L_Star.
From Coq Require Import Reals Lra Permutation.
Local Open Scope R_scope.

Lemma parts_of_nil : forall pd ps, parts_of pd ps = Ok [] -> ps = [].
Proof.
  intros pd [|p ps]; [easy|]. cbn. destruct (aget pd p); cbn [bind]; try discriminate.
  destruct (parts_of pd ps); cbn [bind]; discriminate.
Qed.
(** Cell [c] with particles [qs] seen from a squared distance [d2]: large or wide. *)
Lemma cell_opening : forall ndim kr th2 quad pd s c qs, cell_ok ndim kr th2 quad pd s c qs -> qs <> [] -> 0 < th2 ->
  exists g, aget (ts_g s) c = Ok g /\
    (forall d2, gcdistsqd g <= d2 <-> (grmax g ^ 2 <= th2 * d2 /\ ghmax g ^ 2 <= th2 * d2)) /\
    (forall d2, gcdistsqd g < d2 <-> (grmax g ^ 2 < th2 * d2 /\ ghmax g ^ 2 < th2 * d2)).
Proof.
  intros ndim kr th2 quad pd s c qs (k & g & xs & _ & _ & Eg & P & D) Ne Ht. exists g. split; [exact Eg|].
  assert (X : xs <> []) by (intros ->; apply Ne; now apply parts_of_nil in P).
  assert (C := d_cdist _ _ _ _ _ _ D X ltac:(lra)). 
  assert (M1 := Rmax_l (grmax g ^ 2) (ghmax g ^ 2)). assert (M2 := Rmax_r (grmax g ^ 2) (ghmax g ^ 2)).
  assert (M3 : Rmax (grmax g ^ 2) (ghmax g ^ 2) = grmax g ^ 2 \/ Rmax (grmax g ^ 2) (ghmax g ^ 2) = ghmax g ^ 2) by (unfold Rmax; destruct Rle_dec; auto).
  assert (Q : forall d2, (gcdistsqd g <= d2 <-> gcdistsqd g * th2 <= th2 * d2) /\ (gcdistsqd g < d2 <-> gcdistsqd g * th2 < th2 * d2)).
  { intros d2. repeat split; intros H; nra. }
  rewrite C in Q. split; intros d2; destruct (Q d2) as [Q1 Q2]; [rewrite Q1|rewrite Q2]; destruct M3 as [M3|M3]; rewrite M3 in *; lra.
Qed.

Theorem grav_opening : forall ndim kr th2 quad pd Nl s Ncell t ps,
  stocked ndim kr th2 quad pd Nl s Ncell t ps -> 0 <= kr -> 0 < th2 ->
  (forall p x, In p ps -> aget pd p = Ok x -> 0 <= p_h x) ->
  forall near wrap g0 neib direct gcells,
  (forall c, (0 <= c < Ncell)%Z -> exists b, near c = Ok b) ->
  grav_lists s Ncell near (grav_opn ndim (ts_g s) wrap g0) = Ok (neib, direct, gcells) ->
  exists pss, Permutation ps (neib ++ direct ++ concat pss) /\
    Forall2 (fun c qs => exists g, aget (ts_g s) c = Ok g /\
      forall i p, In i qs -> aget pd i = Ok p ->
        norm ndim (vsub (p_r p) (grcell g)) ^ 2 <= th2 * dot ndim (wrap (vsub (grcell g) (grcell g0))) (wrap (vsub (grcell g) (grcell g0))) /\
        (0 <= p_h p -> p_h p ^ 2 <= th2 * dot ndim (wrap (vsub (grcell g) (grcell g0))) (wrap (vsub (grcell g) (grcell g0))))) gcells pss.
Proof.
  intros ndim kr th2 quad pd Nl s Ncell t ps ST Hkr Ht Hh near wrap g0 neib direct gcells Hn E.
  assert (Hd : forall c, (0 <= c < Ncell)%Z -> exists b o, near c = Ok b /\ grav_opn ndim (ts_g s) wrap g0 c = Ok o).
  { intros c Hc. destruct (Hn c Hc) as (b & Hb). destruct (cell_known _ _ _ _ _ _ _ _ _ _ ST Hkr Hh c Hc) as (qs & _ & g & Hg & _).
    unfold grav_opn. rewrite Hg. cbn [bind]. eauto. }
  destruct (grav_lists_once _ _ _ _ _ _ _ _ _ _ ST Hkr Hh near _ Hd) as (a & b & c & pss & E' & P & F & G).
  rewrite E in E'. injection E' as <- <- <-. exists pss. split; [exact P|].
  clear P E. induction F as [|c qs cs pss' H F IH]; constructor.
  - assert (G1 := Forall_inv G). destruct G1 as [_ G1]. unfold grav_opn in G1.
    destruct H as (k & g & xs & H1 & H2 & Eg & H3 & D). rewrite Eg in G1. cbn [bind] in G1. injection G1 as G1. apply rltb_false in G1.
    exists g. split; [exact Eg|]. intros i p Hi Hp.
    destruct (parts_in pd _ _ _ H3 Hi) as (p' & P1 & P2). rewrite Hp in P1. injection P1 as <-.
    assert (Ne : qs <> []) by (intros ->; destruct Hi).
    destruct (cell_opening ndim kr th2 quad pd s c qs) as (g' & Eg' & O & _); [now exists k, g, xs|exact Ne|exact Ht|].
    rewrite Eg in Eg'. injection Eg' as <-. apply O in G1. destruct G1 as [G2 G3].
    assert (R := d_rmax _ _ _ _ _ _ D p P2). assert (H := d_h _ _ _ _ _ _ D p P2). assert (N := norm_nonneg ndim (vsub (p_r p) (grcell g))).
    split; [|intros H0]; nra.
  - apply IH. now apply Forall_inv_tail in G.
Qed.

(** Which cells are opened or accepted. *)
Theorem opening_exact : forall ndim kr th2 quad pd Nl s Ncell t ps,
  stocked ndim kr th2 quad pd Nl s Ncell t ps -> 0 <= kr -> 0 < th2 ->
  (forall p x, In p ps -> aget pd p = Ok x -> 0 <= p_h x) ->
  forall c, (0 <= c < Ncell)%Z -> exists qs g, cell_ok ndim kr th2 quad pd s c qs /\ aget (ts_g s) c = Ok g /\
    (qs <> [] ->
     (forall wrap g0, let dr := wrap (vsub (grcell g) (grcell g0)) in exists b, grav_opn ndim (ts_g s) wrap g0 c = Ok b /\
        (b = false <-> (grmax g ^ 2 <= th2 * dot ndim dr dr /\ ghmax g ^ 2 <= th2 * dot ndim dr dr))) /\
     (forall rs, let dr := vsub (grcell g) rs in exists b, star_far ndim (ts_g s) rs c = Ok b /\
        (b = true <-> (grmax g ^ 2 < th2 * dot ndim dr dr /\ ghmax g ^ 2 < th2 * dot ndim dr dr)))).
Proof.
  intros ndim kr th2 quad pd Nl s Ncell t ps ST Hkr Ht Hh c Hc.
  destruct (cell_known _ _ _ _ _ _ _ _ _ _ ST Hkr Hh c Hc) as (qs & _ & g & Hg & _ & _ & _ & _ & K & _).
  exists qs, g. split; [exact K|]. split; [exact Hg|]. intros Ne.
  destruct (cell_opening _ _ _ _ _ _ _ _ K Ne Ht) as (g' & Eg' & O & O'). rewrite Hg in Eg'. injection Eg' as <-. split.
  - intros wrap g0. cbv zeta. unfold grav_opn. rewrite Hg. cbn [bind]. eexists. split; [reflexivity|]. rewrite <- O. apply rltb_false.
  - intros rs. cbv zeta. unfold star_far. rewrite Hg. cbn [bind]. eexists. split; [reflexivity|]. rewrite <- O'. apply rltb_true.
Qed.

(** ** A larger buffer for cells changes nothing but success *)
Local Open Scope Z_scope.
Lemma star_visit_mono : forall fuel v near far keep Nl N1 N2 Ng Ng' c x y k, Ng <= Ng' ->
  star_visit fuel v near far keep Nl N1 N2 Ng c x = Ok (y, k) -> k <> Stop ->
  star_visit fuel v near far keep Nl N1 N2 Ng' c x = Ok (y, k).
Proof.
  intros fuel v near far keep Nl N1 N2 Ng Ng' c [[a b] d] y k L. unfold star_visit.
  destruct (near c) as [[|]| | |]; cbn [bind]; try discriminate; destruct (vopen v c); cbn [bind]; try discriminate; auto.
  destruct (far c) as [f| | |]; cbn [bind]; try discriminate. destruct (vN v c) as [n| | |]; cbn [bind]; try discriminate.
  destruct (f && (0 <? n))%bool; [|auto]. destruct (_ && (_ <? N2))%bool; [auto|].
  destruct (0 <? n); [|rewrite !andb_false_r; auto]. rewrite !andb_true_r.
  destruct (Z.ltb_spec (zlen d) Ng); [|intros E H'; injection E as <- <-; congruence]. destruct (Z.ltb_spec (zlen d) Ng'); [auto|lia].
Qed.
Lemma walk_mono : forall S copen cnext Ncell (v1 v2 : Z -> S -> res (S * ctl)),
  (forall c x y k, v1 c x = Ok (y, k) -> k <> Stop -> v2 c x = Ok (y, k)) ->
  forall f c x y, walk copen cnext Ncell v1 f c x = Ok (y, false) -> walk copen cnext Ncell v2 f c x = Ok (y, false).
Proof.
  intros S copen cnext Ncell v1 v2 H. induction f as [|f IH]; intros c x y; cbn [walk]; destruct (c <? Ncell); auto.
  destruct (v1 c x) as [[z k]| | |] eqn:E; cbn [bind]; try discriminate.
  destruct k; try discriminate; rewrite (H _ _ _ _ E) by discriminate; cbn [bind].
  - destruct (copen c); cbn [bind]; try discriminate. apply IH.
  - destruct (cnext c); cbn [bind]; try discriminate. apply IH.
Qed.
Lemma star_lists_mono : forall pd s Ncell Nl N1 N2 Ng Ng' near far r, Ng <= Ng' ->
  star_lists pd s Ncell Nl N1 N2 Ng near far = Ok (Some r) -> star_lists pd s Ncell Nl N1 N2 Ng' near far = Ok (Some r).
Proof.
  intros pd s Ncell Nl N1 N2 Ng Ng' near far r L. unfold star_lists.
  destruct (walk _ _ _ _ _ _ _) as [[x st]| | |] eqn:E; cbn [bind]; try discriminate. destruct st; [discriminate|].
  rewrite (walk_mono _ _ _ _ _ (star_visit (tfuel (ts_k s)) (view_of (ts_k s)) near far (alive pd) Nl N1 N2 Ng')) with (y := x) (1 := fun c x y k => star_visit_mono _ _ _ _ _ _ _ _ _ _ c x y k L); [|exact E].
  cbn [bind]. destruct x as [[a b] d]. destruct (_ <=? _); cbn [andb]; [|discriminate]. destruct (_ <=? _); cbn [andb]; [|discriminate].
  destruct (Z.leb_spec (zlen d) Ng); [|discriminate]. destruct (Z.leb_spec (zlen d) Ng'); [auto|lia].
Qed.
Theorem star_retry_ends : forall ndim kr th2 quad pd Nl s Ncell t ps,
  stocked ndim kr th2 quad pd Nl s Ncell t ps -> (0 <= kr)%R ->
  (forall p x, In p ps -> aget pd p = Ok x -> (0 <= p_h x)%R) ->
  (forall p x, In p ps -> aget pd p = Ok x -> p_dead x = false) ->
  forall near far, (forall c, 0 <= c < Ncell -> exists b o, near c = Ok b /\ far c = Ok o) ->
  forall Ntot Ngravcellmax N0 r, 0 <= Ntot -> 0 < Ngravcellmax ->
  star_lists pd s Ncell Nl Ntot Ntot N0 near far = Ok (Some r) ->
  exists n, star_retry n pd s Ncell Nl Ntot Ngravcellmax near far = Ok r.
Proof.
  intros ndim kr th2 quad pd Nl s Ncell t ps ST Hkr Hh Hl near far Hd Ntot Ng N0 r HN HG HS.
  assert (G : forall m Ng, 0 < Ng -> N0 <= Ng * 2 ^ Z.of_nat m -> exists n, star_retry n pd s Ncell Nl Ntot Ng near far = Ok r).
  { clear Ng HG. induction m as [|m IH]; intros Ng HG HB.
    - exists 1%nat. cbn [star_retry]. rewrite (star_lists_mono _ _ _ _ _ _ N0 Ng _ _ r); [reflexivity|cbn in HB; lia|exact HS].
    - destruct (star_lists_spec ndim kr th2 quad pd Nl s Ncell t ps ST Hkr Hh Hl near far Ntot Ntot Ng Hd) as (r' & E & _); try lia.
      destruct r' as [r'|].
      + exists 1%nat. cbn [star_retry]. rewrite E. cbn [bind]. f_equal.
        assert (E1 := star_lists_mono _ _ _ _ _ _ _ (Z.max N0 Ng) _ _ _ (Z.le_max_r _ _) E).
        assert (E2 := star_lists_mono _ _ _ _ _ _ _ (Z.max N0 Ng) _ _ _ (Z.le_max_l _ _) HS). congruence.
      + destruct (IH (2 * Ng)) as (n & En); [lia|rewrite Nat2Z.inj_succ, Z.pow_succ_r in HB by lia; nia|].
        exists (S n). cbn [star_retry]. rewrite E. cbn [bind]. exact En. }
  apply (G (Z.to_nat (Z.max 0 N0)) Ng HG). rewrite Z2Nat.id by lia.
  assert (Z.max 0 N0 < 2 ^ Z.max 0 N0) by (apply Z.pow_gt_lin_r; lia). nia.
Qed.
