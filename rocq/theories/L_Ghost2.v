From Verif Require Import Prelude L_Prelude Vec M_Box S_Box L_Box M_Util M_Periodic S_Periodic L_Periodic L_Periodic2 M_Ghost S_Ghost L_Ghost.
From Coq Require Import Reals Lra NArith.
Local Open Scope R_scope.

Lemma beq_mirror : forall b, beq b mirrorB = is_mirrorB b.
Proof. intros []; reflexivity. Qed.
Lemma mk_finder_mir : forall n b f, mk_finder n b = Ok f ->
  f_mlhs f = (fun k => beq (blhs b k) mirrorB) /\ f_mrhs f = (fun k => beq (brhs b k) mirrorB) /\
  (f_anymir f = true <-> exists k, (k < n)%nat /\ (blhs b k = mirrorB \/ brhs b k = mirrorB)).
Proof.
  intros n b f. unfold mk_finder. destruct (loopk n _ true); [|discriminate]. intros H. injection H as <-. cbn.
  split; [reflexivity|]. split; [reflexivity|].
  rewrite (loopk_or n (fun k => beq (blhs b k) mirrorB || beq (brhs b k) mirrorB)).
  split; intros (k & Hk & H); exists k; (split; [easy|]).
  - apply orb_true_iff in H. rewrite !beq_true in H. exact H.
  - apply orb_true_iff. rewrite !beq_true. exact H.
Qed.
Lemma need_spec : forall n b f rc b1 b2 hmin hmax, mk_finder n b = Ok f ->
  (t_need (SetTargetCell n f rc b1 b2 hmin hmax) = true <-> reaches_mirror n b hmin hmax).
Proof.
  intros n b f rc b1 b2 hmin hmax Hf. destruct (mk_finder_mir n b f Hf) as (El & Er & Ea).
  destruct (mk_finder_ok n b f Hf) as (Ed & _). unfold SetTargetCell. cbn [t_need]. rewrite El, Er, Ed.
  assert (Q : forall k, (beq (blhs b k) mirrorB && rltb (hmin k) (dmin b k)) || (beq (brhs b k) mirrorB && rltb (dmax b k) (hmax k)) = true <->
      ((blhs b k = mirrorB /\ hmin k < dmin b k) \/ (brhs b k = mirrorB /\ dmax b k < hmax k))).
  { intros k. rewrite orb_true_iff, !andb_true_iff, !beq_true, !rltb_true. tauto. }
  destruct (f_anymir f).
  - rewrite (loopk_or n (fun k => beq (blhs b k) mirrorB && rltb (hmin k) (dmin b k) || beq (brhs b k) mirrorB && rltb (dmax b k) (hmax k))).
    split; intros (k & Hk & H); exists k; (split; [easy|]); now apply Q.
  - split.
    + intros H. exfalso. clear - H. induction n; [discriminate|]. rewrite loopk_S in H. auto.
    + intros (k & Hk & H). exfalso. assert (false = true) by (apply Ea; exists k; tauto). discriminate.
Qed.
Lemma need_anymir : forall n b f rc b1 b2 hmin hmax, mk_finder n b = Ok f ->
  t_need (SetTargetCell n f rc b1 b2 hmin hmax) = true -> f_anymir f = true.
Proof.
  intros n b f rc b1 b2 hmin hmax Hf H. apply (need_spec n b) in H; [|easy]. destruct (mk_finder_mir n b f Hf) as (_ & _ & Ea).
  apply Ea. destruct H as (k & Hk & H). exists k. tauto.
Qed.

Lemma loopk_vset : forall n (g v : vec) k, loopk n (fun k r => vset r k (g k)) v k = if (k <? n)%nat then g k else v k.
Proof.
  induction n; intros; [reflexivity|]. rewrite loopk_S. unfold vset at 1. destruct (Nat.eqb_spec k n).
  - subst. now rewrite (proj2 (Nat.ltb_lt n (S n))) by lia.
  - rewrite IHn. destruct (Nat.ltb_spec k n), (Nat.ltb_spec k (S n)); try lia; reflexivity.
Qed.
Lemma MakePeriodicGhost_spec : forall n lo hi bl br' f t p, (n <= 3)%nat -> (forall k, (k < n)%nat -> lo k < hi k) ->
  mk_finder n (mkbox lo hi bl br') = Ok f -> t_f t = f ->
  in_box n lo hi (gp_r p) -> in_box n lo hi (t_centre t) ->
  nearest_image n (mkbox lo hi bl br') (t_centre t) p (MakePeriodicGhost n t p).
Proof.
  intros n lo hi bl br' f t p Hn Hb Hf Et Hp Hc. set (b := mkbox lo hi bl br') in *.
  unfold MakePeriodicGhost. rewrite Et.
  assert (G := gf_nearest n lo hi bl br' Hb Hn f Hf (t_centre t) (gp_r p) Hc Hp). cbv zeta in G. fold b in G.
  change (vsub (gp_r p) (t_centre t)) with (fun k => gp_r p k - t_centre t k) in G.
  destruct (gf_npv' n lo hi bl br' Hn f Hf (fun k => gp_r p k - t_centre t k)) as (N1 & N2 & N3). fold b in N1, N2.
  destruct (GF_NearestPeriodicVector n f (fun k => gp_r p k - t_centre t k)) as [bd d].
  destruct G as (G1 & G2 & _ & G4 & G5 & G6). cbn [fst snd] in N1, N2, N3.
  set (q := if is_periodic bd then _ else p).
  assert (Q : gp_id q = gp_id p /\ gp_h2 q = gp_h2 p /\ gp_v q = gp_v p /\ gp_a q = gp_a p).
  { unfold q. destruct (is_periodic bd); repeat split. }
  assert (QF : gp_fl q = gp_fl p) by (unfold q; destruct (is_periodic bd); reflexivity).
  assert (QR : (forall k, (k < n)%nat -> gp_r q k = t_centre t k + d k) /\ (forall k, (n <= k)%nat -> gp_r q k = gp_r p k)).
  { unfold q. destruct (is_periodic bd) eqn:E.
    - cbn [set_r gp_r]. split; intros k Hk; rewrite loopk_vset; [now rewrite (proj2 (Nat.ltb_lt k n))|now rewrite (proj2 (Nat.ltb_ge k n))].
    - split; [|easy]. intros k Hk. destruct (Req_dec (d k) (gp_r p k - t_centre t k)) as [Ek|Ek]; [rewrite Ek; lra|].
      assert (false = true); [|discriminate]. apply G6. eauto. }
  destruct QR as (QR1 & QR2). unfold nearest_image. cbn [set_flag gp_id gp_h2 gp_v gp_a gp_r gp_fl].
  destruct Q as (-> & -> & -> & -> ). do 4 (split; [reflexivity|]). split; [|split; [exact QR2|]].
  2:{ intros i. rewrite QF. unfold fl_set. rewrite N.lor_spec, orb_true_iff.
      assert (S0 : forall k, (k < n)%nat -> 0 < dsize b k) by (intros k Hk; specialize (Hb k Hk); cbn; lra).
      assert (dom_cases : forall k, (k < n)%nat -> d k = gp_r p k - t_centre t k \/ d k = gp_r p k - t_centre t k + dsize b k \/ d k = gp_r p k - t_centre t k - dsize b k).
      { intros k Hk. rewrite (N1 k Hk). unfold near1. destruct (perb b k); [destruct (rltb (dhalf b k) _); [|destruct (rltb _ (- dhalf b k))]|]; lra. }
      apply or_iff_compat_l. split.
      - intros Hi. assert (Rg := N3 i Hi).
        assert (exists k s, (k < 3)%nat /\ (s < 2)%nat /\ i = N.of_nat (7 + 3 * s + k)) as (k & s & Hk & Hs & ->).
        { assert (i < 10 \/ 10 <= i)%N as [H|H] by lia.
          - exists (N.to_nat (i - 7)), 0%nat. lia.
          - exists (N.to_nat (i - 10)), 1%nat. lia. }
        assert (k < n)%nat as Hkn.
        { rewrite N2 in Hi by lia. apply andb_true_iff in Hi. apply Nat.ltb_lt. apply Hi. }
        exists k. split; [exact Hkn|]. specialize (S0 k Hkn). rewrite (QR1 k Hkn).
        assert (s = 0 \/ s = 1)%nat as [-> | -> ] by lia.
        + left. apply (G4 k Hkn) in Hi. split; [lra|f_equal; lia].
        + right. apply (G5 k Hkn) in Hi. split; [lra|f_equal; lia].
      - intros (k & Hk & [(H & ->)|(H & ->)]); specialize (S0 k Hk); rewrite (QR1 k Hk) in H;
          destruct (dom_cases k Hk) as [E|[E|E]]; try lra; [apply (G4 k Hk)|apply (G5 k Hk)]; exact E. }
  intros k Hk. destruct (G1 k Hk) as [(P & z & Ez)|(P & Ez)].
  - left. destruct P as (P1 & P2). split; [easy|]. split; [easy|]. split.
    + exists z. rewrite QR1, Ez by easy. lra.
    + rewrite QR1 by easy. replace (t_centre t k + d k - t_centre t k) with (d k) by lra. apply G2; [easy|now split].
  - right. split; [exact P|]. rewrite QR1, Ez by easy. lra.
Qed.
Lemma no_periodic_nearest : forall n lo hi bl br' f c p,
  mk_finder n (mkbox lo hi bl br') = Ok f -> f_anyper f = false ->
  nearest_image n (mkbox lo hi bl br') c p p.
Proof.
  intros n lo hi bl br' f c p Hf Ha. destruct (mk_finder_ok _ _ _ Hf) as (_ & _ & _ & Ea).
  unfold nearest_image. do 4 (split; [reflexivity|]). split; [|split; [easy|]].
  2:{ intros i. split; [auto|]. intros [H|(k & Hk & [(H & _)|(H & _)])]; [exact H|lra|lra]. }
  intros k Hk. right. split; [|easy].
  intros P. assert (f_anyper f = true); [|congruence]. apply Ea. exists k. split; [easy|]. now apply perb_true.
Qed.

Lemma repeat_snoc : forall m, repeat No m ++ [No] = repeat No (S m).
Proof. induction m; [reflexivity|]. cbn. f_equal. exact IHm. Qed.
Lemma image_repeat : forall lo hi p m, is_image lo hi p (repeat No m) p.
Proof. induction m; [apply image_refl|]. rewrite <- repeat_snoc. now apply image_no. Qed.
Lemma choices_first : forall m L Rt, exists C, choices m L Rt = repeat No m :: C.
Proof.
  induction m; intros; [eexists; reflexivity|]. rewrite choices_S. destruct (IHm L Rt) as (C & ->). unfold cext. cbn [map app].
  rewrite repeat_snoc. eauto.
Qed.
Lemma ghosts_len_mono : forall n lo hi L Rt L' R' p0, (forall k, (k < n)%nat -> (L k = true -> L' k = true) /\ (Rt k = true -> R' k = true)) ->
    (zlen (ghosts n lo hi L Rt p0) <= zlen (ghosts n lo hi L' R' p0))%Z.
Proof.
  intros n lo hi L Rt L' R' p0. induction n as [|n IH]; intros H; [apply Z.le_refl|]. rewrite !ghosts_len_S.
  assert (HI : forall k, (k < n)%nat -> (L k = true -> L' k = true) /\ (Rt k = true -> R' k = true)) by (intros k Hk; apply H; lia).
  assert (J := IH HI). assert (P := ghosts_pos n lo hi L Rt p0).
  destruct (H n ltac:(lia)) as (H1 & H2). destruct (L n), (Rt n), (L' n), (R' n); cbn [b2z]; try lia;
      try (specialize (H1 eq_refl); discriminate); try (specialize (H2 eq_refl); discriminate).
Qed.
Lemma ghosts_none : forall n lo hi p0, ghosts n lo hi (fun _ => false) (fun _ => false) p0 = [p0].
Proof. induction n; intros; [reflexivity|]. rewrite ghosts_S, IHn. reflexivity. Qed.
Section CONSTRUCT.
Variables (n : nat) (lo hi : vec) (bl br' : nat -> boundary) (f : finder) (rc b1 b2 hmin hmax : vec).
Hypothesis Hn : (n <= 3)%nat.
Hypothesis Hb : forall k, (k < n)%nat -> lo k < hi k.
Let b := mkbox lo hi bl br'.
Hypothesis Hf : mk_finder n b = Ok f.
Let t := SetTargetCell n f rc b1 b2 hmin hmax.
Hypothesis Hc : in_box n lo hi rc.
Let ml := fun k => is_mirrorB (bl k).
Let mr := fun k => is_mirrorB (br' k).

Lemma ConstructAllGhosts_spec : forall p buf, in_box n lo hi (gp_r p) -> zlen buf = MaxNumGhosts n f ->
  exists p0 buf' nc cs,
    ConstructAllGhosts n t p buf = Ok (buf', nc) /\ zlen buf' = zlen buf /\
    (1 <= nc <= MaxNumGhosts n f)%Z /\ nearest_image n b rc p p0 /\
    Forall2 (is_image lo hi p0) cs (firstn (Z.to_nat nc) buf') /\ NoDup cs /\ In (repeat No n) (firstn 1 cs) /\
    (reaches_mirror n b hmin hmax -> forall c, In c cs <-> allowed n ml mr c) /\
    (~ reaches_mirror n b hmin hmax -> cs = [repeat No n]).
Proof.
  intros p buf Hp Hlen. destruct (mk_finder_mir n b f Hf) as (El & Er & Ea). destruct (mk_finder_ok n b f Hf) as (Ed & _ & _ & Ep).
  assert (Hmax : (1 <= MaxNumGhosts n f)%Z).
  { destruct (f_anymir f) eqn:E; [rewrite (MaxNumGhosts_len n f lo hi p E); apply ghosts_pos|unfold MaxNumGhosts; rewrite E; lia]. }
  destruct buf as [|y rest]; [unfold zlen in Hlen; cbn in Hlen; lia|].
  set (p0 := if f_anyper f then MakePeriodicGhost n t p else p).
  assert (NI : nearest_image n b rc p p0).
  { unfold p0. destruct (f_anyper f) eqn:E.
    - apply (MakePeriodicGhost_spec n lo hi bl br' f t p Hn Hb Hf eq_refl Hp Hc).
    - now apply (no_periodic_nearest n lo hi bl br' f). }
  assert (EC : ConstructAllGhosts n t p (y :: rest) = if t_need t then MakeReflectedGhostsAll n t (p0 :: rest) else Ok (p0 :: rest, 1%Z)).
  { unfold ConstructAllGhosts. change (aset (y :: rest) 0 p) with (Ok (p :: rest)). cbn [bind].
    unfold p0. change (t_f t) with f. destruct (f_anyper f); reflexivity. }
  assert (EXT : forall k, (k < n)%nat -> f_mlhs f k = ml k /\ f_mrhs f k = mr k).
  { intros k _. rewrite El, Er. split; apply beq_mirror. }
  exists p0. rewrite EC. destruct (t_need t) eqn:En.
  - assert (Em := need_anymir n b f rc b1 b2 hmin hmax Hf En).
    apply (need_spec n b) in En; [|easy].
    rewrite (MaxNumGhosts_len n f lo hi p0 Em) in *.
    assert (D1 : dmin (f_dom f) = lo) by now rewrite Ed. assert (D2 : dmax (f_dom f) = hi) by now rewrite Ed.
    destruct (MakeReflectedGhostsAll_spec t n p0 rest) as (rest' & E & Hl).
    { change (t_f t) with f. rewrite D1, D2, <- Hlen. unfold zlen. cbn [length]. lia. }
    change (t_f t) with f in E, Hl. rewrite D1, D2 in E, Hl.
    set (G := ghosts n lo hi (f_mlhs f) (f_mrhs f) p0) in *.
    exists (G ++ rest'), (zlen G), (choices n ml mr). split; [exact E|]. split.
    { rewrite Hlen. unfold zlen in *. rewrite app_length. cbn [length] in Hlen. lia. }
    split; [split; [apply ghosts_pos|lia]|]. split; [exact NI|].
    split; [|split; [apply choices_nodup|split; [|split; [intros _ c; apply choices_in|easy]]]].
    + unfold zlen at 1. rewrite Nat2Z.id, firstn_app, Nat.sub_diag, firstn_all. cbn [firstn]. rewrite app_nil_r.
      unfold G. rewrite (ghosts_ext n lo hi _ _ ml mr p0 EXT). now apply ghosts_images.
    + destruct (choices_first n ml mr) as (C & ->). now left.
  - exists (p0 :: rest), 1%Z, [repeat No n]. split; [reflexivity|]. split; [reflexivity|]. split; [lia|]. split; [exact NI|].
    split; [|split; [constructor; [easy|constructor]|split; [now left|split; [|easy]]]].
    + cbn. constructor; [|constructor].
      apply image_repeat.
    + intros H. apply (need_spec n b f rc b1 b2 hmin hmax Hf) in H. fold t in H. congruence.
Qed.

(** ** Scatter-gather ghosts *)
Lemma set_back_push : forall v x y, vdata (set_back (push_back v x) y) = vdata v ++ [y].
Proof.
  intros v x y. unfold set_back. cbn [vdata].
  assert (E : vdata (push_back v x) = vdata v ++ [x]) by (unfold push_back; destruct (_ <? _)%Z; reflexivity).
  rewrite E, app_length. cbn [length]. replace (length (vdata v) + 1 - 1)%nat with (length (vdata v)) by lia.
  clear. induction (vdata v); [reflexivity|]. cbn. f_equal. exact IHl.
Qed.
Lemma push_back_room : forall v x, (zlen (vdata v) < vcap v)%Z -> push_back v x = {| vdata := vdata v ++ [x]; vcap := vcap v; vgen := vgen v |}.
Proof. intros v x H. unfold push_back. now rewrite (proj2 (Z.ltb_lt _ _) H). Qed.
Lemma aget_last : forall (l : list gpart) x, aget (l ++ [x]) (zlen (l ++ [x]) - 1) = Ok x.
Proof.
  intros. apply aget_app_mid. unfold zlen. rewrite app_length. cbn. lia.
Qed.
Lemma refl_sg_spec : forall cnt m k x fl D cap gen nc, (0 <= m)%Z -> (m + Z.of_nat cnt <= zlen D)%Z -> (zlen D + Z.of_nat cnt <= cap)%Z ->
  refl_sg cnt m k x fl {| vdata := D; vcap := cap; vgen := gen |} nc =
    Ok ({| vdata := D ++ map (fun g => set_flag (reflect g k x) fl) (firstn cnt (skipn (Z.to_nat m) D)); vcap := cap; vgen := gen |}, (nc + Z.of_nat cnt)%Z).
Proof.
  induction cnt; intros m k x fl D cap gen nc Hm HD Hcap.
  - cbn. rewrite app_nil_r, Z.add_0_r. reflexivity.
  - cbn [refl_sg vdata]. destruct (nth_error D (Z.to_nat m)) as [g|] eqn:E.
    2:{ apply nth_error_None in E. unfold zlen in HD. lia. }
    assert (aget D m = Ok g) as ->.
    { unfold aget. destruct (Z.ltb_spec m 0); [lia|]. now rewrite E. }
    cbn [bind]. rewrite push_back_room by (cbn [vdata vcap]; lia). cbn [vdata vcap vgen]. rewrite aget_last. cbn [bind].
    assert (SB : set_back {| vdata := D ++ [g]; vcap := cap; vgen := gen |} (set_flag (reflect g k x) fl) =
       {| vdata := D ++ [set_flag (reflect g k x) fl]; vcap := cap; vgen := gen |}).
    { unfold set_back. cbn [vdata vcap vgen]. f_equal. rewrite app_length. cbn [length].
      replace (length D + 1 - 1)%nat with (length D) by lia. clear. induction D; [reflexivity|]. cbn. f_equal. exact IHD. }
    rewrite SB. rewrite IHcnt; [|lia|unfold zlen in *; rewrite app_length; cbn; lia|unfold zlen in *; rewrite app_length; cbn; lia].
    assert (SK : skipn (Z.to_nat m) D = g :: skipn (Z.to_nat (m + 1)) D).
    { replace (Z.to_nat (m + 1)) with (S (Z.to_nat m)) by lia. clear - E. revert E. generalize (Z.to_nat m) as j.
      induction D; intros j E; [destruct j; discriminate|]. destruct j; [cbn in E; injection E as ->; reflexivity|]. cbn. apply IHD. exact E. }
    f_equal. f_equal; [|lia]. f_equal. rewrite SK. cbn [firstn map]. rewrite <- app_assoc. cbn [app]. f_equal. f_equal. f_equal.
    rewrite skipn_app, firstn_app. replace (cnt - length (skipn (Z.to_nat (m + 1)) D))%nat with 0%nat.
    + cbn [firstn]. now rewrite app_nil_r.
    + rewrite skipn_length. unfold zlen in HD. lia.
Qed.

(** The tests of lines 423-426 and 436-439 for a particle [p0]. *)
Definition keepL (p0 : gpart) (k : nat) : bool :=
  ml k && (rltb ((2 * lo k - gp_r p0 k - b1 k) * (2 * lo k - gp_r p0 k - b1 k)) (gp_h2 p0) || rltb (hmin k) (2 * lo k - gp_r p0 k)).
Definition keepR (p0 : gpart) (k : nat) : bool :=
  mr k && (rltb ((2 * hi k - gp_r p0 k - b2 k) * (2 * hi k - gp_r p0 k - b2 k)) (gp_h2 p0) || rltb (2 * hi k - gp_r p0 k) (hmax k)).

Lemma MakeReflectedScatterGatherGhosts_spec : forall m D p0 cap gen, (m <= n)%nat ->
  (zlen D + zlen (ghosts m lo hi (keepL p0) (keepR p0) p0) <= cap)%Z ->
  MakeReflectedScatterGatherGhosts m t {| vdata := D ++ [p0]; vcap := cap; vgen := gen |} =
    Ok ({| vdata := D ++ ghosts m lo hi (keepL p0) (keepR p0) p0; vcap := cap; vgen := gen |},
        zlen (ghosts m lo hi (keepL p0) (keepR p0) p0)).
Proof.
  intros m D p0 cap gen Hm Hcap. unfold MakeReflectedScatterGatherGhosts. cbn [vdata vgen].
  destruct (mk_finder_mir n b f Hf) as (El & Er & _). destruct (mk_finder_ok n b f Hf) as (Ed & _).
  replace (zlen (D ++ [p0]) - 1)%Z with (zlen D) by (unfold zlen; rewrite app_length; cbn; lia).
  assert (DR : forall G, deref {| vdata := D ++ p0 :: G; vcap := cap; vgen := gen |} gen (zlen D) = Ok p0).
  { intros G. unfold deref. cbn [vgen vdata]. rewrite Z.eqb_refl. now apply aget_app_mid. }
  rewrite DR. cbn [bind]. change (t_f t) with f. rewrite El, Er, Ed. cbn [blhs brhs dmin dmax].
  cbn [t t_cmin t_cmax t_hmin t_hmax SetTargetCell].
  induction m.
  - reflexivity.
  - rewrite loopk_S.
    assert (Hmono := ghosts_mono m (S m) lo hi (keepL p0) (keepR p0) p0 ltac:(lia)).
    rewrite IHm by lia. clear IHm. cbn [bind].
    rewrite ghosts_len_S in *. rewrite ghosts_S.
    destruct (ghosts_prefix m lo hi (keepL p0) (keepR p0) p0) as (G0 & EG).
    set (G := ghosts m lo hi (keepL p0) (keepR p0) p0) in *.
    assert (DRG : forall X, deref {| vdata := D ++ G ++ X; vcap := cap; vgen := gen |} gen (zlen D) = Ok p0).
    { intros X. rewrite EG. cbn [app]. apply DR. }
    assert (STEP : forall x fl X nc, (zlen D + zlen G + zlen X + zlen G <= cap)%Z ->
      refl_sg (Z.to_nat (zlen G)) (zlen D) m x fl {| vdata := D ++ G ++ X; vcap := cap; vgen := gen |} nc =
       Ok ({| vdata := D ++ G ++ X ++ map (fun g => set_flag (reflect g m x) fl) G; vcap := cap; vgen := gen |}, (nc + zlen G)%Z)).
    { intros x fl X nc Hx. rewrite refl_sg_spec.
      - f_equal. f_equal; [|unfold zlen; lia]. f_equal. rewrite <- !app_assoc. do 3 f_equal. f_equal.
        unfold zlen. rewrite !Nat2Z.id. rewrite skipn_app, Nat.sub_diag, skipn_all. cbn [app skipn].
        rewrite firstn_app, Nat.sub_diag, firstn_all. cbn [firstn]. apply app_nil_r.
      - unfold zlen. lia.
      - unfold zlen. rewrite !app_length. lia.
      - unfold zlen in *. rewrite !app_length. lia. }
    assert (ZG : zlen ([] : list gpart) = 0%Z) by reflexivity.
    assert (ZP : (0 <= zlen G)%Z) by (unfold zlen; lia).
    assert (ZM : forall (fg : gpart -> gpart), zlen (map fg G) = zlen G) by (intros; unfold zlen; now rewrite map_length).
    assert (ZA : forall (a c : list gpart), zlen (a ++ c) = (zlen a + zlen c)%Z) by (intros; unfold zlen; rewrite app_length; lia).
    assert (EL : (if beq (bl m) mirrorB
       then let! real := deref {| vdata := D ++ G; vcap := cap; vgen := gen |} gen (zlen D) in
        let x := 2 * lo m - gp_r real m in let dx := x - b1 m in
        if rltb (dx * dx) (gp_h2 p0) || rltb (hmin m) x
        then refl_sg (Z.to_nat (zlen G)) (zlen D) m (lo m) (mirflag m 0) {| vdata := D ++ G; vcap := cap; vgen := gen |} (zlen G)
        else Ok ({| vdata := D ++ G; vcap := cap; vgen := gen |}, zlen G)
       else Ok ({| vdata := D ++ G; vcap := cap; vgen := gen |}, zlen G)) =
       Ok ({| vdata := D ++ G ++ (if keepL p0 m then map (gleft lo m) G else []); vcap := cap; vgen := gen |}, (zlen G * (1 + b2z (keepL p0 m)))%Z)).
    { assert (D0 := DRG []). rewrite app_nil_r in D0. unfold keepL, ml. rewrite <- beq_mirror.
      destruct (beq (bl m) mirrorB) eqn:EB; cbn [andb b2z].
      2:{ rewrite app_nil_r. f_equal. f_equal. lia. }
      rewrite D0. cbn [bind]. unfold keepL, ml in Hcap. rewrite <- beq_mirror, EB in Hcap. cbn [andb] in Hcap.
      match goal with |- context [if ?c then refl_sg _ _ _ _ _ _ _ else _] => destruct c eqn:EC end; rewrite ?EC in Hcap; cbn [b2z] in *.
      2:{ rewrite app_nil_r. f_equal. f_equal. lia. }
      assert (S0 := STEP (lo m) (mirflag m 0) [] (zlen G)). rewrite app_nil_r in S0. cbn [app] in S0. rewrite S0.
      - f_equal. f_equal. lia.
      - destruct (keepR p0 m); cbn [b2z] in Hcap; rewrite ZG; lia. }
    match goal with |- bind ?e _ = _ => change e with (if beq (bl m) mirrorB
       then let! real := deref {| vdata := D ++ G; vcap := cap; vgen := gen |} gen (zlen D) in
        let x := 2 * lo m - gp_r real m in let dx := x - b1 m in
        if rltb (dx * dx) (gp_h2 p0) || rltb (hmin m) x
        then refl_sg (Z.to_nat (zlen G)) (zlen D) m (lo m) (mirflag m 0) {| vdata := D ++ G; vcap := cap; vgen := gen |} (zlen G)
        else Ok ({| vdata := D ++ G; vcap := cap; vgen := gen |}, zlen G)
       else Ok ({| vdata := D ++ G; vcap := cap; vgen := gen |}, zlen G)) end.
    rewrite EL. clear EL. cbn [bind]. unfold gext.
    set (X := if keepL p0 m then map (gleft lo m) G else []) in *.
    assert (ZX : zlen X = (zlen G * b2z (keepL p0 m))%Z). { unfold X. destruct (keepL p0 m); cbn [b2z]; [rewrite ZM|rewrite ZG]; lia. }
    change (brhs b m) with (br' m). unfold keepR, mr. rewrite <- beq_mirror.
    unfold keepR, mr in Hcap. rewrite <- beq_mirror in Hcap.
    destruct (beq (br' m) mirrorB); cbn [andb b2z] in *.
    2:{ f_equal. f_equal; [|lia]. now rewrite app_nil_r. }
    rewrite DRG. cbn [bind].
    change (dmax b m) with (hi m).
    match goal with |- context [if ?c then refl_sg _ _ _ _ _ _ _ else _] => destruct c eqn:EC end; rewrite ?EC in *; cbn [b2z] in *.
    2:{ f_equal. f_equal; [|lia]. now rewrite app_nil_r. }
    rewrite STEP by lia. f_equal. f_equal. lia.
Qed.

Theorem ConstructGhostsScatterGather_room : forall p v, in_box n lo hi (gp_r p) ->
  (zlen (vdata v) + MaxNumGhosts n f <= vcap v)%Z ->
  exists p0 cs gs, nearest_image n b rc p p0 /\
    ConstructGhostsScatterGather n t p v = Ok ({| vdata := vdata v ++ gs; vcap := vcap v; vgen := vgen v |}, zlen gs) /\
    Forall2 (is_image lo hi p0) cs gs /\ NoDup cs /\
    (forall c, In c cs <-> allowed n (keepL p0) (keepR p0) c).
Proof.
  intros p v Hp Hcap. destruct (mk_finder_mir n b f Hf) as (El & Er & Ea).
  assert (Hmax : (1 <= MaxNumGhosts n f)%Z).
  { destruct (f_anymir f) eqn:E; [rewrite (MaxNumGhosts_len n f lo hi p E); apply ghosts_pos|unfold MaxNumGhosts; rewrite E; lia]. }
  set (p0 := if f_anyper f then MakePeriodicGhost n t p else p).
  assert (NI : nearest_image n b rc p p0).
  { unfold p0. destruct (f_anyper f) eqn:E.
    - apply (MakePeriodicGhost_spec n lo hi bl br' f t p Hn Hb Hf eq_refl Hp Hc).
    - now apply (no_periodic_nearest n lo hi bl br' f). }
  exists p0, (choices n (keepL p0) (keepR p0)), (ghosts n lo hi (keepL p0) (keepR p0) p0).
  split; [exact NI|]. split; [|split; [now apply ghosts_images|split; [apply choices_nodup|intros; apply choices_in]]].
  unfold ConstructGhostsScatterGather. rewrite push_back_room by lia.
  assert (E1 : (if f_anyper (t_f t) then
      let! bb := aget (vdata {| vdata := vdata v ++ [p]; vcap := vcap v; vgen := vgen v |}) (zlen (vdata {| vdata := vdata v ++ [p]; vcap := vcap v; vgen := vgen v |}) - 1) in
      Ok (set_back {| vdata := vdata v ++ [p]; vcap := vcap v; vgen := vgen v |} (MakePeriodicGhost n t bb))
      else Ok {| vdata := vdata v ++ [p]; vcap := vcap v; vgen := vgen v |}) = Ok {| vdata := vdata v ++ [p0]; vcap := vcap v; vgen := vgen v |}).
  { change (t_f t) with f. unfold p0. destruct (f_anyper f); [|reflexivity]. cbn [vdata]. rewrite aget_last. cbn [bind].
    f_equal. unfold set_back. cbn [vdata vcap vgen]. f_equal. rewrite app_length. cbn [length].
    replace (length (vdata v) + 1 - 1)%nat with (length (vdata v)) by lia. clear. induction (vdata v); [reflexivity|]. cbn. f_equal. exact IHl. }
  rewrite E1. cbn [bind]. change (t_f t) with f.
  assert (LE := fun L R L' R' => ghosts_len_mono n lo hi L R L' R' p0).
  destruct (f_anymir f) eqn:E.
  - apply MakeReflectedScatterGatherGhosts_spec; [lia|]. rewrite (MaxNumGhosts_len n f lo hi p0 E) in Hcap.
    assert (I := LE (keepL p0) (keepR p0) (f_mlhs f) (f_mrhs f)).
    assert (forall k, (k < n)%nat -> (keepL p0 k = true -> f_mlhs f k = true) /\ (keepR p0 k = true -> f_mrhs f k = true)) as J; [|specialize (I J); lia].
    intros k Hk. rewrite El, Er, !beq_mirror. unfold keepL, keepR, ml, mr. rewrite !andb_true_iff. cbn [blhs brhs b mkbox]. tauto.
  - assert (G1 : ghosts n lo hi (keepL p0) (keepR p0) p0 = [p0]).
    { rewrite (ghosts_ext n lo hi _ _ (fun _ => false) (fun _ => false)).
      - apply ghosts_none.
      - intros k Hk. unfold keepL, keepR, ml, mr.
        assert (is_mirrorB (bl k) = false /\ is_mirrorB (br' k) = false) as (-> & -> ); [|split; reflexivity].
        rewrite <- !beq_mirror. split; apply beq_false; intros X; assert (false = true) by (apply Ea; exists k; cbn; tauto); discriminate. }
    rewrite G1. reflexivity.
Qed.

(** No interacting image is left out: an image within its own kernel radius of a point of
    the cell, or inside the kernel-extended box of the cell, is among those kept. *)
Lemma scatter_gather_complete : forall p0 c q,
  (forall k, (k < n)%nat -> ml k || mr k = true -> lo k <= gp_r p0 k <= hi k) ->
  (forall k, (k < n)%nat -> lo k <= b1 k <= b2 k /\ b2 k <= hi k) ->
  allowed n ml mr c -> is_image lo hi p0 c q -> touches n b1 b2 hmin hmax q ->
  allowed n (keepL p0) (keepR p0) c.
Proof.
  intros p0 c q Hp Hcell (Hlen & Hal) (_ & Hh & Hr & _) Hint. split; [exact Hlen|]. intros k Hk.
  destruct (Hal k Hk) as (Al & Ar). specialize (Hr k). specialize (Hp k Hk). specialize (Hcell k Hk).
  assert (SQ : forall y, dot n (vsub (gp_r q) y) (vsub (gp_r q) y) < gp_h2 q -> (gp_r q k - y k) * (gp_r q k - y k) < gp_h2 p0).
  { intros y Hy. rewrite Hh in Hy. eapply Rle_lt_trans; [|exact Hy]. unfold dot, vsub.
    apply (sumf_term_le n (fun k => (gp_r q k - y k) * (gp_r q k - y k)) k); [|easy]. intros j _. cbv beta. apply Rle_0_sqr. }
  split; intros E; rewrite E in Hr.
  - unfold keepL. rewrite (Al E) in *. cbn [andb]. specialize (Hp (eq_refl _)). apply orb_true_iff. destruct Hint as [(y & Hy & Hd)|Hin].
    + left. apply rltb_true. apply SQ in Hd. specialize (Hy k Hk). rewrite Hr in Hd. cbv beta in *.
      match goal with |- ?a * ?a < _ => match type of Hd with ?c * ?c < _ => assert (a * a <= c * c); [|lra]; assert (c <= a <= 0 \/ 0 <= a <= c) by lra; generalize dependent a; generalize dependent c; intros; clear - H; nra end end.
    + right. apply rltb_true. specialize (Hin k Hk). rewrite Hr in Hin. lra.
  - unfold keepR. rewrite (Ar E) in *. cbn [andb]. rewrite orb_true_r in Hp. specialize (Hp (eq_refl _)). apply orb_true_iff. destruct Hint as [(y & Hy & Hd)|Hin].
    + left. apply rltb_true. apply SQ in Hd. specialize (Hy k Hk). rewrite Hr in Hd. cbv beta in *.
      match goal with |- ?a * ?a < _ => match type of Hd with ?c * ?c < _ => assert (a * a <= c * c); [|lra]; assert (c <= a <= 0 \/ 0 <= a <= c) by lra; generalize dependent a; generalize dependent c; intros; clear - H; nra end end.
    + right. apply rltb_true. specialize (Hin k Hk). rewrite Hr in Hin. lra.
Qed.

Lemma ScatterGather_spec : forall p v, in_box n lo hi (gp_r p) ->
  (forall k, (k < n)%nat -> lo k <= b1 k <= b2 k /\ b2 k <= hi k) ->
  (zlen (vdata v) + MaxNumGhosts n f <= vcap v)%Z ->
  exists p0 cs gs v', nearest_image n b rc p p0 /\
    ConstructGhostsScatterGather n t p v = Ok (v', zlen gs) /\ vdata v' = vdata v ++ gs /\
    Forall2 (is_image lo hi p0) cs gs /\ NoDup cs /\ In (repeat No n) cs /\
    (forall c, In c cs -> allowed n ml mr c) /\
    (forall c q, allowed n ml mr c -> is_image lo hi p0 c q -> touches n b1 b2 hmin hmax q -> In c cs).
Proof.
  intros p v Hp Hcell Hcap. destruct (ConstructGhostsScatterGather_room p v Hp Hcap) as (p0 & cs & gs & NI & E & F & ND & AL).
  exists p0, cs, gs. eexists. split; [exact NI|]. split; [exact E|]. split; [reflexivity|]. split; [exact F|]. split; [exact ND|].
  assert (MN : forall k s, (k < n)%nat -> nth k (repeat No n) No = s -> s = No).
  { intros k s _ <-. clear. revert k. induction n as [|m IH]; intros [|k]; cbn; auto. }
  split.
  { apply AL. split; [apply repeat_length|]. intros k Hk. split; intros X; apply MN in X; discriminate || easy. }
  split.
  - intros c Hc'. apply AL in Hc'. destruct Hc' as (H1 & H2). split; [exact H1|]. intros k Hk. destruct (H2 k Hk) as (A & B).
    unfold keepL, keepR in A, B. rewrite andb_true_iff in A, B. tauto.
  - intros c q H1 H2 H3. apply AL. apply (scatter_gather_complete p0 c q); auto.
    intros k Hk M. destruct NI as (_ & _ & _ & _ & NI & _). destruct (NI k Hk) as [(Q1 & Q2 & _)|(_ & ->)]; [|apply (Hp k Hk)].
    cbn in Q1, Q2. unfold ml, mr in M. rewrite Q1, Q2 in M. discriminate.
Qed.
End CONSTRUCT.

(** ** The dangling reference *)
Definition uB : nat -> boundary := fun _ => mirrorB.
Definition oB : nat -> boundary := fun _ => openB.
Definition ex_box := mkbox (fun _ => 0) (fun _ => 1) uB oB.
Definition ex_p : gpart := {| gp_id := 7; gp_r := fun _ => 1/8; gp_v := fun _ => 1; gp_a := fun _ => 0; gp_h2 := 1; gp_fl := 0 |}.
Definition ex_f := {| f_dom := ex_box; f_per := fun _ => false; f_mlhs := fun _ => true; f_mrhs := fun _ => false; f_anyper := false; f_anymir := true |}.
Lemma ex_finder : exists f, mk_finder 2 ex_box = Ok f /\ f_anyper f = false /\ f_anymir f = true /\
  (forall k, f_mlhs f k = true) /\ (forall k, f_mrhs f k = false) /\ f_dom f = ex_box.
Proof. eexists. split; [reflexivity|]. repeat split. Qed.
Lemma ScatterGather_dangling : exists f, mk_finder 2 ex_box = Ok f /\
  ConstructGhostsScatterGather 2 (SetTargetCell 2 f (fun _ => 1/4) (fun _ => 0) (fun _ => 1/2) (fun _ => -1/4) (fun _ => 3/4))
    ex_p {| vdata := []; vcap := 0; vgen := 0 |} = UB.
Proof.
  destruct ex_finder as (f & Hf & H1 & H2 & H3 & H4 & H5). exists f. split; [exact Hf|].
  unfold ConstructGhostsScatterGather.
  change (push_back {| vdata := []; vcap := 0; vgen := 0 |} ex_p) with {| vdata := [ex_p]; vcap := 1; vgen := 1 |}.
  cbn [t_f SetTargetCell]. rewrite H1, H2. cbn [bind]. unfold MakeReflectedScatterGatherGhosts.
  cbn [t_f SetTargetCell vdata vgen vcap]. change (zlen [ex_p] - 1)%Z with 0%Z.
  change (deref {| vdata := [ex_p]; vcap := 1; vgen := 1 |} 1 0) with (Ok ex_p). cbn [bind].
  rewrite !loopk_S.
  match goal with |- context [loopk 0 ?a ?b] => change (loopk 0 a b) with b end. cbn [bind].
  rewrite !H3, !H4, H5.
  change (deref {| vdata := [ex_p]; vcap := 1; vgen := 1 |} 1 0) with (Ok ex_p). cbn [bind].
  match goal with |- context [if ?c then refl_sg (Z.to_nat 1) _ _ _ _ _ _ else _] => replace c with true end.
  - reflexivity.
  - symmetry. apply orb_true_iff. right. apply rltb_true. cbn [t_hmin SetTargetCell ex_box mkbox dmin ex_p gp_r]. lra.
Qed.
