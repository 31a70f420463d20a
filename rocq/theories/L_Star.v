From Verif Require Import Prelude L_Prelude Vec S_Tree M_Walk L_Tree M_KDTree L_StockTree M_Search L_Search M_Stock S_Stock L_Stock
  M_Box S_Box L_Box M_Gather S_Search L_Gather.
From Coq Require Import Reals Lra Permutation.
Local Open Scope Z_scope.

Lemma star_down : forall fuel v near far keep Nl Nneibmax Ndirectmax Ngravcellmax c x x',
  star_visit fuel v near far keep Nl Nneibmax Ndirectmax Ngravcellmax c x = Ok (x', Down) -> vopen v c <> Ok (-1).
Proof.
  intros fuel v near far keep Nl Nneibmax Ndirectmax Ngravcellmax.
  intros c [[a b] d] x'. unfold star_visit. destruct (near c) as [[|]| | |]; cbn [bind]; try discriminate;
    destruct (vopen v c) as [co| | |]; cbn [bind]; try discriminate;
    (destruct (Z.eqb_spec co (-1)); cbn [negb andb]; [|congruence]).
    - destruct (zlen a + Nl <=? Nneibmax); try discriminate. destruct (cell_list fuel v c); cbn [bind]; try discriminate.
      destruct (push_all _ _ _ _); discriminate.
    - destruct (far c) as [[|]| | |]; cbn [bind]; try discriminate; destruct (vN v c) as [n| | |]; cbn [bind negb andb]; try discriminate.
      + destruct (0 <? n); cbn [andb]; try discriminate. destruct ((n =? 1) && (zlen b + zlen a <? Ndirectmax))%bool.
        * destruct (vfirst v c); cbn [bind]; try discriminate. destruct (push_all _ _ _ _); discriminate.
        * destruct (_ && _)%bool; discriminate.
      + destruct (0 <? n); try discriminate. destruct (zlen b + Nl <=? Ndirectmax); try discriminate.
        destruct (cell_list fuel v c); cbn [bind]; try discriminate.
        destruct (push_all _ _ _ _); discriminate.
Qed.

Section Star.
Variables (ndim : nat) (kr th2 : R) (quad : bool) (pd : list particle) (Nl : Z) (s : tstate) (Ncell : Z) (t : rtree) (ps : list Z).
Hypothesis ST : stocked ndim kr th2 quad pd Nl s Ncell t ps.
Hypothesis Hkr : (0 <= kr)%R.
Hypothesis Hh : forall p x, In p ps -> aget pd p = Ok x -> (0 <= p_h x)%R.
Hypothesis Hlive : forall p x, In p ps -> aget pd p = Ok x -> p_dead x = false.
Variables (near far : Z -> res bool) (Nneibmax Ndirectmax Ngravcellmax : Z).
Hypothesis Hdec : forall c, 0 <= c < Ncell -> exists b o, near c = Ok b /\ far c = Ok o.
Let v := view_of (ts_k s).
Let fuel := tfuel (ts_k s).
Let visit := star_visit fuel v near far (alive pd) Nl Nneibmax Ndirectmax Ngravcellmax.
Let K := fun c qs => known ndim kr th2 quad pd s Ncell c qs /\ forall p, In p qs -> In p ps.

(** What the walk over particles [ps'] adds. *)
Definition sadd (ps' : list Z) (x y : list Z * list Z * list Z) : Prop :=
  exists dn dd dc dps,
    y = (fst (fst x) ++ dn, snd (fst x) ++ dd, snd x ++ dc) /\
    Forall2 K dc dps /\ Permutation ps' (dn ++ dd ++ concat dps) /\
    Forall (fun c => near c = Ok false /\ far c = Ok true) dc /\
    (forall i, In i dd \/ In i (concat dps) -> exists c qs, K c qs /\ In i qs /\ near c = Ok false).
Definition fits (x : list Z * list Z * list Z) : Prop :=
  zlen (fst (fst x)) <= Nneibmax /\ zlen (snd (fst x)) <= Ndirectmax /\ zlen (snd x) <= Ngravcellmax.
Definition sout (ps' : list Z) (x : list Z * list Z * list Z) (r : res ((list Z * list Z * list Z) * bool)) : Prop :=
  exists y st, r = Ok (y, st) /\ fits y /\ (st = false -> sadd ps' x y).

Ltac fin := first [apply Permutation_refl | apply Forall_nil | apply Forall2_nil | (apply Forall_cons; [auto|apply Forall_nil]) | (apply Forall2_cons; [assumption|apply Forall2_nil]) | idtac].
Lemma sadd_nil : forall x, sadd [] x x.
Proof.
  intros [[a b] c]. exists [], [], [], []. cbn. rewrite !app_nil_r. repeat split; fin.
  intros i [[]|[]].
Qed.
Lemma sadd_app : forall p1 p2 s1 s2 s3, sadd p1 s1 s2 -> sadd p2 s2 s3 -> sadd (p1 ++ p2) s1 s3.
Proof.
  intros p1 p2 [[a b] c] s2 s3 (n1 & d1 & c1 & q1 & E1 & F1 & P1 & G1 & H1)
    (n2 & d2 & c2 & q2 & E2 & F2 & P2 & G2 & H2).
  cbn in E1. subst s2. cbn in E2. subst s3.
  exists (n1 ++ n2), (d1 ++ d2), (c1 ++ c2), (q1 ++ q2).
  split; [cbn; now rewrite !app_assoc|]. split; [now apply Forall2_app|].
  split; [rewrite P1, P2, concat_app; apply perm6|].
  split; [apply Forall_app; auto|].
  intros i. rewrite concat_app, !in_app_iff. intros [[H|H]|[H|H]]; auto.
Qed.

Lemma keep_live : forall qs, (forall p, In p qs -> In p ps) -> filter (kept (alive pd)) qs = qs.
Proof.
  induction qs as [|q qs IH]; intros H; cbn [filter]; [reflexivity|].
  destruct (part_of_ps _ _ _ _ _ _ _ _ _ _ ST q (H q (or_introl eq_refl))) as [x Hx].
  unfold kept at 1, alive. rewrite Hx. cbn [bind]. rewrite (Hlive q x (H q (or_introl eq_refl)) Hx). cbn [negb].
  f_equal. apply IH. intros; apply H; now right.
Qed.
Lemma keep_ok' : forall qs, (forall p, In p qs -> In p ps) -> forall p, In p qs -> exists b, alive pd p = Ok b.
Proof.
  intros qs H p Hp. destruct (part_of_ps _ _ _ _ _ _ _ _ _ _ ST p (H p Hp)) as [x Hx].
  unfold alive. rewrite Hx. cbn [bind]. eauto.
Qed.

Lemma star_twalks : forall Nc cn,
  (forall t ps, ctree K (leaf_ok fuel v Nl) t ps ->
     forall nx, linked Nc (vopen v) cn t nx -> (forall c, In c (preorder t) -> 0 <= c) ->
     forall x, fits x -> sout ps x (twalk visit t x)) /\
  (forall ks pss, ctrees K (leaf_ok fuel v Nl) ks pss ->
     forall nx, linked_list Nc (vopen v) cn ks nx -> (forall c, In c (flat_map preorder ks) -> 0 <= c) ->
     forall x, fits x -> sout (concat pss) x (twalks visit ks x)).
Proof.
  intros Nc cn. apply ctree_mutind.
  - intros c qs HK (HLL & HN & H1) nx LK NN [[neib direct] gc] Hfit. assert (HK0 := HK).
    destruct HK as (HKn & HS). assert (HC : vN v c = Ok (zlen qs)) by exact (proj1 HKn).
    destruct (Hdec c) as (b & f & Hb & Hf). { destruct HKn as (_ & g & _ & _ & _ & _ & _ & _ & X). exact X. }
    rewrite linked_unfold in LK. destruct LK as (_ & LO & _).
    assert (LO' : vopen v c = Ok (-1)) by exact LO. clear LO. rename LO' into LO.
    destruct Hfit as (Fn & Fd & Fc). cbn [fst snd] in Fn, Fd, Fc.
    rewrite twalk_unfold. unfold visit, star_visit. rewrite Hb, LO. cbn [bind].
    replace (Z.eqb (-1) (-1)) with true by reflexivity. cbn [negb andb].
    destruct b.
    + destruct (Z.leb_spec (zlen neib + Nl) Nneibmax).
      * rewrite HLL. cbn [bind]. rewrite push_all_spec; [|apply (keep_ok' qs HS)|lia]. cbn [bind]. rewrite keep_live by exact HS.
        eexists _, _. split; [reflexivity|]. split.
        -- split; [|split]; cbn [fst snd]; auto. unfold zlen in *. rewrite app_length. lia.
        -- intros _. exists qs, [], [], []. cbn. rewrite !app_nil_r. repeat split; fin. intros i [[]|[]].
      * eexists _, _. split; [reflexivity|]. split; [repeat split; auto|discriminate].
    + rewrite Hf, HC. cbn [bind]. destruct (Z.ltb_spec 0 (zlen qs)) as [E0|E0].
      2:{ rewrite !Bool.andb_false_r. eexists _, _. split; [reflexivity|]. split; [repeat split; auto|]. intros _.
          destruct qs; [apply sadd_nil|unfold zlen in E0; cbn [length] in E0; lia]. }
      rewrite !Bool.andb_true_r. destruct f; cbn [negb].
      * destruct (Z.eqb_spec (zlen qs) 1) as [E1|E1]; cbn [andb].
        -- destruct qs as [|q [|q' qs]]; [easy| |unfold zlen in E1; simpl in E1; lia].
           assert (Hq := HS q (or_introl eq_refl)).
           destruct (Z.ltb_spec (zlen direct + zlen neib) Ndirectmax) as [Hd|Hd].
           ++ rewrite (H1 q eq_refl). cbn [bind].
              assert (0 <= zlen neib) by (unfold zlen; lia).
              rewrite push_all_spec; [|apply (keep_ok' [q] HS)|unfold zlen in *; cbn [length]; lia]. cbn [bind]. rewrite keep_live by exact HS.
              eexists _, _. split; [reflexivity|]. split.
              ** split; [|split]; cbn [fst snd]; auto. unfold zlen in *. rewrite app_length. cbn [length]. lia.
              ** intros _. exists [], [q], [], []. cbn. rewrite !app_nil_r. repeat split; fin.
                 intros i [[<-|[]]|[]]. exists c, [q]. split; [exact HK0|]. split; [now left|exact Hb].
           ++ destruct (Z.ltb_spec (zlen gc) Ngravcellmax); cbn [andb].
              ** eexists _, _. split; [reflexivity|]. split.
                 { split; [|split]; cbn [fst snd]; auto. unfold zlen in *. rewrite app_length. cbn [length]. lia. }
                 intros _. exists [], [], [c], [[q]]. cbn. rewrite !app_nil_r. repeat split; fin.
                 intros i [[]|[<-|[]]]. exists c, [q]. split; [exact HK0|]. split; [now left|exact Hb].
              ** eexists _, _. split; [reflexivity|]. split; [repeat split; auto|discriminate].
        -- destruct (Z.ltb_spec (zlen gc) Ngravcellmax); cbn [andb].
           ++ eexists _, _. split; [reflexivity|]. split.
              { split; [|split]; cbn [fst snd]; auto. unfold zlen in *. rewrite app_length. cbn [length]. lia. }
              intros _. exists [], [], [c], [qs]. cbn. rewrite !app_nil_r. repeat split; fin.
              intros i [[]|Hi]. exists c, qs. auto.
           ++ eexists _, _. split; [reflexivity|]. split; [repeat split; auto|discriminate].
      * destruct (Z.leb_spec (zlen direct + Nl) Ndirectmax).
        -- rewrite HLL. cbn [bind]. rewrite push_all_spec; [|apply (keep_ok' qs HS)|lia]. cbn [bind]. rewrite keep_live by exact HS.
           eexists _, _. split; [reflexivity|]. split.
           ++ split; [|split]; cbn [fst snd]; auto. unfold zlen in *. rewrite app_length. lia.
           ++ intros _. exists [], qs, [], []. cbn. rewrite !app_nil_r. repeat split; fin.
              intros i [Hi|[]]. exists c, qs. auto.
        -- eexists _, _. split; [reflexivity|]. split; [repeat split; auto|discriminate].
  - intros c ks pss Hne Hks IHks HK nx LK NN [[neib direct] gc] Hfit. assert (HK0 := HK).
    destruct HK as (HKn & HS). assert (HC : vN v c = Ok (zlen (concat pss))) by exact (proj1 HKn).
    destruct (Hdec c) as (b & f & Hb & Hf). { destruct HKn as (_ & g & _ & _ & _ & _ & _ & _ & X). exact X. }
    rewrite linked_unfold in LK. destruct LK as (_ & LO & LL).
    assert (Hfit0 := Hfit). destruct Hfit as (Fn & Fd & Fc). cbn [fst snd] in Fn, Fd, Fc.
    rewrite twalk_unfold. unfold visit at 1, star_visit. rewrite Hb, LO. cbn [bind].
    destruct ks as [|k ks]; [easy|].
    assert (0 <= root k) by (apply NN; right; destruct k; simpl; now left).
    destruct (Z.eqb_spec (root k) (-1)); [lia|]. cbn [negb bind andb].
    specialize (IHks nx LL (fun c Hc => NN c (or_intror Hc)) (neib, direct, gc) Hfit0).
    destruct b; [exact IHks|].
    rewrite Hf, HC. cbn [bind]. destruct (Z.ltb_spec 0 (zlen (concat pss))) as [E0|E0].
    2:{ rewrite !Bool.andb_false_r. eexists _, _. split; [reflexivity|]. split; [repeat split; auto|]. intros _.
        destruct (concat pss); [apply sadd_nil|unfold zlen in E0; cbn [length] in E0; lia]. }
    rewrite !Bool.andb_true_r. destruct f; cbn [negb]; [|exact IHks].
    destruct (Z.ltb_spec (zlen gc) Ngravcellmax); cbn [andb].
    + eexists _, _. split; [reflexivity|]. split.
      { split; [|split]; cbn [fst snd]; auto. unfold zlen in *. rewrite app_length. cbn [length]. lia. }
      intros _. exists [], [], [c], [concat pss]. cbn. rewrite !app_nil_r. repeat split; fin.
      intros i [[]|Hi]. exists c, (concat pss). auto.
    + eexists _, _. split; [reflexivity|]. split; [repeat split; auto|discriminate].
  - intros nx _ _ x Hx. exists x, false. split; [reflexivity|]. split; [exact Hx|]. intros _. apply sadd_nil.
  - intros k ks qs pss Hk IHk Hks IHks nx [LA LB] NN x Hx. cbn [twalks concat].
    destruct (IHk _ LA (fun c Hc => NN c (in_or_app _ _ _ (or_introl Hc))) x Hx) as (y & st & E1 & F1 & G1).
    rewrite E1. cbn [bind]. destruct st.
    + exists y, true. split; [reflexivity|]. split; [exact F1|discriminate].
    + destruct (IHks _ LB (fun c Hc => NN c (in_or_app _ _ _ (or_intror Hc))) y F1) as (z & st & E2 & F2 & G2).
      exists z, st. split; [exact E2|]. split; [exact F2|]. intros ->. eapply sadd_app; eauto.
Qed.

Theorem star_lists_spec : 0 <= Nneibmax -> 0 <= Ndirectmax <= Nneibmax -> 0 <= Ngravcellmax ->
  exists r, star_lists pd s Ncell Nl Nneibmax Ndirectmax Ngravcellmax near far = Ok r /\
    match r with
    | Some (neib, direct, gcells) =>
        zlen neib <= Nneibmax /\ zlen direct <= Ndirectmax /\ zlen gcells <= Ngravcellmax /\
        exists pss, Permutation ps (neib ++ direct ++ concat pss) /\
          Forall2 (cell_ok ndim kr th2 quad pd s) gcells pss /\
          Forall (fun c => near c = Ok false /\ far c = Ok true) gcells /\
          (forall i, In i direct \/ In i (concat pss) -> exists c qs,
             known ndim kr th2 quad pd s Ncell c qs /\ In i qs /\ near c = Ok false)
    | None => True
    end.
Proof.
  intros H0 H1 H2.
  destruct (proj1 (star_twalks Ncell (vnext v)) t ps (stocked_known _ _ _ _ _ _ _ _ _ _ ST Hkr Hh) Ncell
    (stocked_linked _ _ _ _ _ _ _ _ _ _ ST) (fun c Hc => proj1 (stocked_range _ _ _ _ _ _ _ _ _ _ ST c Hc)) ([],[],[]))
    as (y & st & E & F & G).
  { repeat split; cbn; lia. }
  assert (NO := star_down fuel v near far (alive pd) Nl Nneibmax Ndirectmax Ngravcellmax).
  assert (W := walk_correct (vopen v) (vnext v) Ncell _ NO t Ncell ([],[],[]) (y, st)
                 (fun c Hc => proj2 (stocked_range _ _ _ _ _ _ _ _ _ _ ST c Hc)) (stocked_linked _ _ _ _ _ _ _ _ _ _ ST) (Z.le_refl _) E).
  fold (msize t) in W. rewrite <- (stocked_walk_fuel _ _ _ _ _ _ _ _ _ _ ST) in W. rewrite (st_root _ _ _ _ _ _ _ _ _ _ ST) in W.
  unfold star_lists. fold v fuel. rewrite W. cbn [bind].
  destruct st; [eexists; split; [reflexivity|exact I]|].
  destruct (G eq_refl) as (dn & dd & dc & dps & -> & A & B & C & D). destruct F as (F1 & F2 & F3). cbn [fst snd app] in *.
  destruct (Z.leb_spec (zlen dn) Nneibmax); [|lia]. destruct (Z.leb_spec (zlen dd) Nneibmax); [|lia].
  destruct (Z.leb_spec (zlen dc) Ngravcellmax); [|lia]. cbn [andb].
  eexists. split; [reflexivity|]. cbn. repeat (split; [assumption|]). exists dps. split; [exact B|]. split; [|split; [exact C|]].
  2:{ intros i Hi. destruct (D i Hi) as (c & qs & (X & _) & Y). eauto. }
  clear - A. induction A; constructor; auto. destruct H as ((_ & g & _ & _ & _ & _ & _ & X & _) & _). exact X.
Qed.
End Star.

(** With the tests of the code. *)
Theorem star_lists_code : forall ndim kr th2 quad pd Nl s Ncell t ps rs h Nneibmax Ndirectmax Ngravcellmax,
  stocked ndim kr th2 quad pd Nl s Ncell t ps -> (0 <= kr)%R -> (0 <= h)%R ->
  (forall p x, In p ps -> aget pd p = Ok x -> (0 <= p_h x)%R) ->
  (forall p x, In p ps -> aget pd p = Ok x -> p_dead x = false) ->
  0 <= Nneibmax -> 0 <= Ndirectmax <= Nneibmax -> 0 <= Ngravcellmax ->
  exists r, star_lists pd s Ncell Nl Nneibmax Ndirectmax Ngravcellmax (star_near ndim kr (ts_g s) rs h) (star_far ndim (ts_g s) rs) = Ok r /\
    match r with
    | Some (neib, direct, gcells) =>
        zlen neib <= Nneibmax /\ zlen direct <= Ndirectmax /\ zlen gcells <= Ngravcellmax /\
        (exists pss, Permutation ps (neib ++ direct ++ concat pss) /\
          Forall2 (cell_ok ndim kr th2 quad pd s) gcells pss) /\
        (forall c, In c gcells -> exists g, aget (ts_g s) c = Ok g /\
            (gcdistsqd g < dot ndim (vsub (grcell g) rs) (vsub (grcell g) rs))%R) /\
        (forall i p, In i ps -> aget pd i = Ok p ->
            (norm ndim (vsub (p_r p) rs) < 1/2 * (kr * h) + 1/2 * (kr * p_h p))%R -> In i neib)
    | None => True
    end.
Proof.
  intros ndim kr th2 quad pd Nl s Ncell t ps rs h N1 N2 N3 ST Hkr Hs Hh Hl B1 B2 B3.
  destruct (star_lists_spec ndim kr th2 quad pd Nl s Ncell t ps ST Hkr Hh Hl (star_near ndim kr (ts_g s) rs h) (star_far ndim (ts_g s) rs) N1 N2 N3)
    as (r & E & G); auto.
  { intros c Hc. destruct (cell_known _ _ _ _ _ _ _ _ _ _ ST Hkr Hh c Hc) as (qs & _ & g & Hg & _).
    unfold star_near, star_far. rewrite Hg. cbn [bind]. eauto. }
  exists r. split; [exact E|]. destruct r as [[[neib direct] gcells]|]; [|exact I].
  destruct G as (L1 & L2 & L3 & pss & P1 & P2 & P3 & P4). repeat (split; [assumption|]). split; [eauto|]. split.
  - intros c Hc. rewrite Forall_forall in P3. destruct (P3 c Hc) as [_ F]. unfold star_far in F.
    destruct (aget (ts_g s) c) as [g| | |]; cbn [bind] in F; try discriminate. exists g. split; [reflexivity|].
    injection F as F. now apply rltb_true.
  - intros i p Hi Hp Hd. assert (X := Permutation_in _ P1 Hi). apply in_app_or in X. destruct X as [X|X]; [exact X|].
    apply in_app_or in X. exfalso. destruct (P4 i X) as (c & qs & (_ & g & Hg & _ & HM & HR & HH0 & _) & HI & HN).
    destruct (HM i HI) as (p' & Hp' & _ & _ & _ & Hph & Hpr). rewrite Hp in Hp'. injection Hp' as <-.
    assert (P0 := Hh i p Hi Hp). unfold star_near in HN. rewrite Hg in HN. cbn [bind] in HN. injection HN as HN.
    apply rltb_false in HN. rewrite <- norm_sqr in HN.
    assert (T1 := norm_triangle_sub ndim (grcell g) (p_r p) rs). rewrite norm_sub_sym in Hpr.
    assert (N0 := norm_nonneg ndim (vsub (grcell g) rs)).
    assert (norm ndim (vsub (grcell g) rs) < 1/2 * (kr * h) + grmax g + 1/2 * kr * ghmax g)%R by nra. nra.
Qed.

(** ** The retry loop of the caller *)
Section Retry.
Variables (ndim : nat) (kr th2 : R) (quad : bool) (pd : list particle) (Nl : Z) (s : tstate) (Ncell : Z) (t : rtree) (ps : list Z).
Hypothesis ST : stocked ndim kr th2 quad pd Nl s Ncell t ps.
Hypothesis Hkr : (0 <= kr)%R.
Hypothesis Hh : forall p x, In p ps -> aget pd p = Ok x -> (0 <= p_h x)%R.
Hypothesis Hlive : forall p x, In p ps -> aget pd p = Ok x -> p_dead x = false.
Variables (near far : Z -> res bool).
Hypothesis Hnear : forall c, 0 <= c < Ncell -> near c = Ok true.
(** every leaf has fewer than [Nl] particles *)
Hypothesis Hroom : forall c k, 0 <= c < Ncell -> aget (cells (ts_k s)) c = Ok k -> copen k = -1 -> cN k < Nl.
Let v := view_of (ts_k s).
Let fuel := tfuel (ts_k s).

Lemma all_near_twalks : forall Nneibmax Ndirectmax Ngravcellmax Nc cn,
  let visit := star_visit fuel v near far (alive pd) Nl Nneibmax Ndirectmax Ngravcellmax in
  let K := fun c qs => known ndim kr th2 quad pd s Ncell c qs /\ forall p, In p qs -> In p ps in
  (forall t qs, ctree K (fun c qs => leaf_ok fuel v Nl c qs /\ zlen qs < Nl) t qs ->
     forall nx, linked Nc (vopen v) cn t nx -> (forall c, In c (preorder t) -> 0 <= c) ->
     forall neib d g, exists y st, twalk visit t (neib, d, g) = Ok (y, st) /\
       (st = false -> y = (neib ++ qs, d, g) /\ zlen (neib ++ qs) < Nneibmax)) /\
  (forall ks pss, ctrees K (fun c qs => leaf_ok fuel v Nl c qs /\ zlen qs < Nl) ks pss ->
     forall nx, linked_list Nc (vopen v) cn ks nx -> (forall c, In c (flat_map preorder ks) -> 0 <= c) ->
     forall neib d g, exists y st, twalks visit ks (neib, d, g) = Ok (y, st) /\
       (st = false -> y = (neib ++ concat pss, d, g) /\ (ks <> [] -> zlen (neib ++ concat pss) < Nneibmax))).
Proof.
  intros N1 N2 N3 Nc cn visit K. apply ctree_mutind.
  - intros c qs (HKn & HS) ((HLL & HN & H1) & HR) nx LK NN neib d g.
    rewrite linked_unfold in LK. destruct LK as (_ & LO & _).
    assert (LO' : vopen v c = Ok (-1)) by exact LO.
    rewrite twalk_unfold. unfold visit, star_visit. rewrite Hnear, LO'; [|destruct HKn as (_ & g0 & _ & _ & _ & _ & _ & _ & X); exact X].
    cbn [bind]. replace (negb (-1 =? -1)) with false by reflexivity.
    destruct (Z.leb_spec (zlen neib + Nl) N1).
    + rewrite HLL. cbn [bind].
      rewrite push_all_spec; [|apply (keep_ok' ndim kr th2 quad pd Nl s Ncell t ps ST qs HS)|lia]. cbn [bind].
      rewrite (keep_live ndim kr th2 quad pd Nl s Ncell t ps ST Hlive qs HS).
      eexists _, _. split; [reflexivity|]. intros _. split; [reflexivity|]. unfold zlen in *. rewrite app_length. lia.
    + eexists _, _. split; [reflexivity|]. discriminate.
  - intros c ks pss Hne Hks IHks (HKn & HS) nx LK NN neib d g.
    rewrite linked_unfold in LK. destruct LK as (_ & LO & LL).
    rewrite twalk_unfold. unfold visit at 1, star_visit. rewrite Hnear, LO; [|destruct HKn as (_ & g0 & _ & _ & _ & _ & _ & _ & X); exact X].
    cbn [bind]. destruct ks as [|k ks]; [easy|].
    assert (0 <= root k) by (apply NN; right; destruct k; simpl; now left).
    destruct (Z.eqb_spec (root k) (-1)); [lia|]. cbn [negb bind].
    destruct (IHks nx LL (fun c Hc => NN c (or_intror Hc)) neib d g) as (y & st & E & F).
    exists y, st. split; [exact E|]. intros Hst. destruct (F Hst) as [F1 F2]. split; [exact F1|]. now apply F2.
  - intros. exists (neib, d, g), false. split; [reflexivity|]. intros _. cbn. rewrite app_nil_r. split; [reflexivity|easy].
  - intros k ks qs pss Hk IHk Hks IHks nx [LA LB] NN neib d g. cbn [twalks concat].
    destruct (IHk _ LA (fun c Hc => NN c (in_or_app _ _ _ (or_introl Hc))) neib d g) as (y & st & E1 & F1).
    rewrite E1. cbn [bind]. destruct st.
    + exists y, true. split; [reflexivity|]. discriminate.
    + destruct (F1 eq_refl) as [-> F2].
      destruct (IHks _ LB (fun c Hc => NN c (in_or_app _ _ _ (or_intror Hc))) (neib ++ qs) d g) as (z & st & E2 & G2).
      exists z, st. split; [exact E2|]. intros Hst. destruct (G2 Hst) as [-> G3]. rewrite <- app_assoc in *. split; [reflexivity|].
      intros _. inversion Hks; subst.
      * cbn. rewrite app_nil_r. exact F2.
      * apply G3. discriminate.
Qed.

Theorem star_retry_never_ends : forall n Ngravcellmax,
  star_retry n pd s Ncell Nl (zlen ps) Ngravcellmax near far = NoFuel.
Proof.
  induction n as [|n IH]; intros Ng; [reflexivity|]. cbn [star_retry].
  assert (CT : ctree (fun c qs => known ndim kr th2 quad pd s Ncell c qs /\ forall p, In p qs -> In p ps)
                     (fun c qs => leaf_ok fuel v Nl c qs /\ zlen qs < Nl) t ps).
  { assert (C1 := stocked_known _ _ _ _ _ _ _ _ _ _ ST Hkr Hh). 
    assert (LKt := stocked_linked _ _ _ _ _ _ _ _ _ _ ST). fold v fuel in C1, LKt.
    assert (G : (forall t qs, ctree (fun c qs => known ndim kr th2 quad pd s Ncell c qs /\ forall p, In p qs -> In p ps) (leaf_ok fuel v Nl) t qs ->
        forall nx, linked Ncell (vopen v) (vnext v) t nx ->
        ctree (fun c qs => known ndim kr th2 quad pd s Ncell c qs /\ forall p, In p qs -> In p ps) (fun c qs => leaf_ok fuel v Nl c qs /\ zlen qs < Nl) t qs) /\
      (forall ks pss, ctrees (fun c qs => known ndim kr th2 quad pd s Ncell c qs /\ forall p, In p qs -> In p ps) (leaf_ok fuel v Nl) ks pss ->
        forall nx, linked_list Ncell (vopen v) (vnext v) ks nx ->
        ctrees (fun c qs => known ndim kr th2 quad pd s Ncell c qs /\ forall p, In p qs -> In p ps) (fun c qs => leaf_ok fuel v Nl c qs /\ zlen qs < Nl) ks pss)).
    { apply ctree_mutind.
      - intros c qs HK HL nx LK. constructor; [exact HK|]. split; [exact HL|].
        rewrite linked_unfold in LK. destruct LK as (_ & LO & _).
        assert (HK' := HK). destruct HK' as ((HC & _) & _). unfold count_ok, view_of in HC. cbn [vN] in HC. unfold v, view_of in LO. cbn [vopen] in LO.
        unfold kget in HC, LO. destruct (aget (cells (ts_k s)) c) as [k| | |] eqn:Ek; cbn [bind] in HC, LO; try discriminate.
        injection HC as HC. injection LO as LO. rewrite <- HC.
        apply (Hroom c k); auto. destruct HK as ((_ & g0 & _ & _ & _ & _ & _ & _ & X) & _). exact X.
      - intros c ks pss Hne Hks IHk HK nx LK. rewrite linked_unfold in LK. destruct LK as (_ & _ & LL). apply ctree_node; eauto.
      - intros. constructor.
      - intros k ks qs pss Hk IHk Hks IHks nx [LA LB]. constructor; eauto. }
    exact (proj1 G t ps C1 Ncell LKt). }
  destruct (proj1 (all_near_twalks (zlen ps) (zlen ps) Ng Ncell (vnext v)) t ps CT Ncell
     (stocked_linked _ _ _ _ _ _ _ _ _ _ ST) (fun c Hc => proj1 (stocked_range _ _ _ _ _ _ _ _ _ _ ST c Hc)) [] [] [])
    as (y & st & E & F).
  assert (W := walk_correct (vopen v) (vnext v) Ncell _ (star_down _ _ _ _ _ _ _ _ _) t Ncell ([],[],[]) (y, st)
                 (fun c Hc => proj2 (stocked_range _ _ _ _ _ _ _ _ _ _ ST c Hc)) (stocked_linked _ _ _ _ _ _ _ _ _ _ ST) (Z.le_refl _) E).
  fold (msize t) in W. rewrite <- (stocked_walk_fuel _ _ _ _ _ _ _ _ _ _ ST) in W. rewrite (st_root _ _ _ _ _ _ _ _ _ _ ST) in W.
  unfold star_lists. fold v fuel. rewrite W. cbn [bind].
  destruct st; [cbn [bind]; apply IH|]. destruct (F eq_refl) as [_ X]. cbn in X. lia.
Qed.
End Retry.
