(** Concrete trees used by the examples. *)
From Verif Require Import Prelude L_Prelude Vec S_Tree S_KD M_Walk L_Tree M_KDTree L_KDStruct L_KDBuild L_KDDivide L_KDTop
  M_Stock S_Stock L_Stock L_StockTree S_Search L_Search M_Gather L_Gather L_StockTop L_Box L_Star.
From Coq Require Import Reals Lra Permutation.
Local Open Scope Z_scope.

(** Four particles on a line at x = 0, 1, 2, 3. *)
Definition ex_part (x : R) (dead : bool) : particle :=
  {| p_r := fun _ => x; p_v := fun _ => 0%R; p_h := 1%R; p_m := 1%R; p_sound := 1%R; p_dead := dead; p_active := true; p_grav := true |}.
Definition ex_pd (dead1 : bool) : list particle := [ex_part 0 false; ex_part 1 dead1; ex_part 2 false; ex_part 3 false].
Definition ex_blank := mkcell None 7 7 7 7 7 7 7 7 [] [].
Definition ex_s0 := mkst [0;0;0;0] [0;0;0;0] (repeat ex_blank 3).
Definition ex_s1 : kst := match BuildTree [[0;1;2;3]] [false;false;false;false] 3 4 0 4 [0] [3] ex_s0 [0;0] with Ok (s, _) => s | _ => ex_s0 end.
Definition ex_gs : list gcell := [g_init; g_init; g_init].

Lemma ex_built : exists g2c, BuildTree [[0;1;2;3]] [false;false;false;false] 3 4 0 4 [0] [3] ex_s0 [0;0] = Ok (ex_s1, g2c).
Proof. eexists. vm_compute. reflexivity. Qed.

Lemma ex_ready : ready 2 1 3 3 (mkts ex_s1 ex_gs) [0;1;2;3].
Proof.
  unfold ready. split.
  { vm_compute. split; [|split]; eexists; repeat split. }
  split; [reflexivity|]. split; [lia|]. split.
  { exists [0;1], [2;3]. split; [reflexivity|]. split; eexists; (split; [vm_compute; reflexivity|]); (split; [|vm_compute; congruence]); vm_compute; repeat split. }
  split; [repeat constructor; cbn; intuition lia|]. split; [|vm_compute; congruence].
  intros p Hp. change (zlen (inext (ts_k (mkts ex_s1 ex_gs)))) with 4. cbn in Hp. intuition lia.
Qed.

Lemma ex_parts : forall d p, 0 <= p < 4 -> exists x, aget (ex_pd d) p = Ok x /\ (0 <= gmass x)%R.
Proof.
  intros d p Hp. assert (p = 0 \/ p = 1 \/ p = 2 \/ p = 3) as X by lia.
  destruct X as [ -> |[ -> |[ -> | -> ]]]; eexists; (split; [reflexivity|]); cbn; lra.
Qed.
(** Stocked while all are alive, and after particle 1 has died. *)
Lemma ex_stocked : exists s, StockTree 2 1 2 1 true (ex_pd false) 1 0 (mkts ex_s1 ex_gs) = Ok s /\
  stocked 1 2 1 true (ex_pd false) 2 s 3 (ptree 1 0) [0;1;2;3].
Proof.
  destruct (stock_one 1 2 1 true 2 1 3 3 (mkts ex_s1 ex_gs) [0;1;2;3] (ex_pd false) ex_ready) as (s & E & _ & S & _).
  { intros p Hp. apply ex_parts. cbn in Hp. intuition lia. }
  exists s. split; [exact E|exact S].
Qed.
Lemma ex_stocked_dead : exists s, stock_run 1 2 1 true 1 [ex_pd false; ex_pd true] (mkts ex_s1 ex_gs) = Ok s /\
  stocked 1 2 1 true (ex_pd true) 2 s 3 (ptree 1 0) [0;2;3].
Proof.
  destruct (stock_run_spec 1 2 1 true 2 [ex_pd false] (ex_pd true) 1 3 3 (mkts ex_s1 ex_gs) [0;1;2;3] ex_ready) as (s & E & S).
  { intros q p Hq Hp. cbn in Hp. destruct Hq as [<-|[<-|[]]]; apply ex_parts; intuition lia. }
  exists s. split; [exact E|exact S].
Qed.
Lemma ex_h : forall d p x, aget (ex_pd d) p = Ok x -> (0 <= p_h x)%R.
Proof.
  intros d p x H. unfold aget in H. destruct (p <? 0); [discriminate|].
  destruct (nth_error (ex_pd d) (Z.to_nat p)) eqn:E; [|discriminate]. injection H as ->.
  apply nth_error_In in E. cbn in E. destruct E as [<-|[<-|[<-|[<-|[]]]]]; cbn; lra.
Qed.
Lemma ex_live : forall p x, aget (ex_pd false) p = Ok x -> p_dead x = false.
Proof.
  intros p x H. unfold aget in H. destruct (p <? 0); [discriminate|].
  destruct (nth_error (ex_pd false) (Z.to_nat p)) eqn:E; [|discriminate]. injection H as ->.
  apply nth_error_In in E. cbn in E. destruct E as [<-|[<-|[<-|[<-|[]]]]]; reflexivity.
Qed.

Lemma stocked_weaken : forall ndim kr th2 quad pd Nl Nl' s Nc t ps, Nl <= Nl' ->
  stocked ndim kr th2 quad pd Nl s Nc t ps -> stocked ndim kr th2 quad pd Nl' s Nc t ps.
Proof.
  intros ndim kr th2 quad pd Nl Nl' s Nc t ps H [A B C D E F]. constructor; auto.
  refine (proj1 (ctree_impl _ _ _ _ (fun c ps H => H) _) t ps D).
  intros c qs (k & X & Y & Z). exists k. repeat split; auto. lia.
Qed.

Lemma ctree2_inv : forall (P L : Z -> list Z -> Prop) ps, ctree P L (RNode 0 [RNode 1 []; RNode 2 []]) ps ->
  exists q1 q2, ps = q1 ++ q2 /\ P 0 ps /\ P 1 q1 /\ L 1 q1 /\ P 2 q2 /\ L 2 q2.
Proof.
  intros P L ps H. inversion H as [|c0 ks pss Hne Hks HP E1 E2].
  inversion Hks as [|k1 ks1 q1 pss1 T1 Hks1 E3 E4].
  inversion Hks1 as [|k2 ks2 q2 pss2 T2 Hks2 E5 E6]. inversion Hks2 as [E7 E8|].
  exists q1, q2. cbn. rewrite app_nil_r. subst.
  inversion T1 as [c1 p1 P1 L1|? ? ? X]; [|now destruct X]. inversion T2 as [c2 p2 P2 L2|? ? ? X]; [|now destruct X].
  cbn in HP. rewrite app_nil_r in HP. auto 10.
Qed.

Theorem star_retry_refuted : exists g2c s2,
  BuildTree [[0;1;2;3]] [false;false;false;false] 3 4 0 4 [0] [3] ex_s0 [0;0] = Ok (ex_s1, g2c) /\
  StockTree 2 1 2 1 true (ex_pd false) 1 0 (mkts ex_s1 ex_gs) = Ok s2 /\
  forall n Ngravcellmax,
    star_retry n (ex_pd false) s2 3 3 4 Ngravcellmax
      (star_near 1 2 (ts_g s2) (fun _ => 0%R) 4) (star_far 1 (ts_g s2) (fun _ => 0%R)) = NoFuel.
Proof.
  destruct ex_built as [g2c EB]. destruct ex_stocked as (s2 & ES & S2). exists g2c, s2. split; [exact EB|]. split; [exact ES|].
  assert (S3 := stocked_weaken _ _ _ _ _ 2 3 _ _ _ _ ltac:(lia) S2).
  assert (Hkr : (0 <= 2)%R) by lra.
  assert (Hh : forall p x, In p [0;1;2;3] -> aget (ex_pd false) p = Ok x -> (0 <= p_h x)%R) by (intros; eapply ex_h; eauto).
  assert (SK := stocked_known _ _ _ _ _ _ _ _ _ _ S2 Hkr Hh).
  intros n Ng. change 4 with (zlen [0;1;2;3]) at 1.
  apply (star_retry_never_ends 1 2 1 true (ex_pd false) 3 s2 3 (ptree 1 0) [0;1;2;3] S3 Hkr Hh); auto.
  - intros; eapply ex_live; eauto.
  - intros c Hc. unfold star_near.
    (* every cell holds a particle at distance at most 3 *)
    assert (exists g i p, aget (ts_g s2) c = Ok g /\ aget (ex_pd false) i = Ok p /\ (norm 1 (vsub (p_r p) (grcell g)) <= grmax g)%R /\
              (0 <= p_r p 0%nat <= 3)%R /\ (0 <= grmax g)%R /\ (0 <= ghmax g)%R) as (g & i & p & Hg & Hp & Hd & Hx & Hr & Hm).
    { assert (Hc' : c = 0 \/ c = 1 \/ c = 2) by lia.
      assert (HC : forall c qs, known 1 2 1 true (ex_pd false) s2 3 c qs -> (forall p, In p qs -> In p [0;1;2;3]) -> qs <> [] ->
         exists g i p, aget (ts_g s2) c = Ok g /\ aget (ex_pd false) i = Ok p /\ (norm 1 (vsub (p_r p) (grcell g)) <= grmax g)%R /\
              (0 <= p_r p 0%nat <= 3)%R /\ (0 <= grmax g)%R /\ (0 <= ghmax g)%R).
      { intros c' qs (_ & g & Hg & _ & HI & HR & HH & _) HS Hne. destruct qs as [|i qs]; [easy|].
        destruct (HI i (or_introl eq_refl)) as (p & Hp & _ & _ & _ & _ & Hd).
        exists g, i, p. repeat (split; [assumption|]). split; [|auto].
        specialize (HS i (or_introl eq_refl)). cbn in HS.
        destruct HS as [<-|[<-|[<-|[<-|[]]]]]; injection Hp as <-; cbn; lra. }
      destruct (ctree2_inv _ _ _ SK) as (q1 & q2 & El & HP & P1 & L1 & P2 & L2).
      assert (Len : zlen q1 + zlen q2 = 4).
      { transitivity (zlen (q1 ++ q2)); [unfold zlen; rewrite app_length; lia|]. rewrite <- El. reflexivity. }
      destruct L1 as (_ & L1 & _). destruct L2 as (_ & L2 & _).
      assert (N1 : q1 <> []) by (intros ->; unfold zlen in *; cbn in *; lia).
      assert (N2 : q2 <> []) by (intros ->; unfold zlen in *; cbn in *; lia).
      destruct Hc' as [ -> |[ -> | -> ]].
      - apply (HC 0 [0;1;2;3]); [apply HP|auto|discriminate].
      - apply (HC 1 q1); auto; apply P1.
      - apply (HC 2 q2); auto; apply P2. }
    rewrite Hg. cbn [bind]. f_equal. apply rltb_true.
    assert (T := norm_triangle_sub 1 (grcell g) (p_r p) (fun _ => 0%R)). rewrite norm_sub_sym in Hd.
    assert (norm 1 (vsub (p_r p) (fun _ => 0%R)) <= 3)%R.
    { apply norm_le_sqr; [lra|]. unfold dot, vsub. cbn. nra. }
    simpl pow. rewrite Rmult_1_r. apply norm_lt_sqr; nra.
  - intros c k Hc Hk Ho. assert (Hc' : c = 0 \/ c = 1 \/ c = 2) by lia.
    destruct (ctree2_inv _ _ _ (st_desc _ _ _ _ _ _ _ _ _ _ S2)) as (q1 & q2 & El & HP & P1 & L1 & P2 & L2).
    assert (LK := st_links _ _ _ _ _ _ _ _ _ _ S2). change (ptree 1 0) with (RNode 0 [RNode 1 []; RNode 2 []]) in LK.
    destruct LK as (_ & LO & _). unfold cell_field in LO.
    destruct Hc' as [ -> |[ -> | -> ]].
    + rewrite Hk in LO. cbn in LO. injection LO as LO. lia.
    + destruct P1 as (k' & _ & _ & A & B & _). destruct L1 as (_ & _ & _ & C). rewrite Hk in A. injection A as <-. lia.
    + destruct P2 as (k' & _ & _ & A & B & _). destruct L2 as (_ & _ & _ & C). rewrite Hk in A. injection A as <-. lia.
Qed.
