(** Four stars, a binary with two outer companions; stars that are too far apart. *)
From Verif Require Import Prelude Vec M_Box L_Box M_Hermite M_NNTree S_Diag L_Diag S_NNTree L_NNTree L_NNTree2 L_NNTree3 L_NNTree4 L_NNTree5.
From Coq Require Import Reals Permutation Psatz.
Local Open Scope R_scope.
Definition x4 (i : nat) : R := match i with 0%nat => 0 | 1%nat => 1 | 2%nat => 1000 | _ => 1000000 end.
Definition r4 (i : nat) : vec := fun _ => x4 i.
Lemma d1 : forall x y, distsqd 1 x y = (x 0%nat - y 0%nat) * (x 0%nat - y 0%nat).
Proof. intros. unfold distsqd, dot, vsub, sumf. ring. Qed.
Lemma rt : forall a b, a < b -> rltb a b = true. Proof. intros. unfold rltb. destruct (Rlt_dec a b); [reflexivity|contradiction]. Qed.
Lemma rf : forall a b, b <= a -> rltb a b = false. Proof. intros. unfold rltb. destruct (Rlt_dec a b); [lra|reflexivity]. Qed.
Ltac rl := repeat match goal with |- context [rltb ?a ?b] => first [rewrite (rt a b) by (unfold big_number; lra) | rewrite (rf a b) by (unfold big_number; lra)]; cbv beta iota; cbn [fst snd] end.
Definition rposs (T : tree) (i : nat) : R := n_rpos (T i) 0%nat.
Lemma near_round : forall Nn T n free near, freelist T n = free -> (forall i, In i free -> fst (nearest 1 T free i) = near i) -> 
  exists F, find_nearest 1 free T = F /\ (forall x, n_par (F x) = n_par (T x) /\ n_c1 (F x) = n_c1 (T x) /\ n_c2 (F x) = n_c2 (T x) /\ n_rpos (F x) = n_rpos (T x)) /\ (forall i, In i free -> n_near (F i) = near i) /\
  pair_all 1 Nn free (find_nearest 1 free T, n) = pair_all 1 Nn free (F, n).
Proof.
  intros Nn T n free near HF HN. exists (find_nearest 1 free T). split; [reflexivity|]. split; [|split; [|reflexivity]].
  - intros x. rewrite find_is. destruct (existsb _ _); cbn; auto.
  - intros i Hi. rewrite find_is. replace (existsb (Nat.eqb i) free) with true; [cbn; apply HN, Hi|]. symmetry. apply existsb_exists. exists i. split; [exact Hi|apply Nat.eqb_refl].
Qed.

Lemma free_of : forall T n par, (forall i, (i < n)%nat -> n_par (T i) = par i) -> freelist T n = filter (fun i => match par i with None => true | _ => false end) (seq 0 n).
Proof. intros T n par H. unfold freelist. apply filter_ext_in. intros i Hi. apply in_seq in Hi. rewrite H by lia. reflexivity. Qed.
Definition desc (T : tree) (n : nat) (par : nat -> option nat) (pos : nat -> R) (kid : nat -> option nat * option nat) : Prop :=
  (forall i, (i < n)%nat -> n_par (T i) = par i /\ n_rpos (T i) 0%nat = pos i /\ (n_c1 (T i), n_c2 (T i)) = kid i) /\ n_par (T n) = None.
Lemma desc_J : forall T n par pos kid a b F, desc T n par pos kid -> (forall i, n_par (T i) = None \/ (i < n)%nat) ->
  (forall x, n_par (F x) = n_par (T x) /\ n_c1 (F x) = n_c1 (T x) /\ n_c2 (F x) = n_c2 (T x) /\ n_rpos (F x) = n_rpos (T x)) -> (a < n)%nat -> (b < n)%nat ->
  desc (J 1 F n a b) (S n) (fun i => if Nat.eqb i n then None else if Nat.eqb i a || Nat.eqb i b then Some n else par i) (fun i => if Nat.eqb i n then 1 / 2 * (pos a + pos b) else pos i)
    (fun i => if Nat.eqb i n then (Some a, Some b) else kid i) /\ (forall i, n_par (J 1 F n a b i) = None \/ (i < S n)%nat).
Proof.
  intros T n par pos kid a b F (HD & Hn) HL HF Ha Hb. split; [split|].
  - intros i Hi. rewrite J_par by assumption. destruct (HF n) as (En & _). rewrite En, Hn. destruct (Nat.eqb_spec i n) as [->|Hne].
    + split; [reflexivity|]. destruct (J_self 1 F n a b) as (-> & -> & _ & _ & Er & _). rewrite Er. destruct (HF a) as (_ & _ & _ & ->). destruct (HF b) as (_ & _ & _ & ->).
      destruct (HD a Ha) as (_ & -> & _). destruct (HD b Hb) as (_ & -> & _). auto.
    + destruct (J_other 1 F n a b i Ha Hb Hne) as (-> & -> & _ & _ & _ & _ & ->). destruct (HF i) as (-> & -> & -> & ->). destruct (HD i ltac:(lia)) as (-> & -> & ->). auto.
  - rewrite J_par by assumption. destruct (HF (S n)) as (E & _). rewrite E. destruct (Nat.eqb_spec (S n) n); [lia|]. destruct (Nat.eqb_spec (S n) a); [lia|]. destruct (Nat.eqb_spec (S n) b); [lia|]. cbn. destruct (HL (S n)); [assumption|lia].
  - intros i. destruct (le_lt_dec (S n) i); [left|right; lia]. rewrite J_par by assumption. destruct (HF i) as (E & _). rewrite E. destruct (Nat.eqb_spec i n); [lia|]. destruct (Nat.eqb_spec i a); [lia|]. destruct (Nat.eqb_spec i b); [lia|]. cbn. destruct (HL i); [assumption|lia].
Qed.
Ltac near_tac D := intros i Hi; cbn in Hi; repeat destruct Hi as [<-|Hi]; try destruct Hi; unfold nearest; cbn [fold_left]; unfold near_step; cbn [Nat.eqb fst snd]; rewrite ?d1;
  rewrite ?(fun i h => proj1 (proj2 (proj1 D i h))) by lia; cbn [Nat.eqb x4]; cbn [fst snd]; rl; reflexivity.
Ltac pair_tac HN HJ := cbn [pair_all pair_row fst bind]; repeat (progress (rewrite ?join_is, ?HJ, ?HN by (try lia; cbn; auto); cbn [opt_is Nat.eqb Nat.ltb Nat.leb andb bind pair_row pair_all fst])); reflexivity.
Lemma tree4 : exists T, CreateNbodySystemTree 1 4 8 4 r4 = Ok (T, 7%nat) /\ child T 4 = Some (0, 1)%nat /\ child T 5 = Some (2, 4)%nat /\ child T 6 = Some (3, 5)%nat.
Proof.
  unfold CreateNbodySystemTree.
  set (T0 := init_tree 4 r4).
  assert (D0 : desc T0 4 (fun _ => None) x4 (fun _ => (None, None))).
  { split; [|reflexivity]. intros i Hi. unfold T0, init_tree. rewrite (proj2 (Nat.ltb_lt _ _) Hi). cbn. auto. }
  assert (L0 : forall i, n_par (T0 i) = None \/ (i < 4)%nat) by (intros i; left; unfold T0, init_tree; destruct (Nat.ltb i 4); reflexivity).
  clearbody T0.
  assert (F0 : freelist T0 4 = [0;1;2;3]%nat) by (rewrite (free_of T0 4 _ (fun i h => proj1 (proj1 D0 i h))); reflexivity).
  assert (N0 : forall i, In i [0;1;2;3]%nat -> fst (nearest 1 T0 [0;1;2;3]%nat i) = match i with 0%nat => Some 1%nat | 1%nat => Some 0%nat | 2%nat => Some 1%nat | _ => Some 2%nat end).
  { near_tac D0. }
  destruct (near_round 8 T0 4 _ _ F0 N0) as (F & EF & HF & HN & EP).
  set (T1 := J 1 F 4 0 1).
  assert (E1 : pair_all 1 8 [0;1;2;3]%nat (F, 4%nat) = Ok (T1, 5%nat)).
  { assert (HJ : forall i, (i < 4)%nat -> n_near (J 1 F 4 0 1 i) = n_near (F i)) by (intros i Hi; apply (J_other 1 F 4 0 1 i); lia). pair_tac HN HJ. }
  destruct (desc_J T0 4 _ _ _ 0 1 F D0 L0 HF ltac:(lia) ltac:(lia)) as (D1 & L1). fold T1 in D1, L1. cbn [grow]. rewrite F0. cbn [length Nat.eqb Nat.ltb Nat.leb]. rewrite EP, E1. cbn [bind]. clearbody T1. clear EF HF HN EP E1 D0 L0 F0 N0.
  assert (F1 : freelist T1 5 = [2;3;4]%nat) by (rewrite (free_of T1 5 _ (fun i h => proj1 (proj1 D1 i h))); reflexivity).
  assert (N1 : forall i, In i [2;3;4]%nat -> fst (nearest 1 T1 [2;3;4]%nat i) = match i with 2%nat => Some 4%nat | 3%nat => Some 2%nat | _ => Some 2%nat end).
  { near_tac D1. }
  clear F. destruct (near_round 8 T1 5 _ _ F1 N1) as (F & EF & HF & HN & EP).
  set (T2 := J 1 F 5 2 4).
  assert (E1 : pair_all 1 8 [2;3;4]%nat (F, 5%nat) = Ok (T2, 6%nat)).
  { assert (HJ : forall i, (i < 5)%nat -> n_near (J 1 F 5 2 4 i) = n_near (F i)) by (intros i Hi; apply (J_other 1 F 5 2 4 i); lia). pair_tac HN HJ. }
  destruct (desc_J T1 5 _ _ _ 2 4 F D1 L1 HF ltac:(lia) ltac:(lia)) as (D2 & L2). fold T2 in D2, L2. rewrite F1. cbn [length Nat.eqb Nat.ltb Nat.leb]. rewrite EP, E1. cbn [bind]. clearbody T2. clear EF HF HN EP E1 D1 L1 F1 N1.
  assert (F2 : freelist T2 6 = [3;5]%nat) by (rewrite (free_of T2 6 _ (fun i h => proj1 (proj1 D2 i h))); reflexivity).
  assert (N2 : forall i, In i [3;5]%nat -> fst (nearest 1 T2 [3;5]%nat i) = match i with 3%nat => Some 5%nat | _ => Some 3%nat end).
  { near_tac D2. }
  clear F. destruct (near_round 8 T2 6 _ _ F2 N2) as (F & EF & HF & HN & EP).
  set (T3 := J 1 F 6 3 5).
  assert (E1 : pair_all 1 8 [3;5]%nat (F, 6%nat) = Ok (T3, 7%nat)).
  { assert (HJ : forall i, (i < 6)%nat -> n_near (J 1 F 6 3 5 i) = n_near (F i)) by (intros i Hi; apply (J_other 1 F 6 3 5 i); lia). pair_tac HN HJ. }
  destruct (desc_J T2 6 _ _ _ 3 5 F D2 L2 HF ltac:(lia) ltac:(lia)) as (D3 & L3). fold T3 in D3, L3. rewrite F2. cbn [length Nat.eqb Nat.ltb Nat.leb]. rewrite EP, E1. cbn [bind]. clearbody T3. clear EF HF HN EP E1 D2 L2 F2 N2.
  assert (F3 : freelist T3 7 = [6]%nat) by (rewrite (free_of T3 7 _ (fun i h => proj1 (proj1 D3 i h))); reflexivity).
  rewrite F3. cbn [length Nat.eqb]. exists T3. split; [reflexivity|]. destruct D3 as (D3 & _).
  assert (K : forall c a b, (c < 7)%nat -> (n_c1 (T3 c), n_c2 (T3 c)) = (Some a, Some b) -> child T3 c = Some (a, b)) by (intros c a b _ E; unfold child; injection E as -> ->; reflexivity).
  repeat split; (apply K; [lia|]); destruct (D3 4 ltac:(lia))%nat as (_ & _ & E4); destruct (D3 5 ltac:(lia))%nat as (_ & _ & E5); destruct (D3 6 ltac:(lia))%nat as (_ & _ & E6); [exact E4|exact E5|exact E6].
Qed.

(** The four stars: unit masses at rest, with the potential they cause. *)
Definition gp4 (i : nat) : R := match i with
  | 0%nat => 1 + / 1000 + / 1000000 | 1%nat => 1 + / 999 + / 999999 | 2%nat => / 1000 + / 999 + / 999000 | _ => / 1000000 + / 999999 + / 999000 end.
Definition st4 (i : nat) : starp := mkstarp 1 1 (gp4 i) (fun q => match q with Qr => r4 i | _ => fun _ => 0 end).
Lemma norm1 : forall x y : vec, sqrt (dot 1 (vsub x y) (vsub x y)) = Rabs (x 0%nat - y 0%nat).
Proof. intros. unfold dot, vsub, sumf. rewrite Rplus_0_l. apply sqrt_Rsqr_abs. Qed.

Lemma inv_eps : forall s, 1 <= s -> / s * (1 - / 10 ^ 15) <= 1 / (s + small_number_dp) <= / s.
Proof.
  intros s Hs. pose proof small_pos as He. assert (Hl : small_number_dp <= / 10 ^ 15) by (unfold small_number_dp; apply Rinv_le_contravar; [|apply Rle_pow; [lra|lia]]; apply pow_lt; lra).
  set (e := small_number_dp) in *. set (d := / 10 ^ 15) in *. unfold Rdiv. rewrite Rmult_1_l. split; [|apply Rinv_le_contravar; lra].
  apply Rmult_le_reg_r with (s + e); [lra|]. rewrite Rinv_l by lra. apply Rmult_le_reg_l with s; [lra|].
  replace (s * (/ s * (1 - d) * (s + e))) with ((1 - d) * (s + e)) by (field; lra). nra.
Qed.
Lemma node2 : forall T c a b f os o gpesoft, child T c = Some (a, b) -> (4 <= c)%nat -> l_comp (f a) = 1%nat -> l_comp (f b) = 1%nat -> (length os < 4)%nat ->
  ComputeNewBinaryOrbit 1 a b 4 (merge (f a) (f b)) (f a) (f b) = Some o ->
  (let g := l_gpe (f a) + l_gpe (f b) in Rabs (g - (0 + l_m (f a) * l_m (f b) * (1 / (Rabs (l_x (f a) Qr 0%nat - l_x (f b) Qr 0%nat) + small_number_dp)))) < gpesoft * g) ->
  exists x, binary_node 1 st4 T 4 4 gpesoft c (f, os) = Ok (putc f c x, os ++ [o]) /\ l_comp x = 1%nat /\ l_m x = l_m (f a) + l_m (f b) /\
    l_x x Qr 0%nat = (l_m (f a) * l_x (f a) Qr 0%nat + l_m (f b) * l_x (f b) Qr 0%nat) / (l_m (f a) + l_m (f b)) /\ l_x x Qv 0%nat = (l_m (f a) * l_x (f a) Qv 0%nat + l_m (f b) * l_x (f b) Qv 0%nat) / (l_m (f a) + l_m (f b)) /\
    l_gpe x = l_gpe (f a) + l_gpe (f b) - (0 + l_m (f a) * l_m (f b) * (1 / (Rabs (l_x (f a) Qr 0%nat - l_x (f b) Qr 0%nat) + small_number_dp))).
Proof.
  intros T c a b f os o gs Hch Hc Ca Cb HL HO HG. unfold child in Hch. unfold binary_node. destruct (Nat.ltb_spec c 4); [lia|]. destruct (n_c1 (T c)) as [a'|]; [|discriminate]. destruct (n_c2 (T c)) as [b'|]; [|discriminate]. injection Hch as -> ->.
  cbv zeta. rewrite norm1. replace (l_comp (merge (f a) (f b))) with 2%nat by (cbn; lia). cbn [Nat.leb Ncompmax]. change (l_gpe (merge (f a) (f b))) with (l_gpe (f a) + l_gpe (f b)). cbv zeta in HG. rewrite (rt _ _ HG).
  unfold add_orbit. replace (l_comp (merge (f a) (f b))) with 2%nat by (cbn; lia). cbn [Nat.eqb]. rewrite (proj2 (Nat.ltb_lt _ _) HL), HO. cbn [bind]. eexists. split; [reflexivity|]. cbn. auto 10.
Qed.
Lemma orbit2 : forall a b f, 0 < l_m (f a) -> 0 < l_m (f b) -> l_x (f a) Qv 0%nat = 0 -> l_x (f b) Qv 0%nat = 0 -> exists o, ComputeNewBinaryOrbit 1 a b 4 (merge (f a) (f b)) (f a) (f b) = Some o /\
  o_c1 o = a /\ o_c2 o = b /\ o_type o = (if Nat.ltb a 4 && Nat.ltb b 4 then Binary else if Nat.ltb a 4 || Nat.ltb b 4 then Triple else Quadruple).
Proof.
  intros a b f Ha Hb Va Vb. unfold ComputeNewBinaryOrbit. cbv zeta. destruct (rleb 0 _) eqn:E.
  - exfalso. apply rleb_true in E. rewrite norm1 in E. pose proof small_pos. pose proof (Rabs_pos (l_x (f a) Qr 0%nat - l_x (f b) Qr 0%nat)) as P. set (d := Rabs _) in *.
    assert (D : dot 1 (vsub (l_x (f a) Qv) (l_x (f b) Qv)) (vsub (l_x (f a) Qv) (l_x (f b) Qv)) = 0) by (unfold dot, vsub, sumf; rewrite Va, Vb; ring). rewrite D in E. cbn [merge l_m] in E.
    assert (0 < 1 / (d + small_number_dp)) by (apply Rdiv_lt_0_compat; lra). nra.
  - eexists. split; [reflexivity|]. cbn. auto.
Qed.
Lemma types4 : exists T f os o la lb, CreateNbodySystemTree 1 4 8 4 r4 = Ok (T, 7%nat) /\ FindBinarySystems 1 st4 T 4 4 (2 / 100) 7 (fun _ => star_cell 0 (st4 0)) = Ok (f, os) /\ In o os /\ length os = 3%nat /\
  holds (child T) 4 (o_c1 o) la /\ holds (child T) 4 (o_c2 o) lb /\ length la = 1%nat /\ length lb = 3%nat /\ o_type o = Triple.
Proof.
  destruct tree4 as (T & ET & K4 & K5 & K6).
  destruct (create_ok 1 4 8 r4 ltac:(lia) ltac:(lia)) with (fuel := 4%nat) as (T' & ET' & G); [|lia|].
  { intros i j Hi Hj. rewrite d1. unfold r4, big_number. assert (P : forall i, 0 <= x4 i <= 1000000) by (intros k; destruct k as [|[|[|k]]]; cbn; lra). pose proof (P i). pose proof (P j). assert ((x4 i - x4 j) * (x4 i - x4 j) <= 1000000 * 1000000) by nra. lra. }
  change (2 * 4 - 1)%nat with 7%nat in *. rewrite ET in ET'. injection ET' as <-.
  assert (CP : forall i, (i < 4)%nat -> n_comp (T i) = 1%nat) by (intros i Hi; apply (g_leaf _ _ _ _ _ G i Hi)).
  assert (S4 : exists f0, binary_nodes 1 st4 T 4 4 (2 / 100) 4 (fun _ => star_cell 0 (st4 0), []) = Ok (f0, []) /\ forall i, (i < 4)%nat -> f0 i = star_cell 1 (st4 i)).
  { cbn [binary_nodes bind binary_node Nat.ltb Nat.leb]. eexists. split; [reflexivity|]. intros i Hi. unfold putc. destruct i as [|[|[|[|i]]]]; [..|lia]; cbn; rewrite CP by lia; reflexivity. }
  cbn [binary_nodes] in S4. destruct S4 as (f0 & E0 & S0).
  pose proof (inv_eps 1 ltac:(lra)) as I1. pose proof (inv_eps (1000 - 1 / 2) ltac:(lra)) as I2. pose proof (inv_eps (1000000 - 1001 / 3) ltac:(lra)) as I3.
  set (e1 := 1 / (1 + small_number_dp)) in *. set (e2 := 1 / (1000 - 1 / 2 + small_number_dp)) in *. set (e3 := 1 / (1000000 - 1001 / 3 + small_number_dp)) in *.
  assert (D15 : / 10 ^ 15 = / 1000000000000000) by (f_equal; lra). rewrite D15 in *.
  (* node 4 *)
  destruct (orbit2 0 1 f0) as (o4 & O4 & _); try (rewrite S0 by lia; cbn; lra).
  destruct (node2 T 4 0 1 f0 [] o4 (2 / 100) K4) as (x & EB4 & XC & XM & XR & XV & XG); auto; try lia; try (rewrite S0 by lia; reflexivity).
  { rewrite !S0 by lia. cbn [star_cell l_gpe l_m l_x st4 sp_m sp_gpot sp_x gp4 r4 x4]. unfold r4, x4. replace (Rabs (0 - 1)) with 1 by (rewrite Rabs_left; lra). fold e1. apply Rabs_def1; lra. }
  rewrite !S0 in XM, XR, XV, XG by lia. cbn [star_cell l_gpe l_m l_x st4 sp_m sp_gpot sp_x gp4] in XM, XR, XV, XG. unfold r4, x4 in XR, XG.
  replace (Rabs (0 - 1)) with 1 in XG by (rewrite Rabs_left; lra). fold e1 in XG.
  set (f4 := putc f0 4 x). assert (A4 : f4 4%nat = x) by reflexivity. assert (S1 : forall i, (i < 4)%nat -> f4 i = star_cell 1 (st4 i)) by (intros i Hi; unfold f4; rewrite putc_other by lia; apply S0, Hi). fold f4 in EB4. clearbody f4.
  assert (XR' : l_x x Qr 0%nat = 1 / 2) by (rewrite XR; lra). clear XR. assert (XV' : l_x x Qv 0%nat = 0) by (rewrite XV; lra). clear XV.
  (* node 5 *)
  destruct (orbit2 2 4 f4) as (o5 & O5 & _); try (rewrite S1 by lia; cbn; lra); try (rewrite A4; lra).
  destruct (node2 T 5 2 4 f4 ([] ++ [o4]) o5 (2 / 100) K5) as (y & EB5 & YC & YM & YR & YV & YG); auto; try lia; try (rewrite S1 by lia; reflexivity); try (rewrite A4; exact XC).
  { rewrite !S1, A4, XM, XR', XG by lia. cbn [star_cell l_gpe l_m l_x st4 sp_m sp_gpot sp_x gp4 r4 x4]. unfold r4, x4. replace (Rabs (1000 - 1 / 2)) with (1000 - 1 / 2) by (rewrite Rabs_right; lra). fold e2. apply Rabs_def1; lra. }
  rewrite !S1, A4 in YM, YR, YV, YG by lia. rewrite XM in YM, YR, YV, YG. rewrite XR' in YR, YG. rewrite XV' in YV. rewrite XG in YG. cbn [star_cell l_gpe l_m l_x st4 sp_m sp_gpot sp_x gp4] in YM, YR, YV, YG. unfold r4, x4 in YR, YG.
  replace (Rabs (1000 - 1 / 2)) with (1000 - 1 / 2) in YG by (rewrite Rabs_right; lra). fold e2 in YG.
  set (f5 := putc f4 5 y). assert (A5 : f5 5%nat = y) by reflexivity. assert (S2 : forall i, (i < 4)%nat -> f5 i = star_cell 1 (st4 i)) by (intros i Hi; unfold f5; rewrite putc_other by lia; apply S1, Hi). fold f5 in EB5. clearbody f5.
  assert (YR' : l_x y Qr 0%nat = 1001 / 3) by (rewrite YR; lra). clear YR. assert (YV' : l_x y Qv 0%nat = 0) by (rewrite YV; lra). clear YV.
  (* node 6 *)
  destruct (orbit2 3 5 f5) as (o6 & O6 & C6 & C6' & T6); try (rewrite S2 by lia; cbn; lra); try (rewrite A5; lra).
  destruct (node2 T 6 3 5 f5 (([] ++ [o4]) ++ [o5]) o6 (2 / 100) K6) as (z & EB6 & _); auto; try lia; try (rewrite S2 by lia; reflexivity); try (rewrite A5; exact YC).
  { rewrite !S2, A5, YM, YR', YG by lia. cbn [star_cell l_gpe l_m l_x st4 sp_m sp_gpot sp_x gp4 r4 x4]. unfold r4, x4. replace (Rabs (1000000 - 1001 / 3)) with (1000000 - 1001 / 3) by (rewrite Rabs_right; lra). fold e3. apply Rabs_def1; lra. }
  exists T, (putc f5 6 z), ((([] ++ [o4]) ++ [o5]) ++ [o6]), o6, [3%nat], ([2] ++ ([0] ++ [1]))%nat. split; [exact ET|]. split; [unfold FindBinarySystems; cbn [binary_nodes]; rewrite E0; cbn [bind]; rewrite EB4; cbn [bind]; rewrite EB5; exact EB6|]. split; [cbn; auto|]. split; [reflexivity|]. rewrite C6, C6'.
  split; [constructor; lia|]. split; [|auto]. apply (holds_node _ _ 5 2 4); [lia|exact K5|constructor; lia|]. apply (holds_node _ _ 4 0 1); [lia|exact K4|constructor; lia|constructor; lia].
Qed.
(** ** Stars that are too far apart *)
Section Far.
Variables (ndim N Nnodemax : nat) (r : nat -> vec).
Hypothesis HN : (2 <= N < Nnodemax)%nat.
Hypothesis HF : forall i j, (i < N)%nat -> (j < N)%nat -> i <> j -> big_number <= distsqd ndim (r i) (r j).
Lemma far_near : forall T i, (i < N)%nat -> (forall j, (j < N)%nat -> n_rpos (T j) = r j) -> nearest ndim T (seq 0 N) i = (None, big_number).
Proof.
  intros T i Hi HR. unfold nearest. assert (H : forall l, (forall j, In j l -> (j < N)%nat) -> fold_left (near_step ndim T i) l (None, big_number) = (None, big_number)).
  { induction l as [|j l IH]; intros Hl; [reflexivity|]. cbn [fold_left]. assert (Hj := Hl j (or_introl eq_refl)). unfold near_step at 2. destruct (Nat.eqb_spec i j); [apply IH; intros; apply Hl; now right|].
    rewrite !HR by assumption. cbn [snd]. rewrite rf by (apply HF; assumption). apply IH. intros; apply Hl; now right. }
  apply H. intros j Hj. apply in_seq in Hj. lia.
Qed.
Lemma row_none : forall i js st, n_near (fst st i) = None -> pair_row ndim Nnodemax i js st = Ok st.
Proof.
  intros i js [T m] H. induction js as [|j js IH]; [reflexivity|]. change (pair_row ndim Nnodemax i (j :: js) (T, m)) with (let! st := if opt_is (n_near (fst (T, m) i)) j && opt_is (n_near (fst (T, m) j)) i then join ndim Nnodemax i j (T, m) else Ok (T, m) in pair_row ndim Nnodemax i js st).
  rewrite H. cbn [opt_is andb bind]. exact IH.
Qed.
Lemma all_none : forall l st, (forall i, In i l -> n_near (fst st i) = None) -> pair_all ndim Nnodemax l st = Ok st.
Proof. induction l as [|i l IH]; intros st H; [reflexivity|]. cbn [pair_all]. rewrite row_none by (apply H; now left). cbn [bind]. apply IH. intros; apply H; now right. Qed.
Lemma far_grow : forall fuel T, (forall i, n_par (T i) = None) -> (forall j, (j < N)%nat -> n_rpos (T j) = r j) -> grow ndim fuel Nnodemax (T, N) = NoFuel.
Proof.
  induction fuel as [|fuel IH]; intros T HP HR; cbn [grow]; (assert (EF : freelist T N = seq 0 N) by (rewrite (free_of T N (fun _ => None)) by auto; clear; induction (seq 0 N); cbn; congruence)).
  - destruct (Nat.ltb_spec N Nnodemax); [|lia]. rewrite EF, seq_length. destruct (Nat.eqb_spec N 1); [lia|reflexivity].
  - destruct (Nat.ltb_spec N Nnodemax); [|lia]. rewrite EF, seq_length. destruct (Nat.eqb_spec N 1); [lia|].
    assert (FI : forall x, n_par (find_nearest ndim (seq 0 N) T x) = n_par (T x) /\ n_rpos (find_nearest ndim (seq 0 N) T x) = n_rpos (T x)) by (intros x; rewrite find_is; destruct (existsb _ _); auto).
    rewrite all_none.
    + cbn [bind]. apply IH; [intros i; destruct (FI i) as (-> & _); apply HP|intros j Hj; destruct (FI j) as (_ & ->); apply HR, Hj].
    + intros i Hi. cbn [fst]. rewrite find_is. replace (existsb (Nat.eqb i) (seq 0 N)) with true by (symmetry; apply existsb_exists; exists i; split; [exact Hi|apply Nat.eqb_refl]). cbn. rewrite far_near by (auto; apply in_seq in Hi; lia). reflexivity.
Qed.
Lemma far_create : forall fuel, CreateNbodySystemTree ndim fuel Nnodemax N r = NoFuel.
Proof.
  intros fuel. unfold CreateNbodySystemTree. apply far_grow.
  - intros i. unfold init_tree. destruct (Nat.ltb i N); reflexivity.
  - intros j Hj. unfold init_tree. rewrite (proj2 (Nat.ltb_lt _ _) Hj). reflexivity.
Qed.
End Far.
