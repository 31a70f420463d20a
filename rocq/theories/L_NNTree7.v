(** Pairs of stars that are found. *)
From Verif Require Import Prelude L_Prelude Vec M_Box L_Box M_Hermite M_NNTree S_Diag L_Diag S_NNTree L_NNTree L_NNTree2 L_NNTree3 L_NNTree4 L_NNTree5.
From Coq Require Import Reals Permutation Psatz.
Local Open Scope R_scope.

Section Found.
Variables (ndim N n : nat) (r : nat -> vec) (T : tree).
Hypothesis G : good ndim N r T n.
Variable stars : nat -> starp.
Variables (Nsysmax Nnbmax Norbmax : nat) (gpesoft : R).
Notation build_node := (build_node ndim stars T N Nsysmax Nnbmax Norbmax gpesoft).
Notation build_nodes := (build_nodes ndim stars T N Nsysmax Nnbmax Norbmax gpesoft).
Notation binary_node := (binary_node ndim stars T N Norbmax gpesoft).
Notation binary_nodes := (binary_nodes ndim stars T N Norbmax gpesoft).

Lemma add_orbit_grows : forall a b x xa xb os os', add_orbit ndim Norbmax a b N x xa xb os = Ok os' -> exists zs, os' = os ++ zs.
Proof.
  intros a b x xa xb os os'. unfold add_orbit. destruct (Nat.eqb _ _); [|intros [= <-]; exists []; now rewrite app_nil_r]. destruct (Nat.ltb _ _); [|discriminate].
  destruct (ComputeNewBinaryOrbit _ _ _ _ _ _ _); intros [= <-]; [eauto|exists []; now rewrite app_nil_r].
Qed.
(** One node changes its own cell and at most those of its children; lists only grow. *)
Lemma build_node_is : forall c b b', (c < n)%nat -> build_node c b = Ok b' -> (exists ys, b_sys b' = b_sys b ++ ys) /\ (exists os, b_orb b' = b_orb b ++ os) /\
  forall i, i <> c -> n_par (T i) <> Some c -> b_cell b' i = b_cell b i.
Proof.
  intros c b b' Hc. unfold M_NNTree.build_node. destruct (Nat.ltb_spec c N).
  - intros [= <-]. cbn. split; [exists []; now rewrite app_nil_r|]. split; [exists []; now rewrite app_nil_r|]. intros i Hi _. apply putc_other, Hi.
  - destruct (node_kids _ _ _ _ _ G c ltac:(lia)) as (a & d & -> & -> & _ & _ & _ & Pa & Pd & _). destruct (Nat.leb _ _); [destruct (Nat.ltb _ _); [discriminate|]; destruct (rltb _ _); [destruct (Nat.ltb _ _); [|discriminate]|]|].
    + match goal with |- (let! _ := ?X in _) = _ -> _ => destruct X as [os| | |] eqn:EA end; try discriminate. intros [= <-]. cbn. split; [eauto|]. split; [eapply add_orbit_grows; eauto|]. intros i Hi _. apply putc_other, Hi.
    + intros [= <-]. cbn. split; [exists []; now rewrite app_nil_r|]. split; [exists []; now rewrite app_nil_r|]. intros i Hi _. apply putc_other, Hi.
    + destruct (flush _ _ (b_nbody b)) as [nb| | |]; try discriminate. cbn [bind]. destruct (flush _ _ nb) as [nb'| | |]; try discriminate. intros [= <-]. cbn. split; [exists []; now rewrite app_nil_r|]. split; [exists []; now rewrite app_nil_r|].
      intros i Hi HP. assert (i <> a) by congruence. assert (i <> d) by congruence. rewrite !putc_other by assumption. reflexivity.
Qed.
Lemma bind_inv : forall (A B : Type) (x : res A) (f : A -> res B) y, (let! a := x in f a) = Ok y -> exists a, x = Ok a /\ f a = Ok y.
Proof. intros A B [a| | |] f y; cbn; try discriminate. eauto. Qed.
Lemma build_grows : forall k1 k2 b0 b2, (k1 <= k2 <= n)%nat -> build_nodes k2 b0 = Ok b2 -> exists b1, build_nodes k1 b0 = Ok b1 /\ (exists ys, b_sys b2 = b_sys b1 ++ ys) /\ (exists os, b_orb b2 = b_orb b1 ++ os).
Proof.
  intros k1 k2 b0 b2 Hk. revert b2. induction k2 as [|k IH]; intros b2 E.
  - replace k1 with O by lia. exists b2. split; [exact E|]. split; exists []; now rewrite app_nil_r.
  - destruct (Nat.eq_dec k1 (S k)) as [->|]; [exists b2; split; [exact E|]; split; exists []; now rewrite app_nil_r|].
    cbn [M_NNTree.build_nodes] in E. apply bind_inv in E. destruct E as (b & E1 & E2). destruct (IH ltac:(lia) b E1) as (b1 & H1 & (ys & H2) & (os & H3)). exists b1. split; [exact H1|].
    destruct (build_node_is k b b2 ltac:(lia) E2) as ((ys' & H4) & (os' & H5) & _). split; [exists (ys ++ ys'); now rewrite app_assoc, <- H2|exists (os ++ os'); now rewrite app_assoc, <- H3].
Qed.
Lemma star_kept : forall i c, (i < N)%nat -> n_par (T i) = Some c -> forall k, (i < k <= c)%nat -> (k <= n)%nat -> forall b0 b, build_nodes k b0 = Ok b -> b_cell b i = set_list (star_cell (n_comp (T i)) (stars i)) [EStar i].
Proof.
  intros i c Hi HP. induction k as [|k IH]; intros Hk Hn b0 b E; [lia|]. cbn [M_NNTree.build_nodes] in E. apply bind_inv in E. destruct E as (b1 & E1 & E2).
  destruct (Nat.eq_dec i k) as [->|].
  - unfold M_NNTree.build_node in E2. rewrite (proj2 (Nat.ltb_lt _ _) Hi) in E2. injection E2 as <-. cbn. apply putc_same.
  - destruct (build_node_is k b1 b ltac:(lia) E2) as (_ & _ & H). rewrite H; [|assumption|rewrite HP; intros [= ->]; lia]. eapply IH; eauto; lia.
Qed.
Lemma binary_node_is : forall c f os b', (c < n)%nat -> binary_node c (f, os) = Ok b' -> (exists zs, snd b' = os ++ zs) /\ forall i, i <> c -> fst b' i = f i.
Proof.
  intros c f os b' Hc. unfold M_NNTree.binary_node. destruct (Nat.ltb_spec c N).
  - intros [= <-]. cbn. split; [exists []; now rewrite app_nil_r|]. intros i Hi. apply putc_other, Hi.
  - destruct (node_kids _ _ _ _ _ G c ltac:(lia)) as (a & d & -> & -> & _). destruct (Nat.leb _ _); [destruct (rltb _ _)|].
    + match goal with |- (let! _ := ?X in _) = _ -> _ => destruct X as [os'| | |] eqn:EA end; try discriminate. intros [= <-]. cbn. split; [eapply add_orbit_grows; eauto|]. intros i Hi. apply putc_other, Hi.
    + intros [= <-]. cbn. split; [exists []; now rewrite app_nil_r|]. intros i Hi. apply putc_other, Hi.
    + intros [= <-]. cbn. split; [exists []; now rewrite app_nil_r|]. intros i Hi. apply putc_other, Hi.
Qed.
Lemma binary_grows : forall k1 k2 b0 b2, (k1 <= k2 <= n)%nat -> binary_nodes k2 b0 = Ok b2 -> exists b1, binary_nodes k1 b0 = Ok b1 /\ exists os, snd b2 = snd b1 ++ os.
Proof.
  intros k1 k2 b0 b2 Hk. revert b2. induction k2 as [|k IH]; intros b2 E.
  - replace k1 with O by lia. exists b2. split; [exact E|]. exists []; now rewrite app_nil_r.
  - destruct (Nat.eq_dec k1 (S k)) as [->|]; [exists b2; split; [exact E|]; exists []; now rewrite app_nil_r|].
    cbn [M_NNTree.binary_nodes] in E. apply bind_inv in E. destruct E as ((f & os0) & E1 & E2). destruct (IH ltac:(lia) _ E1) as (b1 & H1 & (os & H3)). exists b1. split; [exact H1|].
    destruct (binary_node_is k f os0 b2 ltac:(lia) E2) as ((os' & H5) & _). cbn [snd] in H3. exists (os ++ os'). now rewrite app_assoc, <- H3.
Qed.
Lemma binary_star : forall i k, (i < N)%nat -> (i < k <= n)%nat -> forall b0 b, binary_nodes k b0 = Ok b -> fst b i = star_cell (n_comp (T i)) (stars i).
Proof.
  intros i k Hi. induction k as [|k IH]; intros Hk b0 b E; [lia|]. cbn [M_NNTree.binary_nodes] in E. apply bind_inv in E. destruct E as ((f & os) & E1 & E2).
  destruct (Nat.eq_dec i k) as [->|].
  - unfold M_NNTree.binary_node in E2. rewrite (proj2 (Nat.ltb_lt _ _) Hi) in E2. injection E2 as <-. cbn. apply putc_same.
  - destruct (binary_node_is k f os b ltac:(lia) E2) as (_ & H). rewrite H by assumption. apply (IH ltac:(lia) b0 (f, os) E1).
Qed.

Variables (i j c : nat).
Hypothesis Hi : (i < N)%nat.
Hypothesis Hj : (j < N)%nat.
Hypothesis Hc : (c < n)%nat.
Hypothesis Hch : child T c = Some (i, j).
Let dr := vsub (sp_x (stars i) Qr) (sp_x (stars j) Qr).
Let dv := vsub (sp_x (stars i) Qv) (sp_x (stars j) Qv).
Let g := sp_m (stars i) * sp_m (stars j) / (sqrt (dot ndim dr dr) + small_number_dp).
Let E := 1 / 2 * sp_m (stars i) * sp_gpot (stars i) + 1 / 2 * sp_m (stars j) * sp_gpot (stars j).
Let binen := dot ndim dv dv / 2 - (sp_m (stars i) + sp_m (stars j)) / (sqrt (dot ndim dr dr) + small_number_dp).
Hypothesis HE : Rabs (E - g) < gpesoft * E.
Lemma kids : (N <= c)%nat /\ n_c1 (T c) = Some i /\ n_c2 (T c) = Some j /\ n_par (T i) = Some c /\ n_par (T j) = Some c /\ i <> j.
Proof.
  unfold child in Hch. destruct (Nat.lt_ge_cases c N) as [L|L].
  - destruct (g_leaf _ _ _ _ _ G c L) as (E1 & _). rewrite E1 in Hch. discriminate.
  - destruct (node_kids _ _ _ _ _ G c ltac:(lia)) as (a & d & E1 & E2 & Nad & _ & _ & Pa & Pd & _). rewrite E1, E2 in Hch. injection Hch as -> ->. auto 10.
Qed.
Lemma orbit_rec : forall x la lb os os', l_comp x = 2%nat -> l_m x = sp_m (stars i) + sp_m (stars j) -> l_x la = sp_x (stars i) -> l_x lb = sp_x (stars j) ->
  add_orbit ndim Norbmax i j N x la lb os = Ok os' -> binen < 0 -> exists o, In o os' /\ o_c1 o = i /\ o_c2 o = j /\ o_type o = Binary.
Proof.
  intros x la lb os os' H1 H2 H3 H4 HA HB. unfold add_orbit in HA. rewrite H1 in HA. cbn [Nat.eqb] in HA. destruct (Nat.ltb _ _); [|discriminate]. unfold ComputeNewBinaryOrbit in HA. rewrite H3, H4 in HA.
  rewrite H2 in HA. fold dr dv in HA. destruct (rleb 0 _) eqn:EB.
  - exfalso. apply rleb_true in EB. unfold binen, Rdiv in HB. lra.
  - injection HA as <-. eexists. split; [apply in_or_app; right; left; reflexivity|]. cbn [o_c1 o_c2 o_type]. rewrite (proj2 (Nat.ltb_lt _ _) Hi), (proj2 (Nat.ltb_lt _ _) Hj). auto.
Qed.
Lemma unfold_build : forall k cells, (0 < k)%nat -> BuildSubSystems ndim stars T N Nsysmax Nnbmax Norbmax gpesoft k cells =
  (let! b := build_nodes k (mkbst cells [] [] []) in let! nb := flush Nnbmax (l_list (b_cell b (k - 1))) (b_nbody b) in Ok (mkbst (b_cell b) (b_sys b) nb (b_orb b))).
Proof. intros [|k] cells Hk; [lia|]. unfold BuildSubSystems. replace (S k - 1)%nat with k by lia. reflexivity. Qed.
Lemma sq_swap : forall x y, dot ndim (vsub x y) (vsub x y) = dot ndim (vsub y x) (vsub y x).
Proof. intros. unfold dot, vsub. apply sumf_ext. intros; ring. Qed.
Lemma build_found : forall cells b, (c < n)%nat -> BuildSubSystems ndim stars T N Nsysmax Nnbmax Norbmax gpesoft n cells = Ok b ->
  (exists s y, nth_error (b_sys b) s = Some y /\ y_inode y = c /\ y_children y = [EStar i; EStar j]) /\ (binen < 0 -> exists o, In o (b_orb b) /\ o_c1 o = i /\ o_c2 o = j /\ o_type o = Binary).
Proof.
  intros cells b _ EB. destruct kids as (Lc & E1 & E2 & Pi & Pj & Hij). rewrite unfold_build in EB by lia. apply bind_inv in EB. destruct EB as (b2 & EB & ER). apply bind_inv in ER. destruct ER as (nb & _ & ER). injection ER as <-. cbn [b_sys b_orb].
  destruct (build_grows (S c) n _ _ ltac:(lia) EB) as (b1 & E3 & (ys & ->) & (os & ->)). cbn [M_NNTree.build_nodes] in E3. apply bind_inv in E3. destruct E3 as (b0 & E4 & E5).
  pose proof (star_kept i c Hi Pi c ltac:(lia) ltac:(lia) _ _ E4) as Ci. pose proof (star_kept j c Hj Pj c ltac:(lia) ltac:(lia) _ _ E4) as Cj.
  destruct (g_leaf _ _ _ _ _ G i Hi) as (_ & _ & Ni & _). destruct (g_leaf _ _ _ _ _ G j Hj) as (_ & _ & Nj & _).
  unfold M_NNTree.build_node in E5. rewrite (proj2 (Nat.ltb_ge _ _) Lc), E1, E2, Ci, Cj, Ni, Nj in E5.
  cbn [set_list star_cell merge l_m l_h l_gpe l_gpei l_tcross l_comp l_x l_list Nat.add Nat.leb Ncompmax app pair_gpe fold_left ent_m ent_x] in E5.
  match type of E5 with (if ?t then _ else _) = _ => change t with false in E5 end. cbv iota in E5.
  match type of E5 with context [rltb ?a ?b] => replace (rltb a b) with true in E5 end.
  2: { symmetry. apply rltb_true. fold E. eapply Rle_lt_trans; [|exact HE]. right. do 2 f_equal. rewrite sq_swap. fold dr. unfold g, Rdiv. ring. }
  destruct (Nat.ltb (length (b_sys b0)) Nsysmax); [|discriminate]. apply bind_inv in E5. destruct E5 as (os1 & E5 & E6). injection E6 as <-. cbn [b_sys b_orb]. split.
  - exists (length (b_sys b0)). eexists. rewrite nth_error_app1 by (rewrite app_length; cbn; lia). rewrite nth_error_app2, Nat.sub_diag by lia. cbn. split; [reflexivity|]. auto.
  - intros HB. match type of E5 with add_orbit _ _ _ _ _ ?x ?la ?lb _ = _ => destruct (orbit_rec x la lb _ _ eq_refl eq_refl eq_refl eq_refl E5 HB) as (o & Ho & Hr) end. exists o. split; [apply in_or_app; now left|exact Hr].
Qed.
Lemma binary_found : forall cells f os, FindBinarySystems ndim stars T N Norbmax gpesoft n cells = Ok (f, os) -> binen < 0 -> exists o, In o os /\ o_c1 o = i /\ o_c2 o = j /\ o_type o = Binary.
Proof.
  intros cells f os EB HB. destruct kids as (Lc & E1 & E2 & Pi & Pj & Hij). unfold FindBinarySystems in EB. destruct (binary_grows (S c) n _ _ ltac:(lia) EB) as (b1 & E3 & (os' & Eos)). cbn [snd] in Eos. rewrite Eos.
  cbn [M_NNTree.binary_nodes] in E3. apply bind_inv in E3. destruct E3 as ((f0 & os0) & E4 & E5).
  pose proof (binary_star i c Hi ltac:(lia) _ _ E4) as Ci. pose proof (binary_star j c Hj ltac:(lia) _ _ E4) as Cj. cbn [fst] in Ci, Cj.
  destruct (g_leaf _ _ _ _ _ G i Hi) as (_ & _ & Ni & _). destruct (g_leaf _ _ _ _ _ G j Hj) as (_ & _ & Nj & _).
  unfold M_NNTree.binary_node in E5. rewrite (proj2 (Nat.ltb_ge _ _) Lc), E1, E2, Ci, Cj, Ni, Nj in E5.
  cbn [star_cell merge l_m l_h l_gpe l_gpei l_tcross l_comp l_x l_list Nat.add Nat.leb Ncompmax] in E5.
  match type of E5 with context [rltb ?a ?b] => replace (rltb a b) with true in E5 end.
  2: { symmetry. apply rltb_true. fold E. eapply Rle_lt_trans; [|exact HE]. right. do 2 f_equal. fold dr. unfold g, Rdiv. ring. }
  apply bind_inv in E5. destruct E5 as (os1 & E5 & E6). injection E6 as <-. cbn [snd].
  match type of E5 with add_orbit _ _ _ _ _ ?x ?la ?lb _ = _ => destruct (orbit_rec x la lb _ _ eq_refl eq_refl eq_refl eq_refl E5 HB) as (o & Ho & Hr) end. exists o. split; [apply in_or_app; now left|exact Hr].
Qed.
End Found.
