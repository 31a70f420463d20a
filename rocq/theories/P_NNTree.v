(** C74: the tree of nearest neighbours of the stars, sub-systems and binary orbits. *)
From Verif Require Import Prelude Vec M_Box L_Box M_Hermite M_NNTree S_Diag L_Diag S_NNTree L_NNTree L_NNTree2 L_NNTree3 L_NNTree4 L_NNTree5 L_NNTree6 L_NNTree7.
From Coq Require Import Reals Permutation Psatz.
Local Open Scope R_scope.

(** The tree is always finished, whatever the positions, and is a binary tree over all stars: nodes below N are the stars, every later
    node has two earlier nodes as children and lies midway between them, every node but the last has one parent, and the last holds every
    star once. *)
Theorem C74_tree : forall ndim N Nnodemax fuel r, (1 <= N)%nat -> (2 * N <= Nnodemax)%nat -> (N <= fuel)%nat ->
  (forall i j, (i < N)%nat -> (j < N)%nat -> dot ndim (vsub (r i) (r j)) (vsub (r i) (r j)) < 99 * 10 ^ 19) ->
  exists T, CreateNbodySystemTree ndim fuel Nnodemax N r = Ok (T, (2 * N - 1)%nat) /\
    (forall i, (i < N)%nat -> child T i = None /\ n_rpos (T i) = r i /\ n_radius (T i) = 0) /\
    (forall c, (N <= c < 2 * N - 1)%nat -> exists a b, child T c = Some (a, b) /\ a <> b /\ (a < c)%nat /\ (b < c)%nat /\ n_par (T a) = Some c /\ n_par (T b) = Some c /\
       (forall k, n_rpos (T c) k = (n_rpos (T a) k + n_rpos (T b) k) / 2) /\
       n_radius (T c) = Vec.norm ndim (vsub (n_rpos (T c)) (n_rpos (T a))) /\ n_radius (T c) = Vec.norm ndim (vsub (n_rpos (T c)) (n_rpos (T b)))) /\
    (forall i, (i < 2 * N - 1)%nat -> match n_par (T i) with None => i = (2 * N - 2)%nat | Some p => exists a b, child T p = Some (a, b) /\ (i = a \/ i = b) end) /\
    (forall c, (c < 2 * N - 1)%nat -> exists l, holds (child T) N c l /\ n_nstar (T c) = length l /\ n_comp (T c) = length l) /\
    (exists l, holds (child T) N (2 * N - 2) l /\ Permutation l (seq 0 N)).
Proof.
  intros ndim N Nnodemax fuel r HN HM HF HD. destruct (create_ok ndim N Nnodemax r HM HN HD fuel HF) as (T & E & G). exists T. split; [exact E|]. split; [|split; [|split; [|split]]].
  - intros i Hi. destruct (g_leaf _ _ _ _ _ G i Hi) as (E1 & E2 & _ & _ & E3 & E4). unfold child. rewrite E1. auto.
  - intros c Hc. destruct (g_node _ _ _ _ _ G c Hc) as (a & b & Ea & Eb & Hab & La & Lb & Pa & Pb & _ & _ & Rc & Dc). exists a, b. unfold child. rewrite Ea, Eb. repeat (split; [first [reflexivity | assumption]|]).
    rewrite Dc. unfold Vec.norm. f_equal. unfold distsqd, dot, vsub. apply sumf_ext. intros k _. rewrite Rc. field.
  - intros i Hi. destruct (n_par (T i)) as [p|] eqn:EP.
    + destruct (par_above _ _ _ _ _ G i p Hi EP) as (H1 & _ & H2). destruct (node_kids _ _ _ _ _ G p H1) as (a & b & Ea & Eb & _ & _ & _ & _ & _ & Hch). exists a, b. split; [exact Hch|].
      destruct H2 as [H2|H2]; [left|right]; congruence.
    + apply (root_only _ _ _ _ _ G HN eq_refl i Hi) in EP. lia.
  - intros c Hc. destruct (holds_all _ _ _ _ _ G c Hc) as (l & H1 & H2 & H3). eauto.
  - destruct (root_holds _ _ _ _ _ G HN eq_refl) as (l & H1 & H2). exists l. split; [|exact H2]. replace (2 * N - 2)%nat with (2 * N - 1 - 1)%nat by lia. exact H1.
Qed.
(** Two stars that are each other's nearest become the two children of one node. *)
Theorem C74_nearest : forall ndim N Nnodemax fuel r, (2 * N <= Nnodemax)%nat -> (N <= fuel)%nat ->
  (forall i j, (i < N)%nat -> (j < N)%nat -> dot ndim (vsub (r i) (r j)) (vsub (r i) (r j)) < 99 * 10 ^ 19) ->
  forall i j, (i < j < N)%nat ->
  (forall k, (k < N)%nat -> k <> i -> k <> j -> dot ndim (vsub (r i) (r j)) (vsub (r i) (r j)) < dot ndim (vsub (r i) (r k)) (vsub (r i) (r k)) /\
     dot ndim (vsub (r i) (r j)) (vsub (r i) (r j)) < dot ndim (vsub (r j) (r k)) (vsub (r j) (r k))) ->
  exists T n c, CreateNbodySystemTree ndim fuel Nnodemax N r = Ok (T, n) /\ (c < n)%nat /\ child T c = Some (i, j).
Proof.
  intros ndim N Nnodemax fuel r HM HF HD i j Hij HK. destruct (create_ok ndim N Nnodemax r HM ltac:(lia) HD fuel HF) as (T & E & G).
  destruct (create_pair ndim N Nnodemax r HM HD fuel HF i j T _ Hij HK E) as (c & Hc & E1 & E2). cbn [fst snd] in *. exists T, (2 * N - 1)%nat, c. split; [exact E|]. split; [exact Hc|]. unfold child. now rewrite E1, E2.
Qed.
(** Stars further apart than the square root of 9.9e20 units have no nearest neighbour, and the loop never ends. *)
Theorem C74_tree_refuted : exists r : nat -> vec, (forall i k, Rabs (r i k) <= 10 ^ 11) /\ forall fuel, CreateNbodySystemTree 3 fuel 4 2 r = NoFuel.
Proof.
  exists (fun i _ => INR i * 10 ^ 11 * (if Nat.leb i 1 then 1 else 0)). split.
  - intros [|[|i]] k; cbn [Nat.leb]; rewrite ?Rmult_0_r, ?Rmult_1_r; cbn [INR]; rewrite ?Rmult_0_l, ?Rmult_1_l, ?Rabs_R0; try (rewrite Rabs_right by lra); lra.
  - intros fuel. apply far_create; [lia|]. intros [|[|i]] [|[|j]] Hi Hj Hij; try lia; unfold distsqd, dot, vsub, sumf, big_number; cbn [INR Nat.leb]; lra.
Qed.

Section Systems.
Variables (ndim N Nnodemax fuel : nat) (r : nat -> vec) (T : tree) (n : nat) (stars : nat -> starp) (Nsysmax Nnbmax Norbmax : nat) (gpesoft : R).
Hypothesis Hdim : (1 <= ndim <= 3)%nat.
Hypothesis HN : (1 <= N)%nat.
Hypothesis HM : (2 * N <= Nnodemax)%nat.
Hypothesis HF : (N <= fuel)%nat.
Hypothesis HD : forall i j, (i < N)%nat -> (j < N)%nat -> dot ndim (vsub (r i) (r j)) (vsub (r i) (r j)) < 99 * 10 ^ 19.
Hypothesis HT : CreateNbodySystemTree ndim fuel Nnodemax N r = Ok (T, n).
Hypothesis Hpos : forall i, (i < N)%nat -> 0 < sp_m (stars i).
Hypothesis Hsys : (N <= Nsysmax)%nat.
Hypothesis Hnb : (N <= Nnbmax)%nat.
Hypothesis Horb : (N <= Norbmax)%nat.
Lemma tree_good : n = (2 * N - 1)%nat /\ good ndim N r T n.
Proof. destruct (create_ok ndim N Nnodemax r HM HN HD fuel HF) as (T' & E & G). rewrite E in HT. injection HT as <- <-. auto. Qed.
Notation Build cells := (BuildSubSystems ndim stars T N Nsysmax Nnbmax Norbmax gpesoft n cells).
Notation Find cells := (FindBinarySystems ndim stars T N Norbmax gpesoft n cells).

(** No array is overrun, and the main list contains every star exactly once, alone or inside a system. *)
Theorem C74_partition : forall cells, exists b ls, Build cells = Ok b /\ Forall2 (made estar (eparts (b_sys b))) (b_nbody b) ls /\ Permutation (concat ls) (seq 0 N) /\
  (length (b_nbody b) <= N)%nat /\ (length (b_sys b) <= N - 1)%nat /\ (length (b_orb b) <= length (b_sys b))%nat.
Proof.
  intros cells. destruct tree_good as (En & G). destruct (build_ok ndim Hdim N n r T G stars Hpos Nsysmax Nnbmax Norbmax gpesoft ltac:(lia) ltac:(lia) Hnb HN En cells) as (b & ls & E & F & P & L1 & L2 & L3 & _).
  exists b, ls. split; [exact E|]. split; [|auto]. clear -F. induction F as [|e l es ls (H & _) F IH]; constructor; assumption.
Qed.
(** The main list has the total mass of the stars and their total m*x for x the position, the velocity and every derivative. *)
Theorem C74_momentum : forall cells b, Build cells = Ok b ->
  lsum (ent_m stars (b_sys b)) (b_nbody b) = sumf N (fun i => sp_m (stars i)) /\
  forall q k, lsum (fun e => ent_m stars (b_sys b) e * ent_x stars (b_sys b) e q k) (b_nbody b) = sumf N (fun i => sp_m (stars i) * sp_x (stars i) q k).
Proof.
  intros cells b0 EB. destruct tree_good as (En & G). destruct (build_ok ndim Hdim N n r T G stars Hpos Nsysmax Nnbmax Norbmax gpesoft ltac:(lia) ltac:(lia) Hnb HN En cells) as (b & ls & E & F & P & _).
  rewrite E in EB. injection EB as <-. rewrite <- !lsum_seq.
  assert (PS : forall f : nat -> R, lsum f (concat ls) = lsum f (seq 0 N)). { intros f. clear -P. induction P; cbn; lra. }
  split; [|intros q k; rewrite <- lsum_seq]; rewrite <- PS; clear -F.
  - induction F as [|e l es ls (_ & _ & H) F IH]; [reflexivity|]. cbn. rewrite lsum_app, IH. destruct (H Qr) as (-> & _). reflexivity.
  - induction F as [|e l es ls (_ & _ & H) F IH]; [reflexivity|]. cbn. rewrite lsum_app, IH. destruct (H q) as (_ & ->). reflexivity.
Qed.
(** Every system has two to four parts, stars or earlier systems; it consists of the stars of its node, has their mass, means and largest
    smoothing length; its internal energy is that of the pairs of its parts and agrees within gpesoft with the energy its stars have
    beyond that of the systems inside it. *)
Theorem C74_systems : forall cells b, Build cells = Ok b -> forall s y, nth_error (b_sys b) s = Some y -> exists l,
  made estar (eparts (b_sys b)) (ESys s) l /\ holds (child T) N (y_inode y) l /\ (N <= y_inode y < 2 * N - 1)%nat /\
  (2 <= length (y_children y) <= 4)%nat /\ y_Ncomp y = length (y_children y) /\
  (forall e, In e (y_children y) -> match e with ESys s' => (s' < s)%nat | EStar i => (i < N)%nat end) /\
  (forall q, is_sum (fun i => sp_m (stars i)) (fun i => sp_x (stars i) q) l (y_m y) (y_x y q)) /\ is_max (fun i => sp_h (stars i)) l (y_h y) /\
  y_gpei y = lsum (fun p => ent_m stars (b_sys b) (fst p) * ent_m stars (b_sys b) (snd p) /
    (Vec.norm ndim (vsub (ent_x stars (b_sys b) (fst p) Qr) (ent_x stars (b_sys b) (snd p) Qr)) + small_number_dp)) (pairs (y_children y)) /\
  (let E := lsum (fun i => 1 / 2 * sp_m (stars i) * sp_gpot (stars i)) l - lsum (ein (b_sys b)) (y_children y) in Rabs (E - y_gpei y) < gpesoft * E) /\
  (let K := lsum (fun e => 1 / 2 * ent_m stars (b_sys b) e * dot ndim (vsub (ent_x stars (b_sys b) e Qv) (y_x y Qv)) (vsub (ent_x stars (b_sys b) e Qv) (y_x y Qv))) (y_children y) in
   y_dt y = sqrt (y_m y ^ 2 / y_gpei y) / sqrt (2 * K / y_m y)).
Proof.
  intros cells b0 EB s y Hy. destruct tree_good as (En & G). destruct (build_ok ndim Hdim N n r T G stars Hpos Nsysmax Nnbmax Norbmax gpesoft ltac:(lia) ltac:(lia) Hnb HN En cells) as (b & ls' & E & _ & _ & _ & _ & _ & HS & _).
  rewrite E in EB. injection EB as <-. destruct (HS s y Hy) as (l & ls & H1 & H2 & H3 & H4 & H5 & H6 & H7 & H8 & H9 & H10 & H11 & H12 & H13). exists l.
  split; [exact H1|]. split; [exact H2|]. split; [lia|]. split; [exact H4|]. split; [exact H5|]. split.
  - intros e He. specialize (H8 e He). destruct e as [i|s']; [|exact H8]. assert (Il : In i l).
    { rewrite H7. clear -H6 He. induction H6 as [|e l' es ls (M & _) F IH]; [destruct He|]. cbn. apply in_or_app. destruct He as [->|He]; [left|right; auto]. inversion M as [e' i' Hs|e' es' ls' Hs]; subst; cbn in Hs; [injection Hs as ->; now left|discriminate]. }
    apply (proj1 (holds_ok _ _ _ _ H2) i Il).
  - split; [exact H9|]. split; [exact H10|]. split; [exact H11|]. split; [exact H12|exact H13].
Qed.
(** Every orbit that is recorded is that of the two children of a node, each taken as one body with the mass, centre and velocity of its
    stars: bound, with the elements of a Kepler orbit. *)
Theorem C74_orbits : forall cells os, (exists b, Build cells = Ok b /\ os = b_orb b) \/ (exists f, Find cells = Ok (f, os)) -> forall o, In o os ->
  exists la lb m1 m2 r1 v1 r2 v2, holds (child T) N (o_c1 o) la /\ holds (child T) N (o_c2 o) lb /\ (exists c, child T c = Some (o_c1 o, o_c2 o)) /\ 0 < m1 /\ 0 < m2 /\
    is_sum (fun i => sp_m (stars i)) (fun i => sp_x (stars i) Qr) la m1 r1 /\ is_sum (fun i => sp_m (stars i)) (fun i => sp_x (stars i) Qv) la m1 v1 /\
    is_sum (fun i => sp_m (stars i)) (fun i => sp_x (stars i) Qr) lb m2 r2 /\ is_sum (fun i => sp_m (stars i)) (fun i => sp_x (stars i) Qv) lb m2 v2 /\
    kepler ndim small_number_dp m1 m2 r1 v1 r2 v2 (o_m o) (o_r o) (o_v o) (o_binen o) (o_sma o) (o_period o) (o_ecc o) (o_q o) /\
    (ndim = 3%nat -> forall k, (k < 3)%nat -> o_angmom o k = m1 * m2 / (m1 + m2) * cross3 (vsub r1 r2) (vsub v1 v2) k) /\
    (ndim = 2%nat -> o_angmom o 2%nat = m1 * m2 / (m1 + m2) * cross3 (vsub r1 r2) (vsub v1 v2) 2%nat) /\
    (o_type o = Binary <-> length la = 1%nat /\ length lb = 1%nat) /\ (o_type o = Quadruple <-> (2 <= length la)%nat /\ (2 <= length lb)%nat).
Proof.
  intros cells os HO o Ho. destruct tree_good as (En & G).
  destruct (build_ok ndim Hdim N n r T G stars Hpos Nsysmax Nnbmax Norbmax gpesoft ltac:(lia) ltac:(lia) Hnb HN En cells) as (b & ls' & E & _ & _ & _ & _ & _ & _ & HB).
  destruct (binary_ok ndim Hdim N n r T G stars Hpos Nsysmax Nnbmax Norbmax gpesoft ltac:(lia) ltac:(lia) Hnb HN En cells) as (f & os' & E' & _ & HB').
  destruct HO as [(b' & E1 & ->)|(f' & E1)]; [rewrite E in E1; injection E1 as <-; exact (HB o Ho)|rewrite E' in E1; injection E1 as <- <-; exact (HB' o Ho)].
Qed.
(** The search for binaries overruns no array either. *)
Theorem C74_find : forall cells, exists f os, Find cells = Ok (f, os) /\ (length os <= N - 1)%nat.
Proof.
  intros cells. destruct tree_good as (En & G). destruct (binary_ok ndim Hdim N n r T G stars Hpos Nsysmax Nnbmax Norbmax gpesoft ltac:(lia) ltac:(lia) Hnb HN En cells) as (f & os & E & L & _). eauto.
Qed.
(** A node whose children are two stars, with an energy that agrees within gpesoft with that of the pair alone, becomes a system of
    these two stars, and if they are bound their orbit is recorded as a binary, by both functions. *)
Theorem C74_found : forall i j c, (i < N)%nat -> (j < N)%nat -> (c < n)%nat -> child T c = Some (i, j) ->
  let d := Vec.norm ndim (vsub (sp_x (stars i) Qr) (sp_x (stars j) Qr)) in let v := Vec.norm ndim (vsub (sp_x (stars i) Qv) (sp_x (stars j) Qv)) in
  let E := 1 / 2 * sp_m (stars i) * sp_gpot (stars i) + 1 / 2 * sp_m (stars j) * sp_gpot (stars j) in
  Rabs (E - sp_m (stars i) * sp_m (stars j) / (d + small_number_dp)) < gpesoft * E ->
  forall cells, (exists b, Build cells = Ok b /\ (exists s y, nth_error (b_sys b) s = Some y /\ y_children y = [EStar i; EStar j] /\ y_inode y = c) /\
       (v ^ 2 / 2 - (sp_m (stars i) + sp_m (stars j)) / (d + small_number_dp) < 0 -> exists o, In o (b_orb b) /\ o_c1 o = i /\ o_c2 o = j /\ o_type o = Binary)) /\
    exists f os, Find cells = Ok (f, os) /\
       (v ^ 2 / 2 - (sp_m (stars i) + sp_m (stars j)) / (d + small_number_dp) < 0 -> exists o, In o os /\ o_c1 o = i /\ o_c2 o = j /\ o_type o = Binary).
Proof.
  intros i j c Hi Hj Hc Hch d v E HE cells. destruct tree_good as (En & G). destruct (C74_partition cells) as (b & ls & EB & _). destruct (binary_ok ndim Hdim N n r T G stars Hpos Nsysmax Nnbmax Norbmax gpesoft ltac:(lia) ltac:(lia) Hnb HN En cells) as (f & os & EF & _).
  assert (V : v ^ 2 = dot ndim (vsub (sp_x (stars i) Qv) (sp_x (stars j) Qv)) (vsub (sp_x (stars i) Qv) (sp_x (stars j) Qv))) by (unfold v, Vec.norm; apply pow2_sqrt, dot_nn). rewrite V. split.
  - exists b. split; [exact EB|]. destruct (build_found ndim N n r T G stars Nsysmax Nnbmax Norbmax gpesoft i j c Hi Hj Hc Hch HE cells b Hc EB) as ((s & y & H1 & H2 & H3) & H4). split; [exists s, y; auto|exact H4].
  - exists f, os. split; [exact EF|]. exact (binary_found ndim N n r T G stars Norbmax gpesoft i j c Hi Hj Hc Hch HE cells f os EF).
Qed.
End Systems.

(** The eccentricity is the length of the Laplace-Runge-Lenz vector, but for the 1e-50 added to the distance. *)
Theorem C74_eccentricity : forall n m1 m2 r1 v1 r2 v2 M R0 V0 binen sma period ecc q, 0 < m1 -> 0 < m2 ->
  kepler n small_number_dp m1 m2 r1 v1 r2 v2 M R0 V0 binen sma period ecc q -> let d := vsub r1 r2 in let v := vsub v1 v2 in 0 < Vec.norm n d ->
  0 <= ecc ^ 2 - Vec.norm n (lrl n M d v) ^ 2 <= 2 * small_number_dp * orb_h2 n d v / (M * (Vec.norm n d * (Vec.norm n d + small_number_dp))).
Proof.
  intros n m1 m2 r1 v1 r2 v2 M R0 V0 binen sma period ecc q H1 H2 HK d v Hd. unfold kepler in HK. cbv zeta in HK. fold d v in HK.
  destruct HK as (EM & _ & _ & EB & _ & _ & _ & _ & _ & _ & EE & _). assert (Hr : 0 < dot n d d).
  { pose proof (dot_nn n d) as P. destruct (Rle_lt_or_eq_dec _ _ P) as [L|Z]; [exact L|]. exfalso. unfold Vec.norm in Hd. rewrite <- Z, sqrt_0 in Hd. lra. }
  pose proof (ecc_lrl n small_number_dp M d v binen ecc small_pos ltac:(lra) Hr EB EE) as H. unfold Vec.norm. rewrite pow2_sqrt by apply dot_nn. exact H.
Qed.
(** Only the stars themselves are counted as single: a hierarchy of four stars, one around a triple, is labelled a triple. *)
Theorem C74_types_refuted : exists r stars T f os o la lb, CreateNbodySystemTree 1 4 8 4 r = Ok (T, 7%nat) /\ (forall i, r i = sp_x (stars i) Qr) /\
  FindBinarySystems 1 stars T 4 4 (2 / 100) 7 (fun _ => star_cell 0 (stars 0%nat)) = Ok (f, os) /\ In o os /\
  holds (child T) 4 (o_c1 o) la /\ holds (child T) 4 (o_c2 o) lb /\ length (la ++ lb) = 4%nat /\ o_type o = Triple.
Proof.
  destruct types4 as (T & f & os & o & la & lb & E1 & E2 & H1 & _ & H2 & H3 & L1 & L2 & H4). exists r4, st4, T, f, os, o, la, lb.
  split; [exact E1|]. split; [reflexivity|]. split; [exact E2|]. split; [exact H1|]. split; [exact H2|]. split; [exact H3|]. split; [rewrite app_length; lia|exact H4].
Qed.

(** Four stars on a line, a binary with two distant companions, meet all hypotheses, and three orbits are found. *)
Lemma far4 : forall i j, (i < 4)%nat -> (j < 4)%nat -> dot 1 (vsub (r4 i) (r4 j)) (vsub (r4 i) (r4 j)) < 99 * 10 ^ 19.
Proof.
  intros i j _ _. change (distsqd 1 (r4 i) (r4 j) < 99 * 10 ^ 19). rewrite L_NNTree6.d1. unfold r4. assert (P : forall i, 0 <= x4 i <= 1000000) by (intros k; destruct k as [|[|[|k]]]; cbn; lra). pose proof (P i). pose proof (P j). assert ((x4 i - x4 j) * (x4 i - x4 j) <= 1000000 * 1000000) by nra. lra.
Qed.
Example C74_tree_ex : exists T l, CreateNbodySystemTree 1 4 8 4 r4 = Ok (T, 7%nat) /\ holds (child T) 4 6 l /\ Permutation l (seq 0 4).
Proof. destruct (C74_tree 1 4 8 4 r4 ltac:(lia) ltac:(lia) ltac:(lia) far4) as (T & E & _ & _ & _ & _ & l & H1 & H2). exists T, l. auto. Qed.
Example C74_nearest_ex : exists T n c, CreateNbodySystemTree 1 4 8 4 r4 = Ok (T, n) /\ (c < n)%nat /\ child T c = Some (0, 1)%nat.
Proof.
  apply C74_nearest; [lia|lia|exact far4|lia|]. intros k Hk H0 H1. destruct k as [|[|[|[|k]]]]; try lia; unfold dot, vsub, sumf, r4, x4; lra.
Qed.
Example C74_orbits_ex : exists T f os, CreateNbodySystemTree 1 4 8 4 r4 = Ok (T, 7%nat) /\ (forall i, (i < 4)%nat -> 0 < sp_m (st4 i)) /\ FindBinarySystems 1 st4 T 4 4 (2 / 100) 7 (fun _ => star_cell 0 (st4 0%nat)) = Ok (f, os) /\ length os = 3%nat.
Proof. destruct types4 as (T & f & os & o & la & lb & E1 & E2 & _ & L & _). exists T, f, os. split; [exact E1|]. split; [intros i _; cbn; lra|]. auto. Qed.
Example C74_partition_ex : exists T b ls, CreateNbodySystemTree 1 4 8 4 r4 = Ok (T, 7%nat) /\ BuildSubSystems 1 st4 T 4 4 8 4 (2 / 100) 7 (fun _ => star_cell 0 (st4 0%nat)) = Ok b /\
  Forall2 (made estar (eparts (b_sys b))) (b_nbody b) ls /\ Permutation (concat ls) (seq 0 4).
Proof.
  destruct types4 as (T & _ & _ & _ & _ & _ & E1 & _). destruct (C74_partition 1 4 8 4 r4 T 7 st4 4 8 4 (2 / 100)) with (cells := fun _ : nat => star_cell 0 (st4 0%nat)) as (b & ls & E & F & P & _); auto; try lia; [exact far4|intros i _; cbn; lra|]. exists T, b, ls. auto.
Qed.
Example C74_found_ex : exists T, CreateNbodySystemTree 1 4 8 4 r4 = Ok (T, 7%nat) /\ child T 4 = Some (0, 1)%nat /\
  (let d := Vec.norm 1 (vsub (sp_x (st4 0%nat) Qr) (sp_x (st4 1%nat) Qr)) in let E := 1 / 2 * sp_m (st4 0%nat) * sp_gpot (st4 0%nat) + 1 / 2 * sp_m (st4 1%nat) * sp_gpot (st4 1%nat) in
   Rabs (E - sp_m (st4 0%nat) * sp_m (st4 1%nat) / (d + small_number_dp)) < 2 / 100 * E /\ 0 - (sp_m (st4 0%nat) + sp_m (st4 1%nat)) / (d + small_number_dp) < 0).
Proof.
  destruct tree4 as (T & E & K & _). exists T. split; [exact E|]. split; [exact K|]. cbv zeta. unfold Vec.norm. rewrite norm1. cbn [st4 sp_m sp_gpot sp_x gp4]. unfold r4, x4. replace (Rabs (0 - 1)) with 1 by (rewrite Rabs_left; lra).
  pose proof (inv_eps 1 ltac:(lra)) as I1. replace (1 * 1 / (1 + small_number_dp)) with (1 / (1 + small_number_dp)) by (f_equal; lra). replace ((1 + 1) / (1 + small_number_dp)) with (2 * (1 / (1 + small_number_dp))) by (unfold Rdiv; ring). set (e := 1 / (1 + small_number_dp)) in *. split; [apply Rabs_def1; lra|lra].
Qed.
(** Two unit masses at distance one on circular orbits: bound, and the eccentricity vector is nought. *)
Example C74_eccentricity_ex : let d : vec := fun k => match k with 0%nat => 1 | _ => 0 end in let v : vec := fun k => match k with 1%nat => sqrt 2 | _ => 0 end in
  0 < Vec.norm 2 d /\ Vec.norm 2 (lrl 2 2 d v) = 0 /\ orb_energy 2 2 d v = - 1.
Proof.
  intros d v. assert (D : dot 2 d d = 1) by (unfold dot, sumf, d; ring). assert (S2 : sqrt 2 * sqrt 2 = 2) by (apply sqrt_sqrt; lra).
  assert (V : dot 2 v v = 2) by (unfold dot, sumf, v; transitivity (sqrt 2 * sqrt 2); [ring|exact S2]). assert (DV : dot 2 d v = 0) by (unfold dot, sumf, d, v; ring).
  split; [unfold Vec.norm; rewrite D, sqrt_1; lra|]. split.
  - unfold Vec.norm. replace (dot 2 (lrl 2 2 d v) (lrl 2 2 d v)) with 0; [apply sqrt_0|]. symmetry. unfold dot, sumf, lrl. rewrite D, V, DV, sqrt_1. unfold d, v. field.
  - unfold orb_energy. rewrite D, V, sqrt_1. lra.
Qed.
Print Assumptions C74_tree.
Print Assumptions C74_nearest.
Print Assumptions C74_tree_refuted.
Print Assumptions C74_partition.
Print Assumptions C74_momentum.
Print Assumptions C74_systems.
Print Assumptions C74_orbits.
Print Assumptions C74_find.
Print Assumptions C74_found.
Print Assumptions C74_eccentricity.
Print Assumptions C74_types_refuted.
