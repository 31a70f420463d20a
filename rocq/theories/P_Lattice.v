(** C84: initial positions on lattices, in boxes and in spheres. *)
From Coq Require Import Reals Lra Lia Psatz List.
From Verif Require Import Prelude L_Prelude Vec M_Box L_Box M_Matrix L_Matrix M_Lattice S_Lattice L_Lattice L_Lattice2 L_Lattice3 L_Lattice4.
Import ListNotations.
Local Open Scope R_scope.

(** A cubic lattice that is not normalised fills its box with equal cells, one particle at the
    middle of each, and the array is neither overrun nor left unfilled. *)
Theorem C84_cubic ndim N bmin bmax a : (1 <= ndim <= 3)%nat -> (forall k, (k < ndim)%nat -> (1 <= N k)%Z) ->
  (forall k, (k < ndim)%nat -> bmin k < bmax k) -> zlen a = (Z.of_nat ndim * Z.of_nat (sites ndim N))%Z ->
  exists a', AddCubicLattice ndim N bmin bmax false a = Ok a' /\ length a' = length a /\
    tiles ndim (sites ndim N) (xyz ndim a') (fun k => (bmax k - bmin k) / IZR (N k)) bmin bmax.
Proof.
  intros D P B L. assert (P0 : forall k, (k < ndim)%nat -> (0 <= N k)%Z) by (intros k Hk; specialize (P k Hk); lia).
  set (s := spacing N bmin bmax false).
  destruct (lattice_ok ndim N (cubic_coord s bmin) a D P0 L) as (a' & E & L' & _). exists a'. split; [exact E|]. split; [exact L'|].
  assert (S : forall k, (k < ndim)%nat -> 0 < s k).
  { intros k Hk. specialize (P k Hk). specialize (B k Hk). apply IZR_le in P. unfold s, spacing. apply Rdiv_lt_0_compat; lra. }
  destruct (cubic_tiles ndim N s bmin a a' D P0 S L E) as [T1 T2].
  assert (X : forall k, (k < ndim)%nat -> bmin k + IZR (N k) * s k = bmax k).
  { intros k Hk. unfold s, spacing. specialize (P k Hk). apply IZR_le in P. field. lra. }
  split.
  - intros x Hx. apply T1. intros k Hk. rewrite (X k Hk). apply Hx. exact Hk.
  - intros p k Hp Hk. assert (Y := T2 p k Hp Hk). rewrite (X k Hk) in Y. exact Y.
Qed.
(** A normalised one does so if the numbers of particles are in the ratio of the edges. *)
Theorem C84_cubic_normalised ndim N bmin bmax a : (1 <= ndim <= 3)%nat -> (forall k, (k < ndim)%nat -> (1 <= N k)%Z) ->
  (forall k, (k < ndim)%nat -> bmin k < bmax k) -> zlen a = (Z.of_nat ndim * Z.of_nat (sites ndim N))%Z ->
  (forall k, (k < ndim)%nat -> (bmax k - bmin k) / IZR (N k) = (bmax 0%nat - bmin 0%nat) / IZR (N 0%nat)) ->
  exists a', AddCubicLattice ndim N bmin bmax true a = Ok a' /\ length a' = length a /\
    tiles ndim (sites ndim N) (xyz ndim a') (fun k => (bmax 0%nat - bmin 0%nat) / IZR (N 0%nat)) bmin bmax.
Proof.
  intros D P B L F. assert (P0 : forall k, (k < ndim)%nat -> (0 <= N k)%Z) by (intros k Hk; specialize (P k Hk); lia).
  set (s := spacing N bmin bmax true).
  destruct (lattice_ok ndim N (cubic_coord s bmin) a D P0 L) as (a' & E & L' & _). exists a'. split; [exact E|]. split; [exact L'|].
  assert (S : forall k, (k < ndim)%nat -> 0 < s k).
  { intros k Hk. assert (P1 := P 0%nat ltac:(lia)). assert (B1 := B 0%nat ltac:(lia)). apply IZR_le in P1. unfold s, spacing. apply Rdiv_lt_0_compat; lra. }
  destruct (cubic_tiles ndim N s bmin a a' D P0 S L E) as [T1 T2].
  assert (X : forall k, (k < ndim)%nat -> bmin k + IZR (N k) * s k = bmax k).
  { intros k Hk. unfold s, spacing. rewrite <- (F k Hk). specialize (P k Hk). apply IZR_le in P. field. lra. }
  split.
  - intros x Hx. apply T1. intros k Hk. rewrite (X k Hk). apply Hx. exact Hk.
  - intros p k Hp Hk. assert (Y := T2 p k Hp Hk). rewrite (X k Hk) in Y. exact Y.
Qed.
(** Otherwise particles are put outside of the box: 4 x 4 particles in a box of 4 x 1. *)
Definition flat_box : vec := fun k => match k with 0%nat => 4 | _ => 1 end.
Theorem C84_cubic_outside_refuted : exists a', AddCubicLattice 2 (fun _ => 4%Z) (fun _ => 0) flat_box true (repeat 0 32) = Ok a' /\
  exists p, (p < 16)%nat /\ ~ in_box 2 (fun _ => 0) flat_box (xyz 2 a' p).
Proof.
  destruct (lattice_ok 2 (fun _ => 4%Z) (cubic_coord (spacing (fun _ => 4%Z) (fun _ => 0) flat_box true) (fun _ => 0)) (repeat 0 32)) as (a' & E & _ & W & _);
    [lia|intros; lia|reflexivity|].
  exists a'. split; [exact E|]. destruct (W 0%Z 3%Z 0%Z) as (p & Hp & _ & X). { apply cells_in; [lia|]. cbn. lia. }
  exists p. split; [exact Hp|]. intros I. specialize (I 1%nat ltac:(lia)). rewrite (X 1%nat ltac:(lia)) in I.
  cbn [cubic_coord flat_box] in I. unfold spacing, flat_box in I. lra.
Qed.

(** Two particles of a hexagonal lattice are never closer than twice its radius. *)
Theorem C84_hexagonal ndim N bmin bmax a : (1 <= ndim <= 3)%nat -> (forall k, (k < ndim)%nat -> (0 <= N k)%Z) ->
  zlen a = (Z.of_nat ndim * Z.of_nat (sites ndim N))%Z ->
  exists a', AddHexagonalLattice ndim N bmin bmax true a = Ok a' /\ length a' = length a /\
    forall p q, (p < sites ndim N)%nat -> (q < sites ndim N)%nat -> p <> q ->
      let d := (bmax 0%nat - bmin 0%nat) / IZR (N 0%nat) in d * d <= dist2 ndim (xyz ndim a' p) (xyz ndim a' q).
Proof.
  intros D P L. destruct (lattice_ok ndim N (hex_coord ndim (hex_rad N bmin bmax true) bmin) a D P L) as (a' & E & L' & _).
  exists a'. split; [exact E|]. split; [exact L'|]. intros p q Hp Hq H d.
  assert (X := hex_apart ndim N (1 / 2 * (bmax 0%nat - bmin 0%nat) / IZR (N 0%nat)) bmin a a' D P L E p q Hp Hq H).
  replace d with (2 * (1 / 2 * (bmax 0%nat - bmin 0%nat) / IZR (N 0%nat))) by (unfold d, Rdiv; lra). exact X.
Qed.
(** It is the closest packing: every particle not at its surface touches exactly twelve others. *)
Theorem C84_hexagonal_touching N bmin bmax a i j k : (0 < i < N 0%nat - 1)%Z -> (0 < j < N 1%nat - 1)%Z -> (0 < k < N 2%nat - 1)%Z ->
  bmin 0%nat < bmax 0%nat -> zlen a = (3 * Z.of_nat (sites 3 N))%Z ->
  exists a', AddHexagonalLattice 3 N bmin bmax true a = Ok a' /\
    let p := Z.to_nat (k * (N 0%nat * N 1%nat) + j * N 0%nat + i) in let d := (bmax 0%nat - bmin 0%nat) / IZR (N 0%nat) in
    exists l, NoDup l /\ length l = 12%nat /\
      forall q, In q l <-> (q < sites 3 N)%nat /\ dist2 3 (xyz 3 a' p) (xyz 3 a' q) = d * d.
Proof.
  intros Hi Hj Hk B L. assert (P0 : forall k, (k < 3)%nat -> (0 <= N k)%Z) by (intros [|[|[|m]]] Hm; lia).
  destruct (lattice_ok 3 N (hex_coord 3 (hex_rad N bmin bmax true) bmin) a ltac:(lia) P0 L) as (a' & E & _ & W & V).
  exists a'. split; [exact E|]. intros p d.
  set (rad := 1 / 2 * (bmax 0%nat - bmin 0%nat) / IZR (N 0%nat)).
  assert (N0 : (1 <= N 0%nat)%Z) by lia. apply IZR_le in N0.
  assert (PR : 0 < rad) by (unfold rad; apply Rdiv_lt_0_compat; lra).
  assert (Ed : d = 2 * rad) by (unfold d, rad, Rdiv; lra).
  change (hex_coord 3 (hex_rad N bmin bmax true) bmin) with (hex_coord 3 (fun _ => rad) bmin) in W, V.
  assert (CI : forall x y z, cell_of 3 N (x, y, z) <-> (0 <= x < N 0%nat /\ 0 <= y < N 1%nat /\ 0 <= z < N 2%nat)%Z) by (intros; apply (cells_in 3 N x y z); lia).
  assert (num : forall x y z, cell_of 3 N (x, y, z) -> (0 <= z * (N 0%nat * N 1%nat) + y * N 0%nat + x)%Z).
  { intros x y z C. apply CI in C. apply (mix_range (N 0%nat) (N 1%nat) (N 2%nat)); lia. }
  assert (Cp : cell_of 3 N (i, j, k)) by (apply CI; lia).
  assert (pos : forall x y z, cell_of 3 N (x, y, z) -> let q := Z.to_nat (z * (N 0%nat * N 1%nat) + y * N 0%nat + x) in (q < sites 3 N)%nat /\ forall d, (d < 3)%nat -> xyz 3 a' q d = hex_coord 3 (fun _ => rad) bmin (x, y, z) d).
  { intros x y z C q. destruct (W x y z C) as (q' & Hq & Eq & X). assert (q = q') by (unfold q; unfold e1 in Eq; cbn [Nat.leb] in Eq; lia). subst q'. auto. }
  assert (TC : forall x y z, In (x, y, z) (touching i j k) -> cell_of 3 N (x, y, z)).
  { intros x y z I. apply touching_near in I. apply CI. lia. }
  exists (map (fun c : Z * Z * Z => let '(x, y, z) := c in Z.to_nat (z * (N 0%nat * N 1%nat) + y * N 0%nat + x)) (touching i j k)).
  split; [|split].
  - apply NoDup_map_in; [|apply touching_NoDup]. intros [[x y] z] [[x' y'] z'] I I' Q.
    apply TC in I. apply TC in I'. assert (A := num _ _ _ I). assert (A' := num _ _ _ I'). apply CI in I. apply CI in I'.
    destruct (mix_inj (N 0%nat) (N 1%nat) x y z x' y' z') as (-> & -> & ->); try lia. reflexivity.
  - rewrite map_length. reflexivity.
  - destruct (pos _ _ _ Cp) as [_ Xp]. fold p in Xp. intros q. rewrite in_map_iff. split.
    + intros ([[x y] z] & <- & I). destruct (pos _ _ _ (TC _ _ _ I)) as [Hq Xq]. split; [exact Hq|].
      rewrite (dist2_ext 3 _ _ _ _ Xp Xq), Ed. apply hex3_touch; [exact PR|]. apply touching_form. exact I.
    + intros [Hq Dq]. destruct (V q Hq) as (x & y & z & C & Eq & Xq). rewrite (dist2_ext 3 _ _ _ _ Xp Xq), Ed in Dq.
      exists (x, y, z). split; [unfold e1 in Eq; cbn [Nat.leb] in Eq; lia|]. apply touching_form. apply (hex3_touch rad bmin); assumption.
Qed.
(** In the plane the rows stay inside the box along x ... *)
Theorem C84_hexagonal_plane N bmin bmax a a' b : (1 <= N 0%nat)%Z -> (0 <= N 1%nat)%Z -> bmin 0%nat < bmax 0%nat ->
  zlen a = (2 * Z.of_nat (sites 2 N))%Z -> AddHexagonalLattice 2 N bmin bmax b a = Ok a' ->
  let rad := (bmax 0%nat - bmin 0%nat) / IZR (N 0%nat) / 2 in
  forall p, (p < sites 2 N)%nat -> bmin 0%nat + rad / 2 <= xyz 2 a' p 0%nat <= bmax 0%nat - rad / 2.
Proof.
  intros P P' B L E rad p Hp. assert (P0 : forall k, (k < 2)%nat -> (0 <= N k)%Z) by (intros [|[|k]] Hk; lia).
  destruct (lattice_ok 2 N (hex_coord 2 (hex_rad N bmin bmax b) bmin) a ltac:(lia) P0 L) as (x & E' & _ & _ & V).
  unfold AddHexagonalLattice in E. rewrite E in E'. injection E' as <-. destruct (V p Hp) as (i & j & k & C & _ & X).
  rewrite (X 0%nat ltac:(lia)). cbn [hex_coord].
  replace (hex_rad N bmin bmax b 0%nat) with rad by (unfold rad, hex_rad, Rdiv; destruct b; ring).
  apply cells_in in C; [|lia]. destruct C as (C & _). assert (C1 := IZR_le _ _ (proj1 C)). assert (C2 : (i + 1 <= N 0%nat)%Z) by lia. apply IZR_le in C2. rewrite plus_IZR in C2.
  assert (M : (0 <= j mod 2 <= 1)%Z) by lia. assert (M1 := IZR_le _ _ (proj1 M)). assert (M2 := IZR_le _ _ (proj2 M)).
  apply IZR_le in P. assert (PR : 0 < rad). { unfold rad. assert (0 < (bmax 0%nat - bmin 0%nat) / IZR (N 0%nat)) by (apply Rdiv_lt_0_compat; lra). lra. }
  assert (Q : bmax 0%nat = bmin 0%nat + 2 * IZR (N 0%nat) * rad) by (unfold rad; field; lra). rewrite Q. nra.
Qed.
(** ... in space they do not: for every size one particle at least is outside. *)
Theorem C84_hexagonal_outside_refuted N bmin bmax a b : (1 <= N 0%nat)%Z -> (2 <= N 1%nat)%Z -> (1 <= N 2%nat)%Z -> bmin 0%nat < bmax 0%nat ->
  zlen a = (3 * Z.of_nat (sites 3 N))%Z ->
  exists a' p, AddHexagonalLattice 3 N bmin bmax b a = Ok a' /\ (p < sites 3 N)%nat /\
    xyz 3 a' p 0%nat = bmax 0%nat + (bmax 0%nat - bmin 0%nat) / IZR (N 0%nat) / 4 /\ ~ in_box 3 bmin bmax (xyz 3 a' p).
Proof.
  intros P P' P'' B L. assert (P0 : forall k, (k < 3)%nat -> (0 <= N k)%Z) by (intros [|[|[|k]]] Hk; lia).
  destruct (lattice_ok 3 N (hex_coord 3 (hex_rad N bmin bmax b) bmin) a ltac:(lia) P0 L) as (a' & E & _ & W & _).
  destruct (W (N 0%nat - 1)%Z 1%Z 0%Z) as (p & Hp & _ & X). { apply cells_in; [lia|]. unfold e1, e2. cbn [Nat.leb]. lia. }
  assert (Y : xyz 3 a' p 0%nat = bmax 0%nat + (bmax 0%nat - bmin 0%nat) / IZR (N 0%nat) / 4).
  { rewrite (X 0%nat ltac:(lia)). cbn [hex_coord]. change (1 mod 2)%Z with 1%Z. change ((0 + 1) mod 2)%Z with 1%Z. rewrite minus_IZR. apply IZR_le in P.
    unfold hex_rad. destruct b; field; lra. }
  exists a', p. split; [exact E|]. split; [exact Hp|]. split; [exact Y|]. intros I. specialize (I 0%nat ltac:(lia)). rewrite Y in I.
  apply IZR_le in P. assert (0 < (bmax 0%nat - bmin 0%nat) / IZR (N 0%nat)) by (apply Rdiv_lt_0_compat; lra). lra.
Qed.
(** In one dimension they are, but the line of particles is not centred: half a radius from one
    wall, one and a half at least from the other. *)
Theorem C84_hexagonal_line_refuted N bmin bmax a b : (1 <= N 0%nat)%Z -> bmin 0%nat < bmax 0%nat -> zlen a = Z.of_nat (sites 1 N) ->
  let rad := (bmax 0%nat - bmin 0%nat) / IZR (N 0%nat) / 2 in
  exists a', AddHexagonalLattice 1 N bmin bmax b a = Ok a' /\
    (exists p, (p < sites 1 N)%nat /\ xyz 1 a' p 0%nat = bmin 0%nat + rad / 2) /\
    (forall p, (p < sites 1 N)%nat -> xyz 1 a' p 0%nat <= bmax 0%nat - 3 / 2 * rad).
Proof.
  intros P B L rad. assert (P0 : forall k, (k < 1)%nat -> (0 <= N k)%Z) by (intros [|k] Hk; lia).
  destruct (lattice_ok 1 N (hex_coord 1 (hex_rad N bmin bmax b) bmin) a ltac:(lia) P0 ltac:(lia)) as (a' & E & _ & W & V).
  assert (HR : hex_rad N bmin bmax b 0%nat = rad) by (unfold rad, hex_rad, Rdiv; destruct b; ring).
  exists a'. split; [exact E|]. split.
  - destruct (W 0%Z 0%Z 0%Z) as (p & Hp & _ & X). { apply cells_in; [lia|]. unfold e1, e2. cbn [Nat.leb]. lia. }
    exists p. split; [exact Hp|]. rewrite (X 0%nat ltac:(lia)). cbn [hex_coord]. rewrite HR. lra.
  - intros p Hp. destruct (V p Hp) as (i & j & k & C & _ & X). rewrite (X 0%nat ltac:(lia)). cbn [hex_coord]. rewrite HR.
    apply cells_in in C; [|lia]. destruct C as (C & _). assert (C2 : (i + 1 <= N 0%nat)%Z) by lia. apply IZR_le in C2. rewrite plus_IZR in C2. apply IZR_le in P.
    assert (PR : 0 < rad). { unfold rad. assert (0 < (bmax 0%nat - bmin 0%nat) / IZR (N 0%nat)) by (apply Rdiv_lt_0_compat; lra). lra. }
    assert (Q : bmax 0%nat = bmin 0%nat + 2 * IZR (N 0%nat) * rad) by (unfold rad; field; lra). rewrite Q. nra.
Qed.
(** "Otherwise set spacing to fit bounding box": without normalisation the upper part of the box
    is left empty, however many particles there are. *)
Theorem C84_hexagonal_gap_refuted N bmin bmax a a' : (0 <= N 0%nat)%Z -> (1 <= N 1%nat)%Z -> bmin 1%nat < bmax 1%nat ->
  zlen a = (2 * Z.of_nat (sites 2 N))%Z -> AddHexagonalLattice 2 N bmin bmax false a = Ok a' ->
  forall p, (p < sites 2 N)%nat -> xyz 2 a' p 1%nat <= bmin 1%nat + 87 / 100 * (bmax 1%nat - bmin 1%nat).
Proof.
  intros P P' B L E p Hp. assert (P0 : forall k, (k < 2)%nat -> (0 <= N k)%Z) by (intros [|[|k]] Hk; lia).
  destruct (lattice_ok 2 N (hex_coord 2 (hex_rad N bmin bmax false) bmin) a ltac:(lia) P0 L) as (x & E' & _ & _ & V).
  unfold AddHexagonalLattice in E. rewrite E in E'. injection E' as <-. destruct (V p Hp) as (i & j & k & C & _ & X).
  rewrite (X 1%nat ltac:(lia)). cbn [hex_coord].
  apply cells_in in C; [|lia]. unfold e1 in C. cbn [Nat.leb] in C. destruct C as (_ & C & _). assert (C2 : (j + 1 <= N 1%nat)%Z) by lia. apply IZR_le in C2. rewrite plus_IZR in C2.
  apply IZR_le in P'. set (rad := hex_rad N bmin bmax false 1%nat).
  assert (Q : bmax 1%nat = bmin 1%nat + 2 * IZR (N 1%nat) * rad) by (unfold rad, hex_rad; field; lra).
  assert (PR : 0 < rad) by nra.
  assert (S3 : sqrt 3 <= 174 / 100). { rewrite <- (sqrt_square (174 / 100)) by lra. apply sqrt_le_1_alt. lra. }
  assert (S0 : 0 <= sqrt 3) by apply sqrt_pos. rewrite Q.
  assert (H1 : (1 / 2 + IZR j) * rad <= (IZR (N 1%nat)) * rad) by nra.
  assert (J : 0 <= (1 / 2 + IZR j) * rad) by (assert (J0 := IZR_le _ _ (proj1 C)); nra).
  assert (H2 : sqrt 3 * ((1 / 2 + IZR j) * rad) <= 174 / 100 * ((1 / 2 + IZR j) * rad)) by nra. lra.
Qed.

(** The sphere cut out of a set of points: exactly the points inside one sphere about the centre
    of the box, scaled by its radius; never more than wanted; and fewer only if no other sphere
    inside the box, but for one part in 10^8, holds the number wanted. *)
Theorem C84_cut fuel ndim Nsphere bmin bmax pts M out : (forall k, (k < ndim)%nat -> bmin k < bmax k) ->
  CutSphere fuel ndim Nsphere bmin bmax pts = Ok (M, out) ->
  let c : vec := fun k => (bmin k + bmax k) / 2 in
  exists radius, 0 < radius /\ (forall k, (k < ndim)%nat -> radius <= (bmax k - bmin k) / 2) /\
    cut_out ndim c radius pts (firstn (Z.to_nat M) out) /\ number_within ndim c radius pts M /\ (M <= Nsphere)%Z /\
    ((M < Nsphere)%Z -> forall r, 0 <= r <= 99 / 10 * 10 ^ 20 -> (forall k, (k < ndim)%nat -> r <= (bmax k - bmin k) / 2) ->
       number_within ndim c r pts Nsphere -> radius < r < radius * (1 + 1 / 10 ^ 8)).
Proof.
  intros P E c. destruct (cut_result fuel ndim Nsphere bmin bmax pts M out P E) as (radius & l' & R & C & M1 & F & I & Q).
  assert (EC : forall p, norm ndim (vsub p (box_centre bmin bmax)) = norm ndim (vsub p c)).
  { intros p. unfold norm. f_equal. apply dot_ext; intros k _; unfold vsub, box_centre, c; lra. }
  assert (CC : cut_out ndim c radius pts l').
  { clear - C EC. induction C; [constructor|apply co_in|apply co_out]; try assumption; rewrite <- EC; assumption. }
  exists radius. split; [lra|]. split. { intros k Hk. assert (X := half_edge_le ndim bmin bmax k Hk). lra. }
  rewrite F. split; [exact CC|]. split; [rewrite M1; apply cut_out_number; exact CC|].
  split; [destruct Q as [Q|[Q _]]; lia|]. intros Lt r Hr Hk Nr. destruct Q as [Q|(_ & h & Q1 & Q2 & Q3)]; [lia|].
  assert (Er : interior ndim (box_centre bmin bmax) pts r = Nsphere).
  { eapply nw_fun; [apply interior_nw; lra|]. clear - Nr EC. induction Nr; [constructor|apply nw_in|apply nw_out]; try assumption; rewrite EC; assumption. }
  assert (Rh : r <= half_edge ndim bmin bmax) by (apply half_edge_glb; [unfold big_number; lra|exact Hk]).
  split.
  - apply Rnot_le_lt. intros G. assert (X := interior_mono ndim (box_centre bmin bmax) pts r radius ltac:(lra)). lia.
  - destruct Q3 as [->|Q3]; [lra|]. apply Rnot_le_lt. intros G. assert (X := interior_mono ndim (box_centre bmin bmax) pts h r ltac:(lra)). lia.
Qed.
(** The search ends if no more points than wanted lie at the centre itself ... *)
Theorem C84_cut_ends ndim Nsphere bmin bmax pts : (forall k, (k < ndim)%nat -> bmin k < bmax k) -> (0 <= Nsphere)%Z ->
  (forall n, number_within ndim (fun k => (bmin k + bmax k) / 2) 0 pts n -> (n <= Nsphere)%Z) ->
  exists fuel M out, CutSphere fuel ndim Nsphere bmin bmax pts = Ok (M, out).
Proof.
  intros P N0 H.
  assert (X : (interior ndim (box_centre bmin bmax) pts 0 <= Nsphere)%Z).
  { apply H. assert (Y := interior_nw ndim (box_centre bmin bmax) 0 pts (Rle_refl 0)).
    assert (EC : forall p, norm ndim (vsub p (box_centre bmin bmax)) = norm ndim (vsub p (fun k => (bmin k + bmax k) / 2))).
    { intros p. unfold norm. f_equal. apply dot_ext; intros k _; unfold vsub, box_centre; lra. }
    revert Y. generalize (interior ndim (box_centre bmin bmax) pts 0). clear - EC. intros z Y. induction Y; [constructor|apply nw_in|apply nw_out]; try assumption; rewrite <- EC; assumption. }
  destruct (bisect_ends ndim (box_centre bmin bmax) pts Nsphere (half_edge ndim bmin bmax) (half_edge_pos ndim bmin bmax P) N0 X) as (f & r & E).
  exists f. unfold CutSphere. rewrite E. cbn [bind].
  destruct (bisect_result _ _ _ _ _ _ (conj (Rle_refl 0) (half_edge_pos ndim bmin bmax P)) E) as [R _].
  destruct (pack_ok ndim (box_centre bmin bmax) r ltac:(lra) pts [] []) as (l' & a' & E' & _). eauto.
Qed.
(** ... and otherwise never: no particle is wanted and one lies at the centre. *)
Theorem C84_cut_hangs_refuted : forall fuel, CutSphere fuel 1 0 (fun _ => -1) (fun _ => 1) [(fun _ => 0) : vec] = NoFuel.
Proof.
  intros fuel. unfold CutSphere.
  assert (H : forall f lo hi, 0 <= lo < hi -> bisect f (interior 1 (box_centre (fun _ => -1) (fun _ => 1)) [(fun _ => 0) : vec]) 0 lo hi = NoFuel).
  { induction f as [|f IH]; intros lo hi B; [reflexivity|]. cbn [bisect].
    assert (I : interior 1 (box_centre (fun _ => -1) (fun _ => 1)) [(fun _ => 0) : vec] (1 / 2 * (lo + hi)) = 1%Z).
    { unfold interior. cbn [filter]. rewrite (proj2 (within_true 1 _ (1 / 2 * (lo + hi)) _ ltac:(lra))); [reflexivity|].
      apply norm_le_iff; [lra|]. unfold dot, vsub, box_centre. cbn [sumf]. nra. }
    rewrite I. cbn [Z.ltb Z.compare andb Z.eqb Z.gtb]. apply IH. lra. }
  rewrite H; [reflexivity|]. split; [lra|]. apply half_edge_pos. intros; lra.
Qed.
(** Points cut out of a box that is not centred at the origin are not about the origin: the
    centre is not subtracted before the scaling. *)
Theorem C84_cut_centre_refuted : exists fuel out, CutSphere fuel 1 1 (fun _ => 9) (fun _ => 11) [(fun _ => 10) : vec] = Ok (1%Z, out) /\
  exists p, In p (firstn 1 out) /\ 10 < norm 1 p.
Proof.
  exists 1%nat.
  assert (H : half_edge 1 (fun _ => 9) (fun _ => 11) = 1).
  { cbn [half_edge]. rewrite Rmin_right; [lra|]. unfold big_number. lra. }
  assert (I : within 1 (box_centre (fun _ => 9) (fun _ => 11)) (1 / 2 * (0 + 1)) (fun _ => 10) = true).
  { apply within_true; [lra|]. apply norm_le_iff; [lra|]. unfold dot, vsub, box_centre. cbn [sumf]. lra. }
  exists [fun k => 10 / (1 / 2 * (0 + 1))]. split.
  - unfold CutSphere. rewrite H. cbn [bisect]. unfold interior. cbn [filter]. rewrite I. cbn.
    rewrite I. reflexivity.
  - exists (fun _ => 10 / (1 / 2 * (0 + 1))). split; [left; reflexivity|]. unfold norm, dot. cbn [sumf].
    replace (0 + 10 / (1 / 2 * (0 + 1)) * (10 / (1 / 2 * (0 + 1)))) with (20 * 20) by field. rewrite sqrt_square by lra. lra.
Qed.

(** A sphere of lattice points always ends, with at most the number wanted, all of them inside
    the sphere asked for. *)
Theorem C84_sphere ndim Npart Nl rcentre radius hex th ph ps raux : (1 <= ndim <= 3)%nat -> (1 <= Npart)%Z -> (1 <= Nl)%Z -> 0 <= radius ->
  zlen raux = (Z.of_nat ndim * Nl ^ Z.of_nat ndim)%Z ->
  (exists fuel M out, AddLatticeSphere fuel ndim Npart Nl rcentre radius hex th ph ps raux = Ok (M, out)) /\
  (forall fuel M out, AddLatticeSphere fuel ndim Npart Nl rcentre radius hex th ph ps raux = Ok (M, out) ->
     zlen out = M /\ (M <= Npart)%Z /\ forall p, In p out -> norm ndim (vsub p rcentre) <= radius).
Proof.
  intros D PN PL PR L. set (N := fun _ : nat => Nl). set (bmin := (fun _ => -2) : vec). set (bmax := (fun _ => 2) : vec).
  assert (SC := sites_const ndim Nl ltac:(lia)). fold N in SC.
  assert (P0 : forall k, (k < ndim)%nat -> (0 <= N k)%Z) by (intros; unfold N; lia).
  assert (L' : zlen raux = (Z.of_nat ndim * Z.of_nat (sites ndim N))%Z) by (rewrite SC; exact L).
  assert (PLR := IZR_le _ _ PL).
  assert (X : exists a', (if hex then AddHexagonalLattice ndim N bmin bmax true raux else AddCubicLattice ndim N bmin bmax true raux) = Ok a' /\
     forall p q, (p < sites ndim N)%nat -> (q < sites ndim N)%nat -> (forall k, (k < ndim)%nat -> xyz ndim a' p k = xyz ndim a' q k) -> p = q).
  { destruct hex.
    - destruct (C84_hexagonal ndim N bmin bmax raux D P0 L') as (a' & E & _ & S). exists a'. split; [exact E|]. intros p q Hp Hq EQ.
      destruct (Nat.eq_dec p q) as [|NE]; [assumption|]. exfalso. specialize (S p q Hp Hq NE). cbv zeta in S.
      rewrite (dist2_ext ndim (xyz ndim a' p) (xyz ndim a' q) (xyz ndim a' q) (xyz ndim a' q) EQ (fun _ _ => eq_refl)) in S.
      replace (dist2 ndim (xyz ndim a' q) (xyz ndim a' q)) with 0 in S.
      + unfold bmax, bmin, N in S. assert (0 < (2 - -2) / IZR Nl) by (apply Rdiv_lt_0_compat; lra). nra.
      + symmetry. unfold dist2. rewrite (dot_ext ndim _ (fun _ => 0) _ (fun _ => 0)); [unfold dot; transitivity (sumf ndim (fun _ => 0)); [apply sumf_ext; intros; ring|apply sumf_zero]| |]; intros; unfold vsub; ring.
    - destruct (C84_cubic_normalised ndim N bmin bmax raux D ltac:(intros; unfold N; lia) ltac:(intros; unfold bmin, bmax; lra) L' ltac:(intros; reflexivity)) as (a' & E & _ & S).
      exists a'. split; [exact E|]. apply (tiles_distinct _ _ _ _ _ _ S). intros. cbv beta. unfold bmin, bmax, N. apply Rdiv_lt_0_compat; lra. }
  destruct X as (a' & E & U).
  assert (B : forall k, (k < ndim)%nat -> bmin k < bmax k) by (intros; unfold bmin, bmax; lra).
  assert (EP : points ndim a' (Nl ^ Z.of_nat ndim) = map (xyz ndim a') (seq 0 (sites ndim N))).
  { unfold points. rewrite <- SC, Nat2Z.id. reflexivity. }
  split.
  - destruct (C84_cut_ends ndim Npart bmin bmax (points ndim a' (Nl ^ Z.of_nat ndim)) B ltac:(lia)) as (fuel & M & out & C).
    + intros n Hn. assert (Q := one_at_centre ndim (fun k => (bmin k + bmax k) / 2) (xyz ndim a') (sites ndim N) U).
      rewrite EP in Hn. rewrite (nw_fun _ _ _ _ _ _ Hn (interior_nw _ _ 0 _ (Rle_refl 0))). eapply Z.le_trans; [exact Q|exact PN].
    + destruct (C84_cut fuel ndim Npart bmin bmax _ M out B C) as (r & _ & _ & _ & _ & Le & _).
      exists fuel, M. unfold AddLatticeSphere. fold N. fold bmin. fold bmax. rewrite E. cbn [bind]. rewrite C. cbn [bind].
      rewrite (proj2 (Z.leb_le _ _) Le). eauto.
  - intros fuel M out H. unfold AddLatticeSphere in H. fold N in H. fold bmin in H. fold bmax in H. rewrite E in H. cbn [bind] in H.
    destruct (CutSphere _ _ _ _ _ _) as [[M' pts]| | |] eqn:C; try discriminate. cbn [bind] in H.
    destruct (Z.leb_spec M' Npart); [|discriminate]. injection H as <- <-.
    destruct (cut_result _ _ _ _ _ _ _ _ B C) as (r & l' & R & CO & EM & F & _). rewrite F.
    split; [unfold zlen in *; rewrite map_length; lia|]. split; [assumption|].
    intros p I. apply in_map_iff in I. destruct I as (q & <- & I).
    destruct (cut_out_in _ _ _ _ _ CO q I) as (x & _ & Hx & ->).
    apply norm_le_iff; [exact PR|]. apply norm_le_iff in Hx; [|lra].
    set (y := (fun k => x k / r) : vec).
    rewrite (dot_ext ndim _ (vscal radius (rotate ndim th ph ps y)) _ (vscal radius (rotate ndim th ph ps y))); try (intros; unfold vsub, vscal; ring).
    rewrite dot_scal_l, dot_scal_r, rotate_dot by exact D.
    assert (Dx : dot ndim (vsub x (box_centre bmin bmax)) (vsub x (box_centre bmin bmax)) = r * r * dot ndim y y).
    { rewrite (dot_ext ndim _ (vscal r y) _ (vscal r y)); [rewrite dot_scal_l, dot_scal_r; ring| |]; intros; unfold vsub, vscal, box_centre, bmin, bmax, y; field; lra. }
    rewrite Dx in Hx. assert (dot ndim y y <= 1) by (apply (Rmult_le_reg_l (r * r)); nra). nra.
Qed.

(** A random box: inside the box. *)
Theorem C84_random_box ndim Npart bmin bmax rs : (forall k, (k < ndim)%nat -> bmin k <= bmax k) -> (forall i, 0 <= rs i <= 1) ->
  length (AddRandomBox ndim Npart bmin bmax rs) = Npart /\ forall p, In p (AddRandomBox ndim Npart bmin bmax rs) -> in_box ndim bmin bmax p.
Proof.
  intros B H. unfold AddRandomBox. split; [rewrite map_length, seq_length; reflexivity|].
  intros p I. apply in_map_iff in I. destruct I as (i & <- & _). intros k Hk. specialize (B k Hk). destruct (H (ndim * i + k)%nat). nra.
Qed.

(** The sphere of the Evrard collapse: with radius 1 the mass inside R grows as R^2 (a uniform
    sphere has mass r^3 inside r) ... *)
Theorem C84_evrard ndim ri : let q := evrard_stretch ndim 1 ri in
  0 <= norm ndim q ^ 2 - norm ndim ri ^ 3 <= / 10 ^ 10 * norm ndim ri ^ 2.
Proof.
  intros q. set (x := norm ndim ri). assert (X0 : 0 <= x) by apply sqrt_pos. assert (Dx : dot ndim ri ri = x * x) by (unfold x, norm; rewrite sqrt_sqrt; [reflexivity|apply dot_nonneg]).
  set (r := sqrt (dot ndim ri ri + small_number)).
  assert (Sm : 0 < small_number) by (unfold small_number; apply Rinv_0_lt_compat; lra).
  assert (Rp : 0 < r) by (unfold r; apply sqrt_lt_R0; assert (T := dot_nonneg ndim ri); lra).
  assert (RR : r * r = x * x + small_number) by (unfold r; rewrite sqrt_sqrt; [rewrite Dx; ring|assert (T := dot_nonneg ndim ri); lra]).
  assert (Q : norm ndim q ^ 2 = x * x * r).
  { unfold norm. simpl. rewrite Rmult_1_r, sqrt_sqrt by apply dot_nonneg.
    rewrite (dot_ext ndim q (vscal (sqrt r) ri) q (vscal (sqrt r) ri)); [| |].
    - rewrite dot_scal_l, dot_scal_r, Dx. rewrite <- Rmult_assoc, sqrt_sqrt by lra. ring.
    - intros k _. unfold q, evrard_stretch, vscal. cbv zeta. fold r. field. lra.
    - intros k _. unfold q, evrard_stretch, vscal. cbv zeta. fold r. field. lra. }
  rewrite Q.
  assert (T10 : small_number = / 10 ^ 10 * / 10 ^ 10) by (unfold small_number; rewrite <- Rinv_mult; f_equal; ring).
  set (e := / 10 ^ 10) in *. assert (Pe : 0 < e) by (unfold e; apply Rinv_0_lt_compat; lra).
  assert (A : x <= r) by nra. assert (B : r <= x + e) by nra.
  replace (x * x * r - x ^ 3) with (x * x * (r - x)) by ring. replace (x ^ 2) with (x * x) by ring.
  assert (0 <= x * x) by nra. split; [nra|]. rewrite (Rmult_comm e). apply Rmult_le_compat_l; lra.
Qed.
(** ... with any other the radius is counted twice: a particle on the surface of a sphere of
    radius 2 is moved to more than 5. *)
Theorem C84_evrard_refuted : let ri : vec := fun k => match k with 0%nat => 2 | _ => 0 end in
  norm 3 ri = 2 /\ 5 < norm 3 (evrard_stretch 3 2 ri).
Proof.
  intros ri. assert (D : dot 3 ri ri = 2 * 2) by (unfold dot, ri; cbn [sumf]; ring).
  split; [unfold norm; rewrite D; apply sqrt_square; lra|].
  set (r := sqrt (dot 3 ri ri + small_number)).
  assert (Sm : 0 < small_number) by (unfold small_number; apply Rinv_0_lt_compat; lra).
  assert (R2 : 2 <= r). { unfold r. rewrite D. rewrite <- (sqrt_square 2) at 1 by lra. apply sqrt_le_1_alt. lra. }
  assert (S2 : 7 / 5 <= sqrt r). { rewrite <- (sqrt_square (7 / 5)) by lra. apply sqrt_le_1_alt. lra. }
  unfold norm. rewrite (dot_ext 3 _ (vscal (2 * sqrt r) ri) _ (vscal (2 * sqrt r) ri)).
  - rewrite dot_scal_l, dot_scal_r, D. replace (2 * sqrt r * (2 * sqrt r * (2 * 2))) with (4 * sqrt r * (4 * sqrt r)) by ring. rewrite sqrt_square; lra.
  - intros k _. unfold evrard_stretch, vscal. cbv zeta. fold r. field. lra.
  - intros k _. unfold evrard_stretch, vscal. cbv zeta. fold r. field. lra.
Qed.

(** The sphere of density 1/r^2: a particle is inside a part x of the radius if its third random
    number is at most x, so that the mass grows with the radius ... *)
Theorem C84_r2 Npart rcentre radius rs a : (forall i, 0 <= rs i <= 1) -> 0 < radius -> zlen a = (3 * Z.of_nat Npart)%Z ->
  exists a', Addr2Sphere 3 Npart rcentre radius rs a = Ok a' /\ length a' = length a /\
    forall p, (p < Npart)%nat -> norm 3 (xyz 3 a' p) <= radius /\ forall x, norm 3 (xyz 3 a' p) <= x * radius <-> rs (3 * p + 2)%nat <= x.
Proof.
  intros H PR L. unfold Addr2Sphere. set (ws := flat_map _ _).
  assert (I : forall q x, In (q, x) ws <-> exists i k, (i < Npart)%nat /\ (k < 3)%nat /\ q = Z.of_nat (3 * i + k) /\ x = r2_point radius rs i k).
  { intros q x. unfold ws. rewrite in_flat_map. split.
    - intros (i & A & B). apply in_map_iff in B. destruct B as (k & E & B). apply in_seq in A. apply in_seq in B.
      assert (Ea := f_equal fst E). assert (Eb := f_equal snd E). cbn [fst snd] in Ea, Eb. exists i, k. repeat split; try lia; congruence.
    - intros (i & k & A & B & -> & ->). exists i. rewrite in_seq. split; [lia|]. apply in_map_iff. exists k. rewrite in_seq. split; [reflexivity|lia]. }
  destruct (store_ok ws a) as (a' & E & L' & W & _).
  - intros q x J. apply I in J. destruct J as (i & k & A & B & -> & _). lia.
  - intros q x y J J'. apply I in J. apply I in J'. destruct J as (i & k & A & B & -> & ->). destruct J' as (i' & k' & A' & B' & Q & ->).
    assert (i = i' /\ k = k') as [-> ->] by lia. reflexivity.
  - exists a'. split; [exact E|]. split; [exact L'|]. intros p Hp.
    assert (X : forall k, (k < 3)%nat -> xyz 3 a' p k = r2_point radius rs p k).
    { intros k Hk. assert (G := W (Z.of_nat (3 * p + k)) (r2_point radius rs p k)).
      assert (G' : aget a' (Z.of_nat (3 * p + k)) = Ok (r2_point radius rs p k)) by (apply G; apply I; exists p, k; auto).
      apply aget_Ok_inv in G'. destruct G' as [_ G']. rewrite Nat2Z.id in G'. unfold xyz. apply nth_error_nth. exact G'. }
    assert (NX : norm 3 (xyz 3 a' p) = radius * rs (3 * p + 2)%nat).
    { unfold norm. rewrite (dot_ext 3 _ (r2_point radius rs p) _ (r2_point radius rs p) X X). unfold dot. cbn [sumf].
      unfold r2_point. set (c := 2 * rs (3 * p + 1)%nat - 1). set (phi := 2 * PI * rs (3 * p)%nat). set (u := radius * rs (3 * p + 2)%nat).
      assert (Cc : cos (acos c) = c) by (apply cos_acos; destruct (H (3 * p + 1)%nat); unfold c; lra).
      assert (T := sin2_cos2 (acos c)). assert (T' := sin2_cos2 phi). unfold Rsqr in T, T'. rewrite Cc in T.
      set (s := sin (acos c)) in *. set (sp := sin phi) in *. set (cp := cos phi) in *.
      replace (0 + u * s * cp * (u * s * cp) + u * s * sp * (u * s * sp) + u * c * (u * c)) with (u * u * (s * s * (sp * sp + cp * cp) + c * c)) by ring.
      rewrite T', Rmult_1_r, T, Rmult_1_r. apply sqrt_square. unfold u. destruct (H (3 * p + 2)%nat). nra. }
    rewrite NX. destruct (H (3 * p + 2)%nat). split; [nra|]. intros x. split; intros; nra.
Qed.
(** ... about the origin only, and with writes behind the array in fewer dimensions. *)
Theorem C84_r2_centre_refuted : let c : vec := fun k => match k with 0%nat => 10 | _ => 0 end in
  exists a', Addr2Sphere 3 1 c 1 (fun _ => 1 / 2) [0; 0; 0] = Ok a' /\ 1 < norm 3 (vsub (xyz 3 a' 0) c).
Proof.
  intros c. exists [r2_point 1 (fun _ => 1 / 2) 0 0%nat; r2_point 1 (fun _ => 1 / 2) 0 1%nat; r2_point 1 (fun _ => 1 / 2) 0 2%nat]. split; [reflexivity|].
  apply Rnot_le_lt. intros G. apply norm_le_iff in G; [|lra].
  assert (A := sumf_term_le 3 (fun j => vsub (xyz 3 [r2_point 1 (fun _ => 1 / 2) 0 0%nat; r2_point 1 (fun _ => 1 / 2) 0 1%nat; r2_point 1 (fun _ => 1 / 2) 0 2%nat] 0) c j *
    vsub (xyz 3 [r2_point 1 (fun _ => 1 / 2) 0 0%nat; r2_point 1 (fun _ => 1 / 2) 0 1%nat; r2_point 1 (fun _ => 1 / 2) 0 2%nat] 0) c j) 0%nat ltac:(intros; nra) ltac:(lia)).
  cbv beta in A. unfold dot in G. assert (B := Rle_trans _ _ _ A G). clear A G. unfold vsub, xyz, c in B. cbn [nth Nat.mul Nat.add] in B.
  set (v := r2_point 1 (fun _ => 1 / 2) 0 0%nat) in *.
  assert (V : v <= 1). { unfold v, r2_point. assert (S := SIN_bound (acos (2 * (1 / 2) - 1))). assert (C := COS_bound (2 * PI * (1 / 2))). nra. }
  nra.
Qed.
Lemma store_UB ws : forall a, (exists i x, In (i, x) ws /\ (zlen a <= i)%Z) -> store ws a = UB.
Proof.
  induction ws as [|[i x] l IH]; intros a (j & y & I & G); [destruct I|]. cbn [store]. unfold aset.
  destruct ((i <? 0) || (Z.of_nat (length a) <=? i))%Z%bool eqn:E; [reflexivity|]. cbn [bind]. apply IH. destruct I as [I|I].
  - injection I; intros; subst. apply orb_false_iff in E. unfold zlen in G. lia.
  - exists j, y. rewrite zlen_upd. auto.
Qed.
Theorem C84_r2_plane_refuted ndim Npart rcentre radius rs a : (1 <= ndim < 3)%nat -> (1 <= Npart)%nat -> zlen a = (Z.of_nat ndim * Z.of_nat Npart)%Z ->
  Addr2Sphere ndim Npart rcentre radius rs a = UB.
Proof.
  intros D P L. apply store_UB. exists (Z.of_nat (ndim * (Npart - 1) + 2)), (r2_point radius rs (Npart - 1) 2%nat). split.
  - apply in_flat_map. exists (Npart - 1)%nat. rewrite in_seq. split; [lia|]. apply in_map_iff. exists 2%nat. rewrite in_seq. split; [reflexivity|lia].
  - rewrite L. nia.
Qed.

(** *** The hypotheses can be met. *)
Example C84_cubic_example : exists a', AddCubicLattice 3 (fun k => Z.of_nat k + 2)%Z (fun _ => 0) (fun _ => 1) false (repeat 0 72) = Ok a' /\
  tiles 3 24 (xyz 3 a') (fun k => (1 - 0) / IZR (Z.of_nat k + 2)) (fun _ => 0) (fun _ => 1).
Proof.
  destruct (C84_cubic 3 (fun k => Z.of_nat k + 2)%Z (fun _ => 0) (fun _ => 1) (repeat 0 72)) as (a' & E & _ & T); [lia|intros; lia|intros; lra|reflexivity|].
  exists a'. split; [exact E|exact T].
Qed.
Example C84_hexagonal_example : exists a', AddHexagonalLattice 2 (fun _ => 2%Z) (fun _ => 0) (fun _ => 4) true (repeat 0 8) = Ok a' /\
  2 * 2 <= dist2 2 (xyz 2 a' 0) (xyz 2 a' 3).
Proof.
  destruct (C84_hexagonal 2 (fun _ => 2%Z) (fun _ => 0) (fun _ => 4) (repeat 0 8)) as (a' & E & _ & T); [lia|intros; lia|reflexivity|].
  exists a'. split; [exact E|]. assert (X := T 0%nat 3%nat ltac:(cbn; lia) ltac:(cbn; lia) ltac:(lia)). cbv zeta in X. lra.
Qed.
Example C84_touching_example : exists a', AddHexagonalLattice 3 (fun _ => 3%Z) (fun _ => 0) (fun _ => 1) true (repeat 0 81) = Ok a' /\
  exists l, NoDup l /\ length l = 12%nat /\ forall q, In q l <-> (q < 27)%nat /\ dist2 3 (xyz 3 a' 13) (xyz 3 a' q) = (1 - 0) / 3 * ((1 - 0) / 3).
Proof. apply (C84_hexagonal_touching (fun _ => 3%Z) (fun _ => 0) (fun _ => 1) (repeat 0 81) 1 1 1); try lia; try lra. reflexivity. Qed.
(** Three particles on a line: two about the centre are kept when two are wanted. *)
Example C84_cut_example : exists fuel M out, CutSphere fuel 1 2 (fun _ => -2) (fun _ => 2) [(fun _ => -1); (fun _ => 1 / 2); (fun _ => 3 / 2)] = Ok (M, out).
Proof.
  apply C84_cut_ends; [intros; lra|lia|]. intros n H. rewrite (nw_fun _ _ _ _ _ 0%Z H); [lia|].
  assert (X : forall (x : R), x <> 0 -> 0 < norm 1 (vsub (fun _ => x) (fun _ => (-2 + 2) / 2))).
  { intros x Hx. apply Rnot_le_lt. intros G. apply norm_le_iff in G; [|lra]. unfold dot, vsub in G. cbn [sumf] in G. nra. }
  apply nw_out; [apply X; lra|]. apply nw_out; [apply X; lra|]. apply nw_out; [apply X; lra|]. constructor.
Qed.
Example C84_r2_example : exists a', Addr2Sphere 3 2 (fun _ => 0) 5 (fun _ => 1 / 2) (repeat 0 6) = Ok a' /\ norm 3 (xyz 3 a' 1) <= 1 / 2 * 5.
Proof.
  destruct (C84_r2 2 (fun _ => 0) 5 (fun _ => 1 / 2) (repeat 0 6)) as (a' & E & _ & X); [intros; lra|lra|reflexivity|].
  exists a'. split; [exact E|]. apply (X 1%nat ltac:(lia)). lra.
Qed.
Example C84_sphere_example : exists fuel M out, AddLatticeSphere fuel 3 1 3 (fun _ => 0) 1 true 0 0 0 (repeat 0 81) = Ok (M, out) /\ (M <= 1)%Z.
Proof.
  destruct (C84_sphere 3 1 3 (fun _ => 0) 1 true 0 0 0 (repeat 0 81)) as [(f & M & out & E) H]; try lia; try lra; [reflexivity|].
  exists f, M, out. split; [exact E|]. apply (H _ _ _ E).
Qed.

Print Assumptions C84_cubic.
Print Assumptions C84_cubic_normalised.
Print Assumptions C84_cubic_outside_refuted.
Print Assumptions C84_hexagonal.
Print Assumptions C84_hexagonal_touching.
Print Assumptions C84_hexagonal_plane.
Print Assumptions C84_hexagonal_outside_refuted.
Print Assumptions C84_hexagonal_line_refuted.
Print Assumptions C84_hexagonal_gap_refuted.
Print Assumptions C84_cut.
Print Assumptions C84_cut_ends.
Print Assumptions C84_cut_hangs_refuted.
Print Assumptions C84_cut_centre_refuted.
Print Assumptions C84_sphere.
Print Assumptions C84_random_box.
Print Assumptions C84_evrard.
Print Assumptions C84_evrard_refuted.
Print Assumptions C84_r2.
Print Assumptions C84_r2_centre_refuted.
Print Assumptions C84_r2_plane_refuted.
