From Coq Require Import Reals Lra Lia Psatz.
From Verif Require Import Prelude L_Prelude Vec M_Box L_Box M_Matrix L_Matrix M_Lattice S_Lattice L_Lattice L_Lattice2.
Local Open Scope R_scope.

Lemma norm_le_iff n v r : 0 <= r -> (norm n v <= r <-> dot n v v <= r * r).
Proof.
  intros H. assert (P := dot_nonneg n v). unfold norm. split; intros E.
  - rewrite <- (sqrt_sqrt (dot n v v) P). assert (0 <= sqrt (dot n v v)) by apply sqrt_pos. nra.
  - rewrite <- (sqrt_square r H). apply sqrt_le_1_alt. exact E.
Qed.
Lemma within_true n c r p : 0 <= r -> within n c r p = true <-> norm n (vsub p c) <= r.
Proof. intros H. unfold within. rewrite (norm_le_iff n _ r H). split; intros E; [apply rleb_true in E; exact E|apply rleb_true; exact E]. Qed.
Lemma within_false n c r p : 0 <= r -> within n c r p = false -> r < norm n (vsub p c).
Proof. intros H E. apply Rnot_le_lt. intros G. apply (within_true n c r p H) in G. congruence. Qed.
Lemma interior_nw n c r l : 0 <= r -> number_within n c r l (interior n c l r).
Proof.
  intros H. unfold interior. induction l as [|p l IH]; cbn [filter]; [constructor|].
  destruct (within n c r p) eqn:E.
  - unfold zlen in *. cbn [length]. rewrite Nat2Z.inj_succ, <- Z.add_1_r. apply nw_in; [apply within_true; assumption|exact IH].
  - apply nw_out; [apply within_false; assumption|exact IH].
Qed.
Lemma nw_fun n c r l : forall a b, number_within n c r l a -> number_within n c r l b -> a = b.
Proof.
  induction l as [|p l IH]; intros a b A B; inversion A; inversion B; subst; try reflexivity; try lra; [f_equal|]; auto.
Qed.
Lemma interior_mono n c l r r' : 0 <= r <= r' -> (interior n c l r <= interior n c l r')%Z.
Proof.
  intros H. unfold interior, zlen. apply inj_le. induction l as [|p l IH]; cbn [filter]; [lia|].
  destruct (within n c r p) eqn:E; destruct (within n c r' p) eqn:F; cbn [length]; try lia.
  apply (within_true n c r p) in E; [|lra]. apply within_false in F; [|lra]. lra.
Qed.
Lemma interior_in n c l r : 0 <= r -> (0 < interior n c l r)%Z -> exists p, In p l /\ norm n (vsub p c) <= r.
Proof.
  intros H P. unfold interior, zlen in P. destruct (filter (within n c r) l) as [|p m] eqn:E; [cbn in P; lia|].
  exists p. assert (I : In p (filter (within n c r) l)) by (rewrite E; left; reflexivity). apply filter_In in I. destruct I as [I W].
  split; [exact I|]. apply within_true; assumption.
Qed.
Lemma rmax_list (l : list R) : l <> [] -> exists m, In m l /\ forall x, In x l -> x <= m.
Proof.
  induction l as [|a l IH]; [congruence|]. intros _. destruct l as [|b l].
  - exists a. split; [left; reflexivity|]. intros x [<-|[]]. lra.
  - destruct IH as (m & I & M); [congruence|]. destruct (Rle_lt_dec a m).
    + exists m. split; [right; exact I|]. intros x [<-|J]; [exact r|apply M; exact J].
    + exists a. split; [left; reflexivity|]. intros x [<-|J]; [lra|]. specialize (M x J). lra.
Qed.
(** A radius with more than [Ns] points inside can be shrunk to the distance of one of them. *)
Lemma interior_jump n c l r : 0 <= r -> (0 < interior n c l r)%Z ->
  exists p, In p l /\ norm n (vsub p c) <= r /\ interior n c l (norm n (vsub p c)) = interior n c l r.
Proof.
  intros H P. set (ds := map (fun p => norm n (vsub p c)) (filter (within n c r) l)).
  destruct (rmax_list ds) as (m & I & M).
  - destruct (interior_in n c l r H P) as (p & J & W). intros E. unfold ds in E. apply map_eq_nil in E.
    assert (X : In p (filter (within n c r) l)) by (apply filter_In; split; [exact J|apply within_true; assumption]). rewrite E in X. destruct X.
  - apply in_map_iff in I. destruct I as (p & <- & I). apply filter_In in I. destruct I as [I W].
    apply (within_true n c r p H) in W. exists p. split; [exact I|]. split; [exact W|].
    assert (N0 : 0 <= norm n (vsub p c)) by apply sqrt_pos.
    apply Z.le_antisymm; [apply interior_mono; lra|].
    unfold interior, zlen. apply inj_le.
    replace (filter (within n c r) l) with (filter (within n c (norm n (vsub p c))) l); [lia|].
    apply filter_ext_in. intros q J. destruct (within n c r q) eqn:E.
    + apply within_true; [exact N0|]. apply M. apply in_map_iff. exists q. split; [reflexivity|]. apply filter_In. split; assumption.
    + destruct (within n c (norm n (vsub p c)) q) eqn:F; [|reflexivity]. apply (within_true n c _ q N0) in F. apply within_false in E; [|exact H]. lra.
Qed.
Lemma threshold n c l Ns hi : 0 < hi -> (0 <= Ns)%Z -> (interior n c l 0 <= Ns)%Z ->
  exists T, 0 < T /\ (forall r, 0 <= r < T -> (interior n c l r <= Ns)%Z) /\ (forall r, T <= r <= hi -> (Ns < interior n c l r)%Z).
Proof.
  intros Hh HN H0.
  set (ds := map (fun p => - norm n (vsub p c)) (filter (fun p => (Ns <? interior n c l (norm n (vsub p c)))%Z) l)).
  destruct ds as [|d ds'] eqn:E.
  - exists (hi + 1). split; [lra|]. split; [|intros; lra]. intros r Hr. apply Z.nlt_ge. intros G.
    destruct (interior_jump n c l r) as (p & I & W & J); [lra|lia|].
    assert (X : In p (filter (fun p => (Ns <? interior n c l (norm n (vsub p c)))%Z) l)) by (apply filter_In; split; [exact I|apply Z.ltb_lt; lia]).
    apply (in_map (fun p => - norm n (vsub p c))) in X. fold ds in X. rewrite E in X. destruct X.
  - destruct (rmax_list ds) as (m & I & M); [congruence|]. apply in_map_iff in I. destruct I as (p & <- & I).
    apply filter_In in I. destruct I as [I G]. apply Z.ltb_lt in G.
    assert (N0 : 0 <= norm n (vsub p c)) by apply sqrt_pos.
    exists (norm n (vsub p c)). split; [|split].
    + destruct N0 as [N0|N0]; [exact N0|]. rewrite <- N0 in G. lia.
    + intros r Hr. apply Z.nlt_ge. intros G'. destruct (interior_jump n c l r) as (q & I' & W & J); [lra|lia|].
      assert (X : In (- norm n (vsub q c)) ds).
      { unfold ds. apply in_map_iff. exists q. split; [reflexivity|]. apply filter_In. split; [exact I'|apply Z.ltb_lt; lia]. }
      specialize (M _ X). lra.
    + intros r Hr. assert (Q := interior_mono n c l (norm n (vsub p c)) r ltac:(lra)). lia.
Qed.

(** *** The bisection. *)
Lemma bisect_small lo hi T radius : 0 <= lo < hi -> radius = 1 / 2 * (lo + hi) -> 0 < T <= hi -> hi - lo < 1 / 10 ^ 8 * T / 2 -> Rabs (hi - lo) / radius < 1 / 10 ^ 8.
Proof.
  intros A -> B C. rewrite Rabs_right by lra. apply (Rmult_lt_reg_r (1 / 2 * (lo + hi))); [lra|].
  unfold Rdiv at 1. rewrite Rmult_assoc, Rinv_l, Rmult_1_r by lra. assert (0 < 1 / 10 ^ 8) by lra. nra.
Qed.
Lemma bisect_phase2 count Ns T T' : 0 < T' ->
  (forall r, 0 <= r < T -> (count r <= Ns)%Z) -> forall hi0, (forall r, T <= r <= hi0 -> (Ns < count r)%Z) -> T' <= T ->
  forall m lo hi, 0 <= lo < hi -> hi <= hi0 -> lo < T -> T' <= hi -> hi - lo < 1 / 10 ^ 8 * T' / 2 -> hi - lo < (T - lo) * 2 ^ m ->
  exists r, bisect (S m) count Ns lo hi = Ok r.
Proof.
  intros P A hi0 B TT m. induction m as [|m IH]; intros lo hi H Hh HT H' W X.
  - cbn [bisect]. set (radius := 1 / 2 * (lo + hi)). assert (R : radius < T) by (unfold radius; change (2 ^ 0) with 1 in X; lra).
    assert (C : (count radius <= Ns)%Z) by (apply A; unfold radius in *; lra).
    assert (Q := bisect_small lo hi T' radius H eq_refl ltac:(lra) W).
    destruct (Z.ltb_spec (count radius) Ns) as [L|L].
    + rewrite (proj2 (rltb_true _ _) Q). cbn [andb]. eauto.
    + cbn [andb]. rewrite (proj2 (Z.eqb_eq _ _)) by lia. eauto.
  - remember (S m) as f eqn:Ef. cbn [bisect]. set (radius := 1 / 2 * (lo + hi)). destruct (Rlt_le_dec radius T) as [R|R].
    + assert (C : (count radius <= Ns)%Z) by (apply A; unfold radius in *; lra).
      assert (Q := bisect_small lo hi T' radius H eq_refl ltac:(lra) W).
      destruct (Z.ltb_spec (count radius) Ns) as [L|L].
      * rewrite (proj2 (rltb_true _ _) Q). cbn [andb]. eauto.
      * cbn [andb]. rewrite (proj2 (Z.eqb_eq _ _)) by lia. eauto.
    + assert (C : (Ns < count radius)%Z) by (apply B; unfold radius in *; lra).
      rewrite (proj2 (Z.ltb_ge _ _)) by lia. cbn [andb]. rewrite (proj2 (Z.eqb_neq _ _)) by lia.
      rewrite Z.gtb_ltb, (proj2 (Z.ltb_lt _ _)) by lia. subst f. apply IH; unfold radius in *; try lra. change (2 ^ S m) with (2 * 2 ^ m) in X. lra.
Qed.
Lemma bisect_phase1 count Ns T T' : 0 < T' ->
  (forall r, 0 <= r < T -> (count r <= Ns)%Z) -> forall hi0, (forall r, T <= r <= hi0 -> (Ns < count r)%Z) -> T' <= T ->
  forall n lo hi, 0 <= lo < hi -> hi <= hi0 -> lo < T -> T' <= hi -> hi - lo < 1 / 10 ^ 8 * T' / 2 * 2 ^ n ->
  exists f r, bisect f count Ns lo hi = Ok r.
Proof.
  intros P A hi0 B TT n. induction n as [|n IH]; intros lo hi H Hh HT H' W.
  - change (2 ^ 0) with 1 in W. destruct (Pow_x_infinity 2 ltac:(rewrite Rabs_right; lra) ((hi - lo) / (T - lo) + 1)) as [m M].
    specialize (M m (le_n m)). rewrite Rabs_right in M by (apply Rle_ge, pow_le; lra).
    destruct (bisect_phase2 count Ns T T' P A hi0 B TT m lo hi H Hh HT H' ltac:(lra)) as [r E].
    + apply (Rmult_lt_reg_r (/ (T - lo))); [apply Rinv_0_lt_compat; lra|]. rewrite (Rmult_comm (T - lo)), Rmult_assoc, Rinv_r by lra.
      unfold Rdiv in M. lra.
    + eauto.
  - set (radius := 1 / 2 * (lo + hi)).
    assert (S : exists f r, (if (count radius =? Ns)%Z then Ok radius else bisect f count Ns (if (count radius <? Ns)%Z then radius else lo) (if (count radius >? Ns)%Z then radius else hi)) = Ok r).
    { destruct (Z.eqb_spec (count radius) Ns) as [E|E]; [exists 0%nat; eauto|]. rewrite Z.gtb_ltb. change (2 ^ S n) with (2 * 2 ^ n) in W.
      destruct (Z.ltb_spec (count radius) Ns) as [L|L].
      - rewrite (proj2 (Z.ltb_ge _ _)) by lia. assert (radius < T).
        { apply Rnot_le_lt. intros G. assert (X := B radius ltac:(unfold radius in *; lra)). lia. }
        apply IH; unfold radius in *; lra.
      - rewrite (proj2 (Z.ltb_lt _ _)) by lia. assert (T <= radius).
        { apply Rnot_lt_le. intros G. assert (X := A radius ltac:(unfold radius in *; lra)). lia. }
        apply IH; unfold radius in *; lra. }
    destruct S as (f & r & E). exists (S f). cbn [bisect]. fold radius.
    destruct ((count radius <? Ns)%Z && rltb (Rabs (hi - lo) / radius) (1 / 10 ^ 8))%bool; eauto.
Qed.
Lemma bisect_ends n c l Ns hi : 0 < hi -> (0 <= Ns)%Z -> (interior n c l 0 <= Ns)%Z -> exists f r, bisect f (interior n c l) Ns 0 hi = Ok r.
Proof.
  intros Hh HN H0. destruct (threshold n c l Ns hi Hh HN H0) as (T & PT & A & B).
  set (T' := Rmin T hi). assert (PT' : 0 < T') by (unfold T'; apply Rmin_glb_lt; assumption).
  destruct (Pow_x_infinity 2 ltac:(rewrite Rabs_right; lra) (hi / (1 / 10 ^ 8 * T' / 2) + 1)) as [m M].
  specialize (M m (le_n m)). rewrite Rabs_right in M by (apply Rle_ge, pow_le; lra).
  apply (bisect_phase1 (interior n c l) Ns T T' PT' A hi B (Rmin_l T hi) m); try lra. apply Rmin_r.
  assert (Q : 0 < 1 / 10 ^ 8 * T' / 2) by (assert (0 < 1 / 10 ^ 8) by lra; nra). set (w := 1 / 10 ^ 8 * T' / 2) in *.
  apply (Rmult_lt_reg_r (/ w)); [apply Rinv_0_lt_compat; lra|]. rewrite (Rmult_comm w), Rmult_assoc, Rinv_r by lra. unfold Rdiv in M. lra.
Qed.
Lemma bisect_result f count Ns : forall lo hi r, 0 <= lo < hi -> bisect f count Ns lo hi = Ok r ->
  lo < r < hi /\ (count r = Ns \/ ((count r < Ns)%Z /\ exists h, r < h <= hi /\ h < r * (1 + 1 / 10 ^ 8) /\ (h = hi \/ (Ns < count h)%Z))).
Proof.
  induction f as [|f IH]; intros lo hi r H E; [discriminate|]. cbn [bisect] in E. set (radius := 1 / 2 * (lo + hi)) in *.
  assert (R : lo < radius < hi) by (unfold radius; lra).
  destruct ((count radius <? Ns)%Z && rltb (Rabs (hi - lo) / radius) (1 / 10 ^ 8))%bool eqn:G.
  - injection E as <-. split; [exact R|]. right. apply andb_true_iff in G. destruct G as [G1 G2]. split; [lia|].
    apply rltb_true in G2. rewrite Rabs_right in G2 by lra. exists hi. split; [lra|]. split; [|left; reflexivity].
    apply (Rmult_lt_compat_r radius) in G2; [|lra]. unfold Rdiv in G2 at 1. rewrite Rmult_assoc, Rinv_l, Rmult_1_r in G2 by lra.
    unfold radius in *. lra.
  - destruct (Z.eqb_spec (count radius) Ns) as [Q|Q].
    + injection E as <-. split; [exact R|]. left. exact Q.
    + rewrite Z.gtb_ltb in E. destruct (Z.ltb_spec (count radius) Ns) as [L|L].
      * rewrite (proj2 (Z.ltb_ge _ _)) in E by lia. assert (Hb : 0 <= radius < hi) by lra. destruct (IH _ _ _ Hb E) as [A [B|(B & h & C & D & F)]]; (split; [lra|]); [left; exact B|].
        right. split; [exact B|]. exists h. auto.
      * rewrite (proj2 (Z.ltb_lt _ _)) in E by lia. assert (Hb : 0 <= lo < radius) by lra. destruct (IH _ _ _ Hb E) as [A [B|(B & h & C & D & F)]]; (split; [lra|]); [left; exact B|].
        right. split; [exact B|]. exists h. split; [lra|]. split; [exact D|]. right. destruct F as [->|F]; [lia|exact F].
Qed.

(** *** Packing. *)
Lemma pack_ok n c radius : 0 <= radius -> forall rest dn junk,
  exists l' a', pack (length rest) n c radius (zlen dn + zlen junk) (zlen dn) (dn ++ junk ++ rest) = Ok (zlen dn + zlen l', a')%Z /\
    cut_out n c radius rest l' /\ firstn (length dn + length l') a' = dn ++ l' /\ length a' = length (dn ++ junk ++ rest).
Proof.
  intros H rest. induction rest as [|p rest IH]; intros dn junk.
  - exists [], (dn ++ junk ++ []). cbn [length pack]. split; [f_equal; f_equal; unfold zlen; cbn [length]; lia|]. split; [constructor|].
    split; [|reflexivity]. rewrite app_nil_r, Nat.add_0_r, firstn_app, Nat.sub_diag, firstn_all. cbn [firstn]. reflexivity.
  - cbn [length pack]. replace (dn ++ junk ++ p :: rest) with ((dn ++ junk) ++ p :: rest) by (rewrite app_assoc; reflexivity).
    rewrite aget_app_mid by (unfold zlen; rewrite app_length; lia). cbn [bind].
    destruct (within n c radius p) eqn:W.
    + set (q := (fun k => p k / radius) : vec).
      assert (X : exists junk', (dn ++ junk) ++ p :: rest = dn ++ hd p junk :: junk' ++ rest /\ zlen junk' = zlen junk).
      { destruct junk as [|x j].
        - exists []. rewrite app_nil_r. split; reflexivity.
        - exists (j ++ [p]). cbn [hd]. rewrite <- !app_assoc. cbn. split; [reflexivity|]. unfold zlen. rewrite app_length. cbn. lia. }
      destruct X as (junk' & X & Z). rewrite X. rewrite aset_app_mid by reflexivity. cbn [bind].
      destruct (IH (dn ++ [q]) junk') as (l' & a' & E & C & F & L).
      exists (q :: l'), a'.
      replace (zlen dn + zlen junk + 1)%Z with (zlen (dn ++ [q]) + zlen junk')%Z by (unfold zlen in *; rewrite app_length; cbn [length]; lia).
      replace (zlen dn + 1)%Z with (zlen (dn ++ [q])) by (unfold zlen in *; rewrite app_length; cbn [length]; lia).
      replace (dn ++ q :: junk' ++ rest) with ((dn ++ [q]) ++ junk' ++ rest) by (rewrite <- app_assoc; reflexivity).
      rewrite E. split; [f_equal; f_equal; unfold zlen; rewrite app_length; cbn [length]; lia|]. split; [apply co_in; [apply within_true; assumption|exact C]|].
      split.
      * rewrite app_length in F. cbn [length] in F. replace (length dn + length (q :: l'))%nat with (length dn + 1 + length l')%nat by (cbn [length]; lia).
        rewrite F, <- app_assoc. reflexivity.
      * rewrite L. rewrite <- X in *. apply (f_equal (@length vec)) in X. rewrite !app_length in *. cbn [length] in *. rewrite !app_length in *. unfold zlen in Z. lia.
    + destruct (IH dn (junk ++ [p])) as (l' & a' & E & C & F & L). exists l', a'.
      replace (zlen dn + zlen junk + 1)%Z with (zlen dn + zlen (junk ++ [p]))%Z by (unfold zlen; rewrite app_length; cbn [length]; lia).
      replace ((dn ++ junk) ++ p :: rest) with (dn ++ (junk ++ [p]) ++ rest) by (rewrite <- !app_assoc; reflexivity).
      split; [exact E|]. split; [apply co_out; [apply within_false; assumption|exact C]|]. split; [exact F|]. rewrite L. reflexivity.
Qed.
Lemma cut_out_number n c r l l' : cut_out n c r l l' -> number_within n c r l (zlen l').
Proof.
  induction 1; [constructor| |apply nw_out; assumption].
  unfold zlen in *. cbn [length]. rewrite Nat2Z.inj_succ, <- Z.add_1_r. apply nw_in; assumption.
Qed.
Lemma half_edge_pos n bmin bmax : (forall k, (k < n)%nat -> bmin k < bmax k) -> 0 < half_edge n bmin bmax.
Proof.
  induction n; intros H; cbn [half_edge]. unfold big_number; lra.
  apply Rmin_glb_lt; [apply IHn; auto|]. specialize (H n ltac:(auto)). lra.
Qed.
Lemma half_edge_le n bmin bmax k : (k < n)%nat -> half_edge n bmin bmax <= (bmax k - bmin k) / 2.
Proof.
  induction n; intros H; [lia|]. cbn [half_edge]. destruct (Nat.eq_dec k n) as [->|].
  - eapply Rle_trans; [apply Rmin_r|lra].
  - eapply Rle_trans; [apply Rmin_l|apply IHn; lia].
Qed.
Lemma half_edge_big n bmin bmax : half_edge n bmin bmax <= big_number.
Proof. induction n; cbn [half_edge]; [lra|]. eapply Rle_trans; [apply Rmin_l|exact IHn]. Qed.
Lemma half_edge_glb n bmin bmax r : r <= big_number -> (forall k, (k < n)%nat -> r <= (bmax k - bmin k) / 2) -> r <= half_edge n bmin bmax.
Proof.
  intros B. induction n; intros H; cbn [half_edge]; [exact B|]. apply Rmin_glb; [apply IHn; auto|]. specialize (H n ltac:(auto)). lra.
Qed.
Lemma cut_result fuel n Ns bmin bmax a M out : (forall k, (k < n)%nat -> bmin k < bmax k) -> CutSphere fuel n Ns bmin bmax a = Ok (M, out) ->
  exists radius l', 0 < radius < half_edge n bmin bmax /\ cut_out n (box_centre bmin bmax) radius a l' /\ M = zlen l' /\ firstn (Z.to_nat M) out = l' /\
    M = interior n (box_centre bmin bmax) a radius /\
    (M = Ns \/ ((M < Ns)%Z /\ exists h, radius < h <= half_edge n bmin bmax /\ h < radius * (1 + 1 / 10 ^ 8) /\ (h = half_edge n bmin bmax \/ (Ns < interior n (box_centre bmin bmax) a h)%Z))).
Proof.
  intros P E. unfold CutSphere in E. destruct (bisect _ _ _ _ _) as [radius| | |] eqn:B; try discriminate. cbn [bind] in E.
  destruct (bisect_result _ _ _ _ _ _ (conj (Rle_refl 0) (half_edge_pos n bmin bmax P)) B) as [R Q].
  destruct (pack_ok n (box_centre bmin bmax) radius ltac:(lra) a [] []) as (l' & a' & E' & C & F & L).
  unfold zlen in E' at 1 2 3 4. cbn [length app] in E'. change (Z.of_nat 0 + Z.of_nat 0)%Z with 0%Z in E'. change (Z.of_nat 0) with 0%Z in E'.
  rewrite E in E'. injection E' as -> <-. exists radius, l'.
  assert (I : zlen l' = interior n (box_centre bmin bmax) a radius).
  { eapply nw_fun; [apply cut_out_number; exact C|apply interior_nw; lra]. }
  split; [exact R|]. split; [exact C|]. split; [lia|]. split.
  - replace (Z.to_nat (zlen l')) with (length l') by (unfold zlen; lia). exact F.
  - rewrite I. split; [reflexivity|exact Q].
Qed.

(** *** The sphere. *)
Lemma cut_out_in n c r l l' : cut_out n c r l l' -> forall q, In q l' -> exists p, In p l /\ norm n (vsub p c) <= r /\ q = fun k => p k / r.
Proof.
  induction 1; intros q I; [destruct I| |destruct (IHcut_out q I) as (x & J & K); exists x; split; [right; exact J|exact K]].
  destruct I as [<-|I]; [exists p; split; [left; reflexivity|auto]|].
  destruct (IHcut_out q I) as (x & J & K); exists x; split; [right; exact J|exact K].
Qed.
Lemma rotate_dot n th ph ps p : (1 <= n <= 3)%nat -> dot n (rotate n th ph ps p) (rotate n th ph ps p) = dot n p p.
Proof.
  intros H. assert (C : (n = 1 \/ n = 2 \/ n = 3)%nat) by lia. destruct C as [ -> |[ -> | -> ]].
  - reflexivity.
  - unfold dot. cbn [sumf rotate]. assert (T := sin2_cos2 th). unfold Rsqr in T.
    set (s := sin th) in *. set (c := cos th) in *. set (x := p 0%nat). set (y := p 1%nat).
    transitivity ((x * x + y * y) * (s * s + c * c)); [ring|rewrite T; ring].
  - apply Euler_dot.
Qed.
Lemma dot_zero n v : dot n v v <= 0 -> forall k, (k < n)%nat -> v k = 0.
Proof.
  intros H k Hk. assert (A := sumf_term_le n (fun j => v j * v j) k ltac:(intros; nra) Hk). cbv beta in A. unfold dot in H. nra.
Qed.
Lemma one_at_centre n c f m : (forall p q, (p < m)%nat -> (q < m)%nat -> (forall k, (k < n)%nat -> f p k = f q k) -> p = q) ->
  (interior n c (map f (seq 0 m)) 0 <= 1)%Z.
Proof.
  intros H. unfold interior, zlen.
  assert (X : forall l, NoDup l -> (forall p, In p l -> (p < m)%nat) -> (length (filter (within n c 0) (map f l)) <= 1)%nat).
  { induction l as [|p l IH]; intros D L; cbn [map filter]; [cbn; lia|]. inversion D; subst.
    destruct (within n c 0 (f p)) eqn:E; [|apply IH; [assumption|intros; apply L; right; assumption]].
    replace (filter (within n c 0) (map f l)) with (@nil vec); [cbn; lia|]. symmetry.
    destruct (filter (within n c 0) (map f l)) as [|v w] eqn:F; [reflexivity|]. exfalso.
    assert (I : In v (filter (within n c 0) (map f l))) by (rewrite F; left; reflexivity). apply filter_In in I. destruct I as [I W].
    apply in_map_iff in I. destruct I as (q & <- & I).
    assert (p = q); [|subst; contradiction]. apply H; [apply L; left; reflexivity|apply L; right; exact I|].
    unfold within in E, W. apply rleb_true in E. apply rleb_true in W. rewrite Rmult_0_l in E, W.
    intros k Hk. assert (A := dot_zero n _ E k Hk). assert (B := dot_zero n _ W k Hk). unfold vsub in A, B. lra. }
  assert (Y := X (seq 0 m) (seq_NoDup m 0) ltac:(intros p I; apply in_seq in I; lia)). lia.
Qed.
Lemma tiles_distinct n m pos s bmin bmax : tiles n m pos s bmin bmax -> (forall k, (k < n)%nat -> 0 < s k) ->
  forall p q, (p < m)%nat -> (q < m)%nat -> (forall k, (k < n)%nat -> pos p k = pos q k) -> p = q.
Proof.
  intros [A B] S p q Hp Hq E. destruct (A (pos p)) as (x & _ & U).
  - intros k Hk. destruct (B p k Hp Hk). specialize (S k Hk). lra.
  - assert (x = p). { apply U. split; [exact Hp|]. intros k Hk. specialize (S k Hk). lra. }
    assert (x = q). { apply U. split; [exact Hq|]. intros k Hk. specialize (S k Hk). rewrite (E k Hk). lra. } congruence.
Qed.
Lemma sites_const n Nl : (0 <= Nl)%Z -> Z.of_nat (sites n (fun _ => Nl)) = (Nl ^ Z.of_nat n)%Z.
Proof.
  intros H. induction n; [reflexivity|]. cbn [sites]. rewrite Nat2Z.inj_mul, IHn, Z2Nat.id by exact H.
  rewrite Nat2Z.inj_succ, Z.pow_succ_r by lia. ring.
Qed.
