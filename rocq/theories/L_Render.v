(** Proofs about rendered images. *)
From Verif Require Import Prelude L_Prelude M_Box L_Box M_Render S_Render.
From Coq Require Import Reals Lra Psatz Permutation.
Local Open Scope R_scope.

Lemma trunc_below r (i : Z) : (0 <= i)%Z -> (i < trunc r)%Z -> IZR i < r.
Proof.
  unfold trunc. intros Hi H. destruct (rltb r 0) eqn:E.
  - apply rltb_true in E. destruct (base_Int_part (- r)) as [_ B]. exfalso.
    assert (- 1 < IZR (Int_part (- r))) by lra. apply lt_IZR in H0. lia.
  - destruct (base_Int_part r) as [A _]. apply IZR_lt in H. lra.
Qed.
Lemma trunc_above r (i : Z) : (0 <= i)%Z -> (0 < i)%Z -> (trunc r < i)%Z -> r < IZR i.
Proof.
  unfold trunc. intros Hi H0 H. apply IZR_lt in H0. destruct (rltb r 0) eqn:E.
  - apply rltb_true in E. lra.
  - destruct (base_Int_part r) as [_ B]. assert (Int_part r + 1 <= i)%Z by lia. apply IZR_le in H1. rewrite plus_IZR in H1. lra.
Qed.
Lemma clamp_range n r : (0 < n)%Z -> (0 <= clamp n r < n)%Z.
Proof. unfold clamp. lia. Qed.
Lemma zseq_in lo hi k : In k (zseq lo hi) <-> (lo <= k <= hi)%Z.
Proof.
  unfold zseq. rewrite in_map_iff. split.
  - intros (x & <- & H). apply in_seq in H. lia.
  - intros H. exists (Z.to_nat (k - lo)). split; [lia|]. apply in_seq. lia.
Qed.
Lemma NoDup_map_inj {A B} (f : A -> B) l : (forall x y, f x = f y -> x = y) -> NoDup l -> NoDup (map f l).
Proof. intros H. induction 1 as [|x l Hx Hl IH]; cbn; constructor; auto. rewrite in_map_iff. intros (y & E & Hy). apply H in E. now subst. Qed.
Lemma zseq_NoDup lo hi : NoDup (zseq lo hi).
Proof. unfold zseq. apply NoDup_map_inj; [intros; lia|apply seq_NoDup]. Qed.
Lemma NoDup_app_disj {A} (l l' : list A) : NoDup l -> NoDup l' -> (forall x, In x l -> ~ In x l') -> NoDup (l ++ l').
Proof.
  induction 1 as [|x l Hx Hl IH]; intros H' D; cbn; [assumption|]. constructor.
  - rewrite in_app_iff. intros [K|K]; [contradiction|]. exact (D x (or_introl eq_refl) K).
  - apply IH; [assumption|]. intros y Hy. apply D. now right.
Qed.
Lemma list_prod_NoDup {A B} (l : list A) (l' : list B) : NoDup l -> NoDup l' -> NoDup (list_prod l l').
Proof.
  induction 1 as [|x l Hx Hl IH]; intros H'; cbn [list_prod]; [constructor|]. apply NoDup_app_disj; auto.
  - apply NoDup_map_inj; [congruence|assumption].
  - intros (a, b) H1 H2. apply in_map_iff in H1 as (y & [= <- <-] & _). apply in_prod_iff in H2 as [H2 _]. contradiction.
Qed.

Definition inside (ix iy : Z) (q : Z * Z) : Prop := (0 <= snd q < ix)%Z /\ (0 <= fst q < iy)%Z.
Lemma cell_range ix iy ii jj : (0 <= ii < ix)%Z -> (0 <= jj < iy)%Z -> (0 <= cell ix iy ii jj < ix * iy)%Z.
Proof. unfold cell. intros. nia. Qed.
Lemma cell_inj ix iy ii jj ii' jj' : (0 <= ii < ix)%Z -> (0 <= ii' < ix)%Z -> cell ix iy ii jj = cell ix iy ii' jj' -> ii = ii' /\ jj = jj'.
Proof.
  unfold cell. intros H H' E. assert (K : (ii - ii' = (jj - jj') * ix)%Z) by lia.
  destruct (Z.lt_trichotomy jj jj') as [L|[L|L]]; [nia| |nia]. subst. split; lia.
Qed.
Definition at0 (l : list R) (c : Z) : R := nth (Z.to_nat c) l 0.
Lemma at0_upd l c d x : (0 <= c < zlen l)%Z -> (0 <= d)%Z -> at0 (upd l (Z.to_nat c) x) d = if Z.eq_dec c d then x else at0 l d.
Proof.
  intros H Hd. unfold at0. destruct (Z.eq_dec c d) as [<-|N].
  - apply nth_error_nth. apply nth_error_upd_eq. unfold zlen in H. lia.
  - assert (E : nth_error (upd l (Z.to_nat c) x) (Z.to_nat d) = nth_error l (Z.to_nat d)) by (apply nth_error_upd_ne; lia).
    destruct (nth_error l (Z.to_nat d)) eqn:E2.
    + rewrite (nth_error_nth _ _ _ E), (nth_error_nth _ _ _ E2). reflexivity.
    + apply nth_error_None in E, E2. rewrite !nth_overflow; auto.
Qed.
Lemma aget_at0 l c : (0 <= c < zlen l)%Z -> aget l c = Ok (at0 l c).
Proof. intros H. apply aget_nth_error; [lia|]. unfold at0. apply nth_error_nth'. unfold zlen in H. lia. Qed.

Definition pair_dec (a b : Z * Z) : {a = b} + {a <> b}.
Proof. decide equality; apply Z.eq_dec. Defined.
Lemma draw_pixels_ok ix iy f w : forall l s, NoDup l -> Forall (inside ix iy) l -> zlen (fst s) = (ix * iy)%Z -> zlen (snd s) = (ix * iy)%Z ->
  exists s', draw_pixels ix iy f w l s = Ok s' /\ zlen (fst s') = (ix * iy)%Z /\ zlen (snd s') = (ix * iy)%Z /\
    forall ii jj, (0 <= ii < ix)%Z -> (0 <= jj < iy)%Z ->
      at0 (fst s') (cell ix iy ii jj) = at0 (fst s) (cell ix iy ii jj) + (if in_dec pair_dec (jj, ii) l then w ii jj * f else 0) /\
      at0 (snd s') (cell ix iy ii jj) = at0 (snd s) (cell ix iy ii jj) + (if in_dec pair_dec (jj, ii) l then w ii jj else 0).
Proof.
  induction l as [|[j i] l IH]; intros [vs ns] Hn Hf Hv Hs; cbn [draw_pixels fst snd] in *.
  - exists (vs, ns). cbn [fst snd]. repeat split; auto; destruct (in_dec pair_dec (jj, ii) []) as [[]|]; ring.
  - inversion Hn as [|? ? Hx Hl]; subst. inversion Hf as [|? ? [Hi Hj] Hf']; subst. cbn [fst snd] in Hi, Hj.
    pose proof (cell_range ix iy i j Hi Hj) as Hc.
    rewrite aget_at0 by lia. cbn [bind]. rewrite aset_in by lia. cbn [bind]. rewrite aget_at0 by lia. cbn [bind]. rewrite aset_in by lia. cbn [bind].
    destruct (IH (upd vs (Z.to_nat (cell ix iy i j)) (at0 vs (cell ix iy i j) + w i j * f), upd ns (Z.to_nat (cell ix iy i j)) (at0 ns (cell ix iy i j) + w i j))) as (s' & E & L1 & L2 & V);
      cbn [fst snd]; rewrite ?zlen_upd; auto.
    exists s'. repeat split; auto; destruct (V ii jj H H0) as [V1 V2]; cbn [fst snd] in V1, V2; rewrite ?V1, ?V2; rewrite at0_upd by (try lia; apply (cell_range ix iy ii jj); assumption).
    + destruct (Z.eq_dec (cell ix iy i j) (cell ix iy ii jj)) as [K|K].
      * apply cell_inj in K as [-> ->]; auto. destruct (in_dec pair_dec (jj, ii) l); [contradiction|]. destruct (in_dec pair_dec (jj, ii) ((jj, ii) :: l)) as [|Q]; [ring|]. exfalso. apply Q. now left.
      * destruct (in_dec pair_dec (jj, ii) l) as [Q|Q]; destruct (in_dec pair_dec (jj, ii) ((j, i) :: l)) as [Q2|Q2]; auto.
        -- exfalso. apply Q2. now right.
        -- exfalso. destruct Q2 as [[= -> ->]|Q2]; [now apply K|contradiction].
    + destruct (Z.eq_dec (cell ix iy i j) (cell ix iy ii jj)) as [K|K].
      * apply cell_inj in K as [-> ->]; auto. destruct (in_dec pair_dec (jj, ii) l); [contradiction|]. destruct (in_dec pair_dec (jj, ii) ((jj, ii) :: l)) as [|Q]; [ring|]. exfalso. apply Q. now left.
      * destruct (in_dec pair_dec (jj, ii) l) as [Q|Q]; destruct (in_dec pair_dec (jj, ii) ((j, i) :: l)) as [Q2|Q2]; auto.
        -- exfalso. apply Q2. now right.
        -- exfalso. destruct Q2 as [[= -> ->]|Q2]; [now apply K|contradiction].
Qed.

(** A pixel position outside the limits is further away than the range. *)
Lemma clamp_out n x hr xmin d (i : Z) : 0 < d -> (0 <= i < n)%Z ->
  ~ (clamp n ((x - hr - xmin) * (1 / d)) <= i <= clamp n ((x + hr - xmin) * (1 / d)))%Z -> hr <= Rabs (xmin + d * IZR i - x).
Proof.
  intros Hd Hi H. unfold clamp in H.
  destruct (Z.lt_ge_cases i (trunc ((x - hr - xmin) * (1 / d)))) as [A|A].
  - apply trunc_below in A; [|lia]. apply (Rmult_lt_compat_l d) in A; [|assumption]. replace (d * ((x - hr - xmin) * (1 / d))) with (x - hr - xmin) in A by (field; lra).
    unfold Rabs. destruct (Rcase_abs _); lra.
  - assert (B : (0 < i)%Z /\ (trunc ((x + hr - xmin) * (1 / d)) < i)%Z) by lia. destruct B as [B1 B2].
    apply trunc_above in B2; [|lia|lia]. apply (Rmult_lt_compat_l d) in B2; [|assumption]. replace (d * ((x + hr - xmin) * (1 / d))) with (x + hr - xmin) in B2 by (field; lra).
    unfold Rabs. destruct (Rcase_abs _); lra.
Qed.
Lemma root_ge a x : 0 <= x -> Rabs a <= sqrt (a * a + x).
Proof. intros H. rewrite <- sqrt_Rsqr_abs. apply sqrt_le_1_alt. unfold Rsqr. lra. Qed.

(** One particle drawn, with a weight that vanishes beyond the range. *)
Definition vanish (ix iy : Z) (kr xmin ymin dx dy : R) (w : Z -> Z -> R) (p : rpart) : Prop := forall ii jj,
  (0 <= ii < ix)%Z -> (0 <= jj < iy)%Z -> kr * r_h p <= Rabs (xmin + dx * IZR ii - r_x p) \/ kr * r_h p <= Rabs (ymin + dy * IZR jj - r_y p) -> w ii jj = 0.
Definition adds (ix iy : Z) (f : R) (w : Z -> Z -> R) (s s' : list R * list R) : Prop :=
  zlen (fst s') = (ix * iy)%Z /\ zlen (snd s') = (ix * iy)%Z /\
  forall ii jj, (0 <= ii < ix)%Z -> (0 <= jj < iy)%Z ->
      at0 (fst s') (cell ix iy ii jj) = at0 (fst s) (cell ix iy ii jj) + w ii jj * f /\
      at0 (snd s') (cell ix iy ii jj) = at0 (snd s) (cell ix iy ii jj) + w ii jj.
Lemma draw_ok ix iy kr xmin ymin dx dy w p s : (0 < ix)%Z -> (0 < iy)%Z -> 0 < dx -> 0 < dy -> vanish ix iy kr xmin ymin dx dy w p ->
  zlen (fst s) = (ix * iy)%Z -> zlen (snd s) = (ix * iy)%Z ->
  exists s', draw ix iy kr xmin ymin dx dy w p s = Ok s' /\ adds ix iy (r_f p) w s s'.
Proof.
  intros Hx Hy Hdx Hdy V L1 L2. unfold draw. cbv zeta.
  set (i0 := clamp ix _). set (i1 := clamp ix _). set (j0 := clamp iy _). set (j1 := clamp iy _).
  destruct (draw_pixels_ok ix iy (r_f p) w (list_prod (zseq j0 j1) (zseq i0 i1)) s) as (s' & E & A & B & C); auto.
  - apply list_prod_NoDup; apply zseq_NoDup.
  - apply Forall_forall. intros [j i] K. apply in_prod_iff in K as [K1 K2]. apply zseq_in in K1, K2. 
    pose proof (clamp_range ix ((r_x p - kr * r_h p - xmin) * (1 / dx)) Hx). pose proof (clamp_range ix ((r_x p + kr * r_h p - xmin) * (1 / dx)) Hx).
    pose proof (clamp_range iy ((r_y p - kr * r_h p - ymin) * (1 / dy)) Hy). pose proof (clamp_range iy ((r_y p + kr * r_h p - ymin) * (1 / dy)) Hy).
    fold i0 in H. fold i1 in H0. fold j0 in H1. fold j1 in H2. split; cbn [fst snd]; lia.
  - exists s'. split; [exact E|]. split; [exact A|]. split; [exact B|]. intros ii jj Hi Hj. destruct (C ii jj Hi Hj) as [C1 C2]. rewrite C1, C2.
    destruct (in_dec pair_dec (jj, ii) (list_prod (zseq j0 j1) (zseq i0 i1))) as [K|K]; [split; ring|].
    rewrite (V ii jj Hi Hj); [split; ring|].
    rewrite in_prod_iff, !zseq_in in K.
    destruct (Z_le_dec i0 ii) as [P1|P1]; [destruct (Z_le_dec ii i1) as [P2|P2]|]; [right|left|left].
    + apply (clamp_out iy); [assumption|assumption|]. fold j0 j1. intros Q. apply K. split; [exact Q|lia].
    + apply (clamp_out ix); [assumption|assumption|]. fold i0 i1. lia.
    + apply (clamp_out ix); [assumption|assumption|]. fold i0 i1. lia.
Qed.
(** All particles. *)
Lemma draw_all_ok ix iy skip one (w : rpart -> Z -> Z -> R) : forall ps s,
  (forall p s, In p ps -> skip p = false -> zlen (fst s) = (ix * iy)%Z -> zlen (snd s) = (ix * iy)%Z -> exists s', one p s = Ok s' /\ adds ix iy (r_f p) (w p) s s') ->
  (forall p ii jj, In p ps -> skip p = true -> (0 <= ii < ix)%Z -> (0 <= jj < iy)%Z -> w p ii jj = 0) ->
  zlen (fst s) = (ix * iy)%Z -> zlen (snd s) = (ix * iy)%Z ->
  exists s', draw_all skip one ps s = Ok s' /\ zlen (fst s') = (ix * iy)%Z /\ zlen (snd s') = (ix * iy)%Z /\
   forall ii jj, (0 <= ii < ix)%Z -> (0 <= jj < iy)%Z ->
      at0 (fst s') (cell ix iy ii jj) = at0 (fst s) (cell ix iy ii jj) + sum_over ps (fun p => w p ii jj * r_f p) /\
      at0 (snd s') (cell ix iy ii jj) = at0 (snd s) (cell ix iy ii jj) + sum_over ps (fun p => w p ii jj).
Proof.
  induction ps as [|p ps IH]; intros s H1 H2 L1 L2; cbn [draw_all sum_over].
  - exists s. repeat split; auto; ring.
  - destruct (skip p) eqn:E.
    + destruct (IH s) as (s' & A & B & C & D); auto. { intros; apply H1; auto; now right. } { intros; apply H2; auto; now right. }
      exists s'. split; [exact A|]. split; [exact B|]. split; [exact C|]. intros ii jj Hi Hj. destruct (D ii jj Hi Hj) as [D1 D2]. rewrite D1, D2, (H2 p ii jj (or_introl eq_refl) E Hi Hj). split; ring.
    + destruct (H1 p s (or_introl eq_refl) E L1 L2) as (s1 & E1 & M1 & M2 & M3). rewrite E1. cbn [bind].
      destruct (IH s1) as (s' & A & B & C & D); auto. { intros; apply H1; auto; now right. } { intros; apply H2; auto; now right. }
      exists s'. split; [exact A|]. split; [exact B|]. split; [exact C|]. intros ii jj Hi Hj. destruct (D ii jj Hi Hj) as [D1 D2]. destruct (M3 ii jj Hi Hj) as [N1 N2]. rewrite D1, D2, N1, N2. split; ring.
Qed.
Lemma finish_at s c : zlen (fst s) = zlen (snd s) -> (0 <= c < zlen (fst s))%Z -> at0 (finish s) c = normalise (at0 (fst s) c) (at0 (snd s) c).
Proof.
  intros H Hc. unfold at0, finish, zlen in *. apply nth_error_nth. apply map_nth_error with (f := fun vn => normalise (fst vn) (snd vn)) (d := (nth (Z.to_nat c) (fst s) 0, nth (Z.to_nat c) (snd s) 0)).
  rewrite <- combine_nth by lia. apply nth_error_nth'. rewrite combine_length. lia.
Qed.
Lemma finish_len s : zlen (fst s) = zlen (snd s) -> length (finish s) = length (fst s).
Proof. intros H. unfold finish, zlen in *. rewrite map_length, combine_length. lia. Qed.
Lemma at0_repeat n c : at0 (repeat 0 n) c = 0.
Proof. unfold at0. apply nth_repeat. Qed.

Lemma outside_far kr xmin xmax ymin ymax p ix iy ii jj : xmin < xmax -> ymin < ymax -> (0 <= ii < ix)%Z -> (0 <= jj < iy)%Z ->
  outside kr xmin xmax ymin ymax p = true ->
  kr * r_h p <= Rabs (xmin + (xmax - xmin) / IZR ix * IZR ii - r_x p) \/ kr * r_h p <= Rabs (ymin + (ymax - ymin) / IZR iy * IZR jj - r_y p).
Proof.
  intros Hx Hy Hi Hj H. unfold outside in H. rewrite !orb_true_iff in H.
  assert (P : forall a b n i, a < b -> (0 <= i < n)%Z -> a <= a + (b - a) / IZR n * IZR i <= b).
  { intros a b n i Hab [H1 H2]. assert (N : (0 < n)%Z) by lia. apply IZR_le in H1. apply IZR_lt in N, H2.
    assert (Q : (b - a) / IZR n * IZR i = (b - a) * (IZR i / IZR n)) by (field; lra). rewrite Q.
    assert (0 <= IZR i / IZR n <= 1). { split; [apply Rmult_le_pos; [lra|apply Rlt_le, Rinv_0_lt_compat; lra]|]. apply Rmult_le_reg_r with (IZR n); [lra|]. unfold Rdiv. rewrite Rmult_assoc, Rinv_l by lra. lra. }
    set (q := IZR i / IZR n) in *. split; [assert (0 <= (b - a) * q) by (apply Rmult_le_pos; lra); lra|].
    assert ((b - a) * q <= (b - a) * 1) by (apply Rmult_le_compat_l; lra). lra. }
  pose proof (P xmin xmax ix ii Hx Hi). pose proof (P ymin ymax iy jj Hy Hj).
  destruct H as [[[H|H]|H]|H]; apply rltb_true in H; [left|left|right|right]; unfold Rabs; destruct (Rcase_abs _); lra.
Qed.
Lemma frac_pos a b n : a < b -> (0 < n)%Z -> 0 < (b - a) / IZR n.
Proof. intros H1 H2. apply IZR_lt in H2. apply Rmult_lt_0_compat; [lra|]. apply Rinv_0_lt_compat. lra. Qed.

(** The image of either kind. *)
Lemma image_ok ix iy kr xmin xmax ymin ymax skip (w : rpart -> Z -> Z -> R) ps Ngrid :
  (0 < ix)%Z -> (0 < iy)%Z -> xmin < xmax -> ymin < ymax -> Z.of_nat Ngrid = (ix * iy)%Z ->
  let dx := (xmax - xmin) / IZR ix in let dy := (ymax - ymin) / IZR iy in
  (forall p, In p ps -> vanish ix iy kr xmin ymin dx dy (w p) p) ->
  (forall p ii jj, In p ps -> skip p = true -> (0 <= ii < ix)%Z -> (0 <= jj < iy)%Z -> w p ii jj = 0) ->
  exists s, draw_all skip (fun p => draw ix iy kr xmin ymin dx dy (w p) p) ps (repeat 0 Ngrid, repeat 0 Ngrid) = Ok s /\ length (finish s) = Ngrid /\
    forall ii jj, (0 <= ii < ix)%Z -> (0 <= jj < iy)%Z ->
      pixel ix iy (finish s) ii jj = normalise (sum_over ps (fun p => w p ii jj * r_f p)) (sum_over ps (fun p => w p ii jj)).
Proof.
  intros Hx Hy Hxx Hyy HN dx dy HV HS.
  destruct (draw_all_ok ix iy skip (fun p => draw ix iy kr xmin ymin dx dy (w p) p) w ps (repeat 0 Ngrid, repeat 0 Ngrid)) as (s & A & B & C & D).
  - intros p s Hp _ L1 L2. apply draw_ok; auto; apply frac_pos; assumption.
  - assumption.
  - cbn [fst]. unfold zlen. rewrite repeat_length. exact HN.
  - cbn [snd]. unfold zlen. rewrite repeat_length. exact HN.
  - exists s. split; [exact A|]. split; [rewrite finish_len by congruence; unfold zlen in B; lia|].
    intros ii jj Hi Hj. unfold pixel. fold (at0 (finish s) ((iy - 1 - jj) * ix + ii)).
    replace ((iy - 1 - jj) * ix + ii)%Z with (cell ix iy ii jj) by (unfold cell; ring).
    rewrite finish_at; [|congruence|rewrite B; apply cell_range; assumption].
    destruct (D ii jj Hi Hj) as [D1 D2]. rewrite D1, D2. cbn [fst snd]. rewrite !at0_repeat, !Rplus_0_l. reflexivity.
Qed.

(** Sums. *)
Lemma sum_over_ext l f g : (forall p, In p l -> f p = g p) -> sum_over l f = sum_over l g.
Proof. induction l as [|p l IH]; intros H; cbn [sum_over]; [reflexivity|]. rewrite (H p (or_introl eq_refl)), IH; [reflexivity|]. intros; apply H; now right. Qed.
Lemma sum_over_scal l f c : sum_over l (fun p => c * f p) = c * sum_over l f.
Proof. induction l as [|p l IH]; cbn [sum_over]; [ring|]. rewrite IH. ring. Qed.
Lemma sum_over_le l f g : (forall p, In p l -> f p <= g p) -> sum_over l f <= sum_over l g.
Proof. induction l as [|p l IH]; intros H; cbn [sum_over]; [lra|]. pose proof (H p (or_introl eq_refl)). specialize (IH (fun q Hq => H q (or_intror Hq))). lra. Qed.
Lemma sum_over_perm l l' f : Permutation l l' -> sum_over l f = sum_over l' f.
Proof. induction 1; cbn [sum_over]; lra. Qed.
