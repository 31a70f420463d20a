(** The walk over distant particles in one dimension, and on a stocked tree. *)
From Verif Require Import Prelude L_Prelude Vec S_Tree M_Walk L_Tree M_KDTree M_Stock S_Stock S_Box S_Search M_Search L_Search
  M_Box L_Box M_Gather L_Gather M_Util M_Periodic M_Ghost M_Distant S_Distant L_Distant L_Distant2.
From Coq Require Import Reals Lra Permutation.
Local Open Scope R_scope.

(** A cell that the signal does not reach hides no particle that it could reach. *)
Lemma reach_arith : forall s gap D c C w' w dti dt, 0 < s -> 0 <= gap -> gap <= D -> 0 < D -> 0 < c -> c <= C -> w' <= w ->
  0 < dti -> dti <= dt -> dt * (C - gap * - w / (gap + s)) <= gap -> dti * (c + D * w' / (D + s)) <= D.
Proof.
  intros s gap D c C w' w dti dt Hs Hg HD HD0 Hc HC Hw Hti Ht H.
  set (f := D / (D + s)). set (e := gap / (gap + s)).
  assert (Hf : D * w' / (D + s) = f * w') by (unfold f; field; lra).
  assert (He : gap * - w / (gap + s) = - (e * w)) by (unfold e; field; lra).
  rewrite Hf. rewrite He in H.
  assert (He0 : 0 <= e) by (unfold e; apply Rmult_le_pos; [lra|]; left; apply Rinv_0_lt_compat; lra).
  assert (Hfe : e <= f).
  { unfold e, f. apply (Rmult_le_reg_r ((gap + s) * (D + s))); [nra|].
    replace (gap / (gap + s) * ((gap + s) * (D + s))) with (gap * (D + s)) by (field; lra).
    replace (D / (D + s) * ((gap + s) * (D + s))) with (D * (gap + s)) by (field; lra). nra. }
  assert (Hf0 : 0 < f) by (unfold f; apply Rmult_lt_0_compat; [lra|]; apply Rinv_0_lt_compat; lra).
  assert (G1 : f * (D + s) = D) by (unfold f; field; lra).
  assert (G2 : e * (gap + s) = gap) by (unfold e; field; lra).
  clearbody e f. clear Hf He.
  assert (Hdt : 0 < dt) by lra.
  destruct (Rle_dec (c + f * w') 0) as [N|N].
  { assert (0 <= dti * - (c + f * w')) by (apply Rmult_le_pos; lra). lra. }
  assert (N' : 0 < c + f * w') by lra.
  assert (S1 : dti * (c + f * w') <= dt * (C + f * w)).
  { apply Rle_trans with (dt * (c + f * w')); [apply Rmult_le_compat_r; lra|].
    apply Rmult_le_compat_l; [lra|]. assert (f * w' <= f * w) by (apply Rmult_le_compat_l; lra). lra. }
  apply Rle_trans with (1 := S1). clear S1 N N'.
  assert (H' : dt * C + e * (dt * w) <= gap) by lra.
  replace (dt * (C + f * w)) with (dt * C + f * (dt * w)) by ring.
  assert (HdC : 0 < dt * C) by (apply Rmult_lt_0_compat; lra).
  set (A := dt * C) in *. set (W := dt * w) in *. clearbody A W.
  (* e = gap/(gap+s), f = D/(D+s), A + eW <= gap *)
  destruct (Rle_dec W 0) as [K|K].
  { assert (f * W <= e * W) by nra. lra. }
  assert (Hg0 : 0 < gap).
  { destruct (Rle_lt_or_eq_dec 0 gap Hg) as [X|X]; [exact X|]. exfalso.
    rewrite <- X in *. assert (0 <= e * W) by nra. lra. }
  (* multiply by (gap+s)/gap = 1/e *)
  assert (He1 : 0 < e) by nra.
  assert (Q : W <= gap + s - A / e).
  { apply (Rmult_le_reg_l e); [lra|]. replace (e * (gap + s - A / e)) with (e * (gap + s) - A) by (field; lra). lra. }
  assert (Q2 : f * W <= f * (gap + s) - A * (f / e)).
  { replace (A * (f / e)) with (f * (A / e)) by (field; lra). rewrite <- Rmult_minus_distr_l. apply Rmult_le_compat_l; lra. }
  assert (Q3 : 1 <= f / e) by (apply (Rmult_le_reg_r e); [lra|]; replace (f / e * e) with f by (field; lra); lra).
  assert (Q4 : A * 1 <= A * (f / e)) by (apply Rmult_le_compat_l; lra).
  assert (Q5 : f * (gap + s) <= f * (D + s)) by (apply Rmult_le_compat_l; lra).
  lra.
Qed.

Lemma need_le : forall ndim a r v c, 0 < a_h a -> 0 < a_vsig a ->
  a_h a / a_vsig a * signal ndim small_number (a_r a) (a_v a) (a_sound a) r v c <= norm ndim (vsub (a_r a) r) ->
  need ndim a r v c <= a_vsig a.
Proof.
  intros ndim a r v c Hh Hv H. unfold need, needed.
  set (X := signal ndim small_number (a_r a) (a_v a) (a_sound a) r v c) in *. set (d := norm ndim (vsub (a_r a) r)) in *.
  assert (M1 := Rmax_l d (a_h a)). assert (M2 := Rmax_r d (a_h a)).
  apply (Rmult_le_reg_r (Rmax d (a_h a))); [lra|].
  replace (X * a_h a / Rmax d (a_h a) * Rmax d (a_h a)) with (X * a_h a) by (field; lra).
  replace (X * a_h a) with (a_vsig a * (a_h a / a_vsig a * X)) by (field; lra).
  apply Rmult_le_compat_l; lra.
Qed.

Lemma norm1 : forall r : vec, norm 1 r = Rabs (r 0%nat).
Proof. intros r. unfold norm, dot. cbn [sumf]. rewrite Rplus_0_l. apply (sqrt_Rsqr_abs (r 0%nat)). Qed.

Lemma plain_dr : forall ndim tg d, plain tg -> snd (GF_NearestPeriodicVector ndim (t_f tg) d) = d.
Proof. intros ndim tg d (A & _). unfold GF_NearestPeriodicVector. rewrite A. reflexivity. Qed.

Lemma skip_one : forall tg g0 g a x dt, plain tg -> member 1 g0 a -> inside 1 g (p_r x) (p_v x) (p_sound x) -> 0 <= p_sound x ->
  a_h a / a_vsig a <= dt -> box_open 1 tg g0 g dt = false -> apart_from 1 (a_r a) (p_r x) ->
  need 1 a (p_r x) (p_v x) (p_sound x) <= a_vsig a.
Proof.
  intros tg g0 g a x dt HP ((B0 & V0 & C0) & Hh & Hc & Hv) (B & V & C) Hcx Hdt HO (k & Hk & HA).
  assert (k = 0%nat) as -> by lia.
  specialize (B0 0%nat ltac:(lia)). specialize (V0 0%nat ltac:(lia)). specialize (B 0%nat ltac:(lia)). specialize (V 0%nat ltac:(lia)).
  unfold box_open in HO. rewrite plain_dr in HO by exact HP. cbv zeta in HO.
  unfold loopk in HO. cbn [seq fold_left andb sumf] in HO.
  set (dr := 1 / 2 * (gbmax g 0%nat + gbmin g 0%nat) - 1 / 2 * (gbmax g0 0%nat + gbmin g0 0%nat)) in *.
  set (w := 1 / 2 * (gbmax g0 0%nat - gbmin g0 0%nat) + 1 / 2 * (gbmax g 0%nat - gbmin g 0%nat)) in *.
  destruct (rltb (Rabs dr) w) eqn:EW; [discriminate|]. apply rltb_false in EW. apply rltb_false in HO. rewrite !Rplus_0_l in HO.
  apply need_le; [exact Hh|exact Hv|]. rewrite norm1.
  assert (Hti : 0 < a_h a / a_vsig a) by (apply Rmult_lt_0_compat; [exact Hh|now apply Rinv_0_lt_compat]).
  assert (Hs := small_pos).
  unfold signal, closing. rewrite norm1. unfold dot. cbn [sumf]. rewrite Rplus_0_l. unfold vsub.
  destruct (rltb 0 dr) eqn:ED.
  - apply rltb_true in ED. rewrite Rabs_pos_eq in EW by lra.
    rewrite (sqrt_square (dr - w)) in HO by lra.
    assert (G : dr - w = gbmin g 0%nat - gbmax g0 0%nat) by (unfold dr, w; lra).
    assert (HD : Rabs (a_r a 0%nat - p_r x 0%nat) = p_r x 0%nat - a_r a 0%nat) by (rewrite Rabs_left1; lra).
    rewrite HD.
    replace (- ((a_r a 0%nat - p_r x 0%nat) * (a_v a 0%nat - p_v x 0%nat)) / (p_r x 0%nat - a_r a 0%nat + small_number))
      with ((p_r x 0%nat - a_r a 0%nat) * (a_v a 0%nat - p_v x 0%nat) / (p_r x 0%nat - a_r a 0%nat + small_number)) by (field; lra).
    apply (reach_arith small_number (dr - w) (p_r x 0%nat - a_r a 0%nat) (a_sound a + p_sound x) (gmaxsound g0 + gmaxsound g)
             (a_v a 0%nat - p_v x 0%nat) (gvmax g0 0%nat - gvmin g 0%nat) (a_h a / a_vsig a) dt); lra.
  - apply rltb_false in ED. rewrite Rabs_left1 in EW by lra.
    assert (E2 : sqrt ((dr + w) * (dr + w)) = - (dr + w)).
    { replace ((dr + w) * (dr + w)) with ((- (dr + w)) * (- (dr + w))) by ring. apply sqrt_square. lra. }
    rewrite E2 in HO.
    assert (G : dr + w = gbmax g 0%nat - gbmin g0 0%nat) by (unfold dr, w; lra).
    assert (HD : Rabs (a_r a 0%nat - p_r x 0%nat) = a_r a 0%nat - p_r x 0%nat) by (rewrite Rabs_pos_eq; lra).
    rewrite HD.
    replace (- ((a_r a 0%nat - p_r x 0%nat) * (a_v a 0%nat - p_v x 0%nat)) / (a_r a 0%nat - p_r x 0%nat + small_number))
      with ((a_r a 0%nat - p_r x 0%nat) * (p_v x 0%nat - a_v a 0%nat) / (a_r a 0%nat - p_r x 0%nat + small_number)) by (field; lra).
    apply (reach_arith small_number (- (dr + w)) (a_r a 0%nat - p_r x 0%nat) (a_sound a + p_sound x) (gmaxsound g0 + gmaxsound g)
             (p_v x 0%nat - a_v a 0%nat) (gvmax g 0%nat - gvmin g0 0%nat) (a_h a / a_vsig a) dt); lra.
Qed.

(** ** Domains with open sides *)
Definition open_domain (ndim : nat) (b : dombox) : Prop := forall k, (k < ndim)%nat -> blhs b k = openB /\ brhs b k = openB.

Lemma loopk_inv : forall (A : Type) (I : A -> Prop) n (f : nat -> A -> A) s, I s ->
  (forall k x, (k < n)%nat -> I x -> I (f k x)) -> I (loopk n f s).
Proof.
  intros A I n f s H0 HS. unfold loopk.
  assert (G : forall l s, (forall k, In k l -> (k < n)%nat) -> I s -> I (fold_left (fun s k => f k s) l s)).
  { induction l as [|k l IH]; intros x HL Hx; cbn [fold_left]; [exact Hx|].
    apply IH; [intros; apply HL; now right|]. apply HS; [apply HL; now left|exact Hx]. }
  apply G; [|exact H0]. intros k Hk. apply in_seq in Hk. lia.
Qed.

Lemma open_target : forall ndim b g0, open_domain ndim b -> exists tg, target_of ndim b g0 = Ok tg /\ plain tg.
Proof.
  intros ndim b g0 HB. unfold target_of, mk_finder.
  assert (E1 : loopk ndim (fun k ok => ok && (negb (beq (blhs b k) periodicB) || beq (brhs b k) periodicB)) true = true).
  { apply (loopk_inv _ (fun x => x = true)); [reflexivity|]. intros k x Hk ->. destruct (HB k Hk) as [-> ->]. reflexivity. }
  rewrite E1. cbn [bind]. eexists. split; [reflexivity|].
  assert (E2 : loopk ndim (fun k x => x || beq (blhs b k) periodicB) false = false).
  { apply (loopk_inv _ (fun x => x = false)); [reflexivity|]. intros k x Hk ->. destruct (HB k Hk) as [-> _]. reflexivity. }
  assert (E3 : loopk ndim (fun k x => x || (beq (blhs b k) mirrorB || beq (brhs b k) mirrorB)) false = false).
  { apply (loopk_inv _ (fun x => x = false)); [reflexivity|]. intros k x Hk ->. destruct (HB k Hk) as [-> ->]. reflexivity. }
  unfold plain, SetTargetCell. cbn [t_f t_need f_anyper f_anymir]. rewrite E2, E3. split; [reflexivity|]. split; [reflexivity|].
  apply (loopk_inv _ (fun x => x = false)); [reflexivity|]. intros k x _ ->. reflexivity.
Qed.

(** ** A stocked tree *)
Section Stocked.
Variables (ndim : nat) (kr th2 : R) (quad : bool) (pd : list particle) (Nl : Z) (s : tstate) (Ncell : Z) (t : rtree) (ps : list Z).
Hypothesis ST : stocked ndim kr th2 quad pd Nl s Ncell t ps.
Variables (tg : target) (g0 : gcell).
Hypothesis HP : plain tg.

Lemma parts_in_rev : forall l xs x, parts_of pd l = Ok xs -> In x xs -> exists i, In i l /\ aget pd i = Ok x.
Proof.
  induction l as [|a l IH]; intros xs x H Hx; cbn [parts_of] in H.
  - injection H as <-. easy.
  - destruct (aget pd a) as [y| | |] eqn:E; cbn [bind] in H; try discriminate.
    destruct (parts_of pd l) as [ys| | |] eqn:F; cbn [bind] in H; try discriminate. injection H as <-.
    destruct Hx as [<-|Hx]; [exists a; split; [now left|exact E]|].
    destruct (IH ys x eq_refl Hx) as (i & A & B). exists i. split; [now right|exact B].
Qed.

Lemma stocked_hides : forall safe : vec * vec * R -> Prop,
  (forall acts a x g xs, Forall (member ndim g0) acts -> In a acts -> In x xs -> describes ndim kr th2 quad g xs -> safe (body x) ->
     (exists i, In i ps /\ aget pd i = Ok x) ->
     box_open ndim tg g0 g (dt_guess acts) = false -> apart_from ndim (a_r a) (p_r x) -> need ndim a (p_r x) (p_v x) (p_sound x) <= a_vsig a) ->
  ctree (hides ndim tg pd s g0 safe) (leafl s false) t ps.
Proof.
  intros safe HS. destruct ST as [st_root0 st_cells0 st_links0 st_desc0 st_nodup0 st_range0].
  assert (X := proj1 (ctree_sub _ _ (fun p => In p ps) (fun c => (0 <= c < Ncell)%Z)) t ps st_desc0 st_nodup0 (fun p Hp => Hp)).
  assert (X0 : forall c, In c (preorder t) -> (0 <= c < Ncell)%Z).
  { intros c Hc. rewrite st_cells0, zseq_in in Hc. lia. }
  specialize (X X0).
  refine (proj1 (ctree_impl _ _ _ _ _ _) t ps X).
  - intros c qs ((k & g & xs & A & B & C & D & E) & F & G & Rg). split.
    + unfold count_ok. cbn. unfold kget. rewrite A. cbn [bind]. now rewrite B.
    + exists g, xs. split; [exact C|]. split; [exact D|].
      intros acts a x HM Ha Hx Hs HO HA. apply (HS acts a x g xs); auto.
      destruct (parts_in_rev _ _ _ D Hx) as (i & I1 & I2). exists i. auto.
  - intros c qs ((k & A & B & C) & F & G & Rg) _. unfold cell_list, view_of. cbn [vfirst vlast vinext]. unfold kget. rewrite A. cbn [bind].
    apply read_list_chain; auto.
    + intros p Hp. destruct (st_range0 p (G p Hp)). lia.
    + unfold tfuel. assert (length qs <= length (inext (ts_k s)))%nat; [|lia].
      apply L_KDBuild.nodup_bound; [exact F|]. intros p Hp. destruct (st_range0 p (G p Hp)). unfold zlen in *. lia.
Qed.

Theorem stocked_distant : forall (safe : vec * vec * R -> Prop) acts,
  (forall acts a x g xs, Forall (member ndim g0) acts -> In a acts -> In x xs -> describes ndim kr th2 quad g xs -> safe (body x) ->
     (exists i, In i ps /\ aget pd i = Ok x) ->
     box_open ndim tg g0 g (dt_guess acts) = false -> apart_from ndim (a_r a) (p_r x) -> need ndim a (p_r x) (p_v x) (p_sound x) <= a_vsig a) ->
  Forall (member ndim g0) acts ->
  exists acts' xs, distant ndim tg false pd s Ncell g0 acts = Ok (acts', false) /\ parts_of pd ps = Ok xs /\
    Forall2 (seenw ndim safe (map body xs)) acts acts'.
Proof.
  intros safe acts HS HM.
  destruct (distant_walk ndim tg pd s g0 false safe HP Ncell t ps acts (stocked_hides safe HS)
     (stocked_linked _ _ _ _ _ _ _ _ _ _ ST) (stocked_range _ _ _ _ _ _ _ _ _ _ ST)) as (acts' & st & xs & E & HX & O).
  - now destruct ST.
  - symmetry. exact (stocked_walk_fuel _ _ _ _ _ _ _ _ _ _ ST).
  - exact HM.
  - destruct st; [destruct O; discriminate|]. exists acts', xs. split; [exact E|]. split; [exact HX|]. apply O.
Qed.
End Stocked.
