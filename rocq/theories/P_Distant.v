(** C80: the limit on time steps set by distant particles. *)
From Verif Require Import Prelude L_Prelude Vec S_Tree S_KD M_Walk L_Tree M_KDTree L_KDStruct L_KDBuild L_KDTop M_Stock S_Stock L_Stock S_Box S_Search
  M_Search L_Search M_Box L_Box M_Gather L_Gather L_StockTop L_ExTree M_Util M_Periodic M_Ghost M_Distant S_Distant L_Distant L_Distant2 L_Distant3 L_Distant4 L_Distant5.
From Coq Require Import Reals Lra.
Local Open Scope R_scope.

(** [a] is the local copy of one of the particles [xs], with a signal speed already found from
    its neighbours. *)
Definition copy_of (xs : list particle) (a : apart) : Prop :=
  exists x, In x xs /\ a_r a = p_r x /\ a_v a = p_v x /\ a_h a = p_h x /\ a_sound a = p_sound x /\
    0 < p_h x /\ 0 < p_sound x /\ 0 < a_vsig a.

(** [a'] is [a] but for a larger signal speed, and that is one asked for by some other particle. *)
Definition limited (ndim : nat) (xs : list particle) (a a' : apart) : Prop :=
  a_r a' = a_r a /\ a_v a' = a_v a /\ a_h a' = a_h a /\ a_sound a' = a_sound a /\ a_vsig a <= a_vsig a' /\
  (a_vsig a' = a_vsig a \/ exists x, In x xs /\ apart_from ndim (a_r a) (p_r x) /\
     a_vsig a' = needed ndim small_number (a_r a) (a_v a) (a_sound a) (a_h a) (p_r x) (p_v x) (p_sound x)).
(** No particle asks for more than [a'] has. *)
Definition enough (ndim : nat) (xs : list particle) (a a' : apart) : Prop :=
  forall x, In x xs -> apart_from ndim (a_r a) (p_r x) ->
    needed ndim small_number (a_r a) (a_v a) (a_sound a) (a_h a) (p_r x) (p_v x) (p_sound x) <= a_vsig a'.

Lemma copy_member : forall ndim kr th2 quad g xs a, describes ndim kr th2 quad g xs -> copy_of xs a -> member ndim g a.
Proof.
  intros ndim kr th2 quad g xs a D (x & Hx & E1 & E2 & E3 & E4 & P1 & P2 & P3).
  unfold member, inside. rewrite E1, E2, E3, E4. split; [|auto]. split; [|split].
  - intros k Hk. exact (proj1 (d_bb _ _ _ _ _ _ D k Hk) x Hx).
  - intros k Hk. exact (proj1 (d_vb _ _ _ _ _ _ D k Hk) x Hx).
  - exact (d_sound _ _ _ _ _ _ D x Hx).
Qed.
Lemma copies_members : forall ndim kr th2 quad g xs acts, describes ndim kr th2 quad g xs -> Forall (copy_of xs) acts -> Forall (member ndim g) acts.
Proof. intros. eapply Forall_impl; [|eassumption]. intros a Ha. eapply copy_member; eauto. Qed.
Lemma seenw_limited : forall ndim safe xs a a', seenw ndim safe (map body xs) a a' -> limited ndim xs a a'.
Proof.
  intros ndim safe xs a a' ((A & B & C & D) & L & _ & O). unfold limited. rewrite A, B, C, D. repeat (split; [reflexivity|]).
  split; [exact L|]. destruct O as [O|(r & v & c & I & P & E)]; [now left|]. right.
  apply in_map_iff in I. destruct I as (x & Ex & Hx). unfold body in Ex. injection Ex as <- <- <-.
  exists x. split; [exact Hx|]. split; [now rewrite <- A|]. rewrite E. unfold need. now rewrite A, B, C, D.
Qed.
Lemma seenw_enough : forall ndim xs a a', seenw ndim (fun _ => True) (map body xs) a a' -> enough ndim xs a a'.
Proof.
  intros ndim xs a a' (_ & _ & H & _) x Hx HA. apply (H (p_r x) (p_v x) (p_sound x)); auto. apply (in_map body xs x Hx).
Qed.

(** In any number of dimensions and an open domain the walk ends, changes only the signal
    speeds, never lowers one, and never beyond what some existing particle asks for. *)
Theorem C80_never_more : forall ndim kr th2 quad pd Nl s Ncell t ps b g0 xs0 acts,
  stocked ndim kr th2 quad pd Nl s Ncell t ps -> open_domain ndim b ->
  describes ndim kr th2 quad g0 xs0 -> Forall (copy_of xs0) acts ->
  exists tg acts' xs, target_of ndim b g0 = Ok tg /\ distant ndim tg false pd s Ncell g0 acts = Ok (acts', false) /\
    parts_of pd ps = Ok xs /\ Forall2 (limited ndim xs) acts acts'.
Proof.
  intros ndim kr th2 quad pd Nl s Ncell t ps b g0 xs0 acts ST HB D HA.
  destruct (open_target ndim b g0 HB) as (tg & ET & HP).
  destruct (stocked_distant _ _ _ _ _ _ _ _ _ _ ST tg g0 HP (fun _ => False) acts) as (acts' & xs & E & HX & F).
  - intros; contradiction.
  - eapply copies_members; eauto.
  - exists tg, acts', xs. repeat (split; [assumption|]). clear - F. induction F; constructor; auto. eapply seenw_limited; eauto.
Qed.

(** In one dimension nothing is missed: after the walk every particle has at least the signal
    speed any other particle asks for. *)
Theorem C80_conservative : forall kr th2 quad pd Nl s Ncell t ps b g0 xs0 acts,
  stocked 1 kr th2 quad pd Nl s Ncell t ps -> open_domain 1 b ->
  (forall i x, In i ps -> aget pd i = Ok x -> 0 <= p_sound x) ->
  describes 1 kr th2 quad g0 xs0 -> Forall (copy_of xs0) acts ->
  exists tg acts' xs, target_of 1 b g0 = Ok tg /\ distant 1 tg false pd s Ncell g0 acts = Ok (acts', false) /\
    parts_of pd ps = Ok xs /\ Forall2 (fun a a' => limited 1 xs a a' /\ enough 1 xs a a') acts acts'.
Proof.
  intros kr th2 quad pd Nl s Ncell t ps b g0 xs0 acts ST HB HS D HA.
  destruct (open_target 1 b g0 HB) as (tg & ET & HP).
  destruct (stocked_distant _ _ _ _ _ _ _ _ _ _ ST tg g0 HP (fun _ => True) acts) as (acts' & xs & E & HX & F).
  - intros l a x g xs HM Ha Hx DG _ (i & Hi & Ei) HO HF.
    apply (skip_one tg g0 g a x (dt_guess l)); auto.
    + exact (proj1 (Forall_forall _ _) HM a Ha).
    + split; [intros k Hk; exact (proj1 (d_bb _ _ _ _ _ _ DG k Hk) x Hx)|].
      split; [intros k Hk; exact (proj1 (d_vb _ _ _ _ _ _ DG k Hk) x Hx)|exact (d_sound _ _ _ _ _ _ DG x Hx)].
    + eapply HS; eauto.
    + apply dt_guess_ge; [|exact Ha]. eapply member_pos; eauto.
  - eapply copies_members; eauto.
  - exists tg, acts', xs. repeat (split; [assumption|]). clear - F. induction F; constructor; auto.
    split; [eapply seenw_limited; eauto|now apply seenw_enough].
Qed.

Lemma aget_In : forall (A : Type) (l : list A) i x, aget l i = Ok x -> In x l.
Proof.
  intros A l i x H. unfold aget in H. destruct (i <? 0)%Z; [discriminate|].
  destruct (nth_error l (Z.to_nat i)) eqn:E; [|discriminate]. injection H as <-. eapply nth_error_In; eauto.
Qed.

(** The pruned tree of another process, in one dimension: if the walk does not ask for export,
    no particle of that process asks for more than is there already. *)
Theorem C80_export : forall kr th2 quad pd s Ncell t ps b g0 xs0 acts,
  root t = 0%Z -> preorder t = zseq 0 (Z.to_nat Ncell) ->
  linked Ncell (cell_field (cells (ts_k s)) copen) (cell_field (cells (ts_k s)) cnext) t Ncell ->
  ctree (cell_ok 1 kr th2 quad pd s) (fun _ _ => True) t ps -> open_domain 1 b ->
  (forall x, In x pd -> 0 <= p_sound x) ->
  describes 1 kr th2 quad g0 xs0 -> Forall (copy_of xs0) acts ->
  exists tg stopped xs, target_of 1 b g0 = Ok tg /\ distant 1 tg true [] s Ncell g0 acts = Ok (acts, stopped) /\
    parts_of pd ps = Ok xs /\ (stopped = false -> Forall (fun a => enough 1 xs a a) acts).
Proof.
  intros kr th2 quad pd s Ncell t ps b g0 xs0 acts HR HC HL HT HB HS D HA.
  destruct (open_target 1 b g0 HB) as (tg & ET & HP). exists tg.
  assert (HM := copies_members _ _ _ _ _ _ _ D HA).
  assert (HH : ctree (hides 1 tg pd s g0 (fun _ => True)) (leafl s true) t ps).
  { refine (proj1 (ctree_impl _ _ _ _ _ _) t ps HT); [|intros c qs _ F; discriminate].
    intros c qs (k & g & xs & A & B & C & E & F). split.
    - unfold count_ok. cbn. unfold kget. rewrite A. cbn [bind]. now rewrite B.
    - exists g, xs. split; [exact C|]. split; [exact E|]. intros l a x Hm Ha Hx _ HO HF.
      apply (skip_one tg g0 g a x (dt_guess l)); auto.
      + exact (proj1 (Forall_forall _ _) Hm a Ha).
      + split; [intros j Hk; exact (proj1 (d_bb _ _ _ _ _ _ F j Hk) x Hx)|].
        split; [intros j Hk; exact (proj1 (d_vb _ _ _ _ _ _ F j Hk) x Hx)|exact (d_sound _ _ _ _ _ _ F x Hx)].
      + destruct (parts_in_rev pd _ _ _ E Hx) as (i & _ & Ei). apply HS. exact (aget_In _ _ _ _ Ei).
      + apply dt_guess_ge; [|exact Ha]. eapply member_pos; eauto. }
  assert (HB' : forall c, In c (preorder t) -> (0 <= c < Ncell)%Z).
  { intros c Hc. rewrite HC, zseq_in in Hc. lia. }
  assert (HSz : msize t = Z.to_nat Ncell).
  { unfold msize. rewrite HC. apply zseq_length. }
  destruct (distant_walk 1 tg pd s g0 true (fun _ => True) HP Ncell t ps acts HH HL HB' HR HSz HM) as (acts' & st & xs & E & HX & O).
  assert (EN : distant 1 tg true [] s Ncell g0 acts = distant 1 tg true pd s Ncell g0 acts) by reflexivity.
  exists st, xs. split; [exact ET|]. rewrite EN.
  destruct st.
  - destruct O as [_ ->]. split; [exact E|]. split; [exact HX|]. discriminate.
  - destruct O as [F G]. specialize (G eq_refl). subst acts'. split; [exact E|]. split; [exact HX|]. intros _.
    apply Forall_forall. intros a Ha. clear - F Ha.
    assert (G : forall l l', Forall2 (seenw 1 (fun _ => True) (map body xs)) l l' -> l = l' -> forall a, In a l -> enough 1 xs a a).
    { intros l l' H. induction H as [|x y l l' Hxy H IH]; intros E z Hz; [easy|]. injection E as <- E'. destruct Hz as [<-|Hz]; [now apply seenw_enough|auto]. }
    exact (G acts acts F eq_refl a Ha).
Qed.

(** The time step of the meshless scheme is the smallest of its criteria. *)
Theorem C80_timestep : forall ndim cm am vc vm sg a a0, 0 < a_h a -> 0 < a_vsig a ->
  let criteria := (2 * cm * a_h a / a_vsig a) :: (am * sqrt (a_h a / sqrt (dot ndim a0 a0 + small_number))) ::
                  (if Rlt_dec 0 vc then [vm * a_h a ^ 2 / (2 * vc)] else []) in
  let dt := mfv_timestep ndim cm am vc vm true sg a a0 in
  In dt criteria /\ (forall x, In x criteria -> dt <= x) /\
  (* so that no signal crosses more than this part of the way to its particle in one step *)
  (forall r v c, 0 <= cm -> 0 <= signal ndim small_number (a_r a) (a_v a) (a_sound a) r v c ->
     needed ndim small_number (a_r a) (a_v a) (a_sound a) (a_h a) r v c <= a_vsig a ->
     dt * signal ndim small_number (a_r a) (a_v a) (a_sound a) r v c <= 2 * cm * Rmax (norm ndim (vsub (a_r a) r)) (a_h a)) /\
  (* without hydrodynamics only the acceleration counts *)
  mfv_timestep ndim cm am vc vm false true a a0 = am * sqrt (a_h a / sqrt (dot ndim a0 a0 + small_number)).
Proof.
  intros ndim cm am vc vm sg a a0 Hh Hv criteria dt.
  assert (M : forall x y, (Rmin x y = x \/ Rmin x y = y) /\ Rmin x y <= x /\ Rmin x y <= y).
  { intros x y. split; [unfold Rmin; destruct (Rle_dec _ _); auto|]. split; [apply Rmin_l|apply Rmin_r]. }
  assert (A : In dt criteria /\ (forall x, In x criteria -> dt <= x)).
  { unfold dt, criteria, mfv_timestep.
    set (x := 2 * cm * a_h a / a_vsig a). set (y := am * sqrt (a_h a / sqrt (dot ndim a0 a0 + small_number))).
    destruct (Rlt_dec 0 vc) as [Hc|Hc].
    - rewrite (proj2 (rltb_true _ _) Hc).
      replace (vm * (1 / 2) * a_h a * a_h a / vc) with (vm * a_h a ^ 2 / (2 * vc)) by (field; lra).
      set (z := vm * a_h a ^ 2 / (2 * vc)).
      destruct (M x z) as (E1 & L1 & L2). destruct (M (Rmin x z) y) as (E2 & L3 & L4). split.
      + cbn [In]. destruct E2 as [-> | ->]; [destruct E1 as [-> | ->]; auto|auto].
      + intros u [<-|[<-|[<-|[]]]]; lra.
    - rewrite (proj2 (rltb_false 0 vc)) by lra. destruct (M x y) as (E1 & L1 & L2). split.
      + cbn [In]. destruct E1 as [-> | ->]; auto.
      + intros u [<-|[<-|[]]]; lra. }
  destruct A as [A1 A2]. split; [exact A1|]. split; [exact A2|]. split; [|reflexivity].
  intros r v c Hcm HS HN. unfold needed in HN.
  set (X := signal ndim small_number (a_r a) (a_v a) (a_sound a) r v c) in *. set (d := Rmax (norm ndim (vsub (a_r a) r)) (a_h a)) in *.
  assert (Hd : 0 < d). { unfold d. assert (Y := Rmax_r (norm ndim (vsub (a_r a) r)) (a_h a)). lra. }
  assert (B : dt <= 2 * cm * a_h a / a_vsig a) by (apply A2; now left).
  apply Rle_trans with (2 * cm * a_h a / a_vsig a * X); [now apply Rmult_le_compat_r|].
  assert (X * a_h a <= a_vsig a * d).
  { replace (X * a_h a) with (X * a_h a / d * d) by (field; lra). apply Rmult_le_compat_r; lra. }
  replace (2 * cm * a_h a / a_vsig a * X) with (2 * cm * (X * a_h a / a_vsig a)) by (field; lra).
  apply Rmult_le_compat_l; [lra|]. apply (Rmult_le_reg_r (a_vsig a)); [exact Hv|].
  replace (X * a_h a / a_vsig a * a_vsig a) with (X * a_h a) by (field; lra). lra.
Qed.

(** With neither hydrodynamics nor self-gravity the step has no bound, whatever the
    acceleration (of stars or an external field). *)
Theorem C80_unlimited_refuted : forall ndim cm am vc vm a a0, mfv_timestep ndim cm am vc vm false false a a0 = 99 * 10 ^ 19.
Proof. reflexivity. Qed.

(** In two dimensions particles are missed: the cell is skipped because the extent of boxes that
    overlap in one direction is counted as distance, and the particle keeps a signal speed
    smaller than another particle asks for. *)
Theorem C80_plane_refuted : forall b, open_domain 2 b ->
  exists s gl xs tg acts' a, StockTree 2 2 2 1 true w_pd 1 0 (mkts w_s1 ex_gs) = Ok s /\
    stocked 2 2 1 true w_pd 2 s 3 (ptree 1 0) [0;1;3;2]%Z /\ parts_of w_pd [0;1;3;2]%Z = Ok xs /\
    aget (ts_g s) 1 = Ok gl /\ describes 2 2 1 true gl [w_part 0 0 1; w_part 0 2 1] /\ copy_of [w_part 0 0 1; w_part 0 2 1] a /\
    target_of 2 b gl = Ok tg /\ distant 2 tg false w_pd s 3 gl [a] = Ok (acts', false) /\
    ~ Forall2 (enough 2 xs) [a] acts'.
Proof.
  intros b HB. destruct w_stocked as (s & E & ST).
  destruct (tree3 _ _ _ _ _ _ _ _ _ _ _ ST ltac:(lia)) as (xa & xb & xc & xd & g & gl & gr & Pab & Pcd & _ & G1 & _ & _ & D1 & _).
  cbn in Pab. injection Pab as <- <-.
  destruct (open_target 2 b gl HB) as (tg & ET & HP).
  destruct (plane_run tg s ST HP) as (gl' & G1' & _ & R). rewrite G1 in G1'. injection G1' as <-.
  exists s, gl, [w_part 0 0 1; w_part 0 2 1; w_part 3 2 9; w_part 3 0 9], tg, [w_act], w_act.
  split; [exact E|]. split; [exact ST|]. split; [reflexivity|]. split; [exact G1|]. split; [exact D1|]. split.
  { exists (w_part 0 0 1). split; [now left|]. repeat split; cbn; try lra.
    apply FunctionalExtensionality.functional_extensionality. intros [|k]; reflexivity. }
  split; [exact ET|]. split; [exact R|]. intros F. inversion F as [|? ? ? ? F1 _]. subst.
  specialize (F1 (w_part 3 0 9) ltac:(cbn; auto)).
  assert (K : apart_from 2 (a_r w_act) (p_r (w_part 3 0 9))) by (exists 0%nat; split; [lia|cbn; lra]).
  specialize (F1 K). assert (X := plane_need). unfold need in X. rewrite X in F1. cbn in F1. lra.
Qed.

(** In a periodic domain particles are missed even in one dimension: only the image of the cell
    whose centre is nearest is considered, but one of its particles may be nearest on the other
    side. *)
Theorem C80_periodic_refuted : exists s gl tg acts' a, StockTree 2 1 2 1 true u_pd 1 0 (mkts u_s1 ex_gs) = Ok s /\
    stocked 1 2 1 true u_pd 2 s 3 (ptree 1 0) [0;1;2;3]%Z /\
    aget (ts_g s) 1 = Ok gl /\ describes 1 2 1 true gl [u_part 0 0; u_part 1 0] /\ copy_of [u_part 0 0; u_part 1 0] a /\
    target_of 1 u_dom gl = Ok tg /\ distant 1 tg false u_pd s 3 gl [a] = Ok (acts', false) /\
    (* the particle at 6 is seen at 6 - 10, which is its nearest image *)
    aget u_pd 3 = Ok (u_part 6 9) /\ dmax u_dom 0%nat - dmin u_dom 0%nat = 10 /\ Rabs (a_r a 0%nat - (6 - 10)) < Rabs (a_r a 0%nat - 6) /\
    Exists (fun a' => a_vsig a' < needed 1 small_number (a_r a) (a_v a) (a_sound a) (a_h a) (fun _ => 6 - 10) (p_v (u_part 6 9)) (p_sound (u_part 6 9))) acts'.
Proof.
  destruct u_stocked as (s & E & ST).
  destruct (tree3 _ _ _ _ _ _ _ _ _ _ _ ST ltac:(lia)) as (xa & xb & xc & xd & g & gl & gr & Pab & Pcd & _ & G1 & _ & _ & D1 & _).
  cbn in Pab. injection Pab as <- <-.
  destruct (periodic_run s ST) as (gl' & tg & G1' & _ & ET & R). rewrite G1 in G1'. injection G1' as <-.
  exists s, gl, tg, [u_act], u_act. split; [exact E|]. split; [exact ST|]. split; [exact G1|]. split; [exact D1|]. split.
  { exists (u_part 0 0). split; [now left|]. repeat split; cbn; lra. }
  split; [exact ET|]. split; [exact R|]. split; [reflexivity|]. split; [cbn; lra|].
  split; [cbn; rewrite Rabs_pos_eq, Rabs_left; lra|]. constructor. exact periodic_need.
Qed.

(** In the octal tree the velocity box of a cell is the largest one there is, whatever the
    velocities of its particles; two neighbouring cells are then never opened for each other,
    whatever the sound speeds, the velocities and the time step. *)
Theorem C80_octree_refuted :
  (forall vs, (forall x, In x vs -> - big_number <= x <= big_number) -> oct_vbox vs = (- big_number, big_number)) /\
  (forall b c0 c vs0 vs dt, open_domain 2 b ->
    (forall x, In x (vs0 ++ vs) -> - big_number <= fst x <= big_number /\ - big_number <= snd x <= big_number) ->
    c0 + c <= big_number -> 0 <= dt ->
    exists tg, target_of 2 b (oct_cell 0 1 c0 vs0) = Ok tg /\ box_open 2 tg (oct_cell 0 1 c0 vs0) (oct_cell 2 3 c vs) dt = false) /\
  (* although a particle of one may ask one of the other for any speed *)
  (forall c, 0 < c -> needed 2 small_number (fun k => match k with 0%nat => 1 | _ => 0 end) zerov c 1
      (fun k => match k with 0%nat => 2 | _ => 0 end) zerov c = 2 * c).
Proof.
  split; [exact oct_vbox_all|]. split; [|exact oct_need].
  intros b c0 c vs0 vs dt HB HV HC Hdt. destruct (open_target 2 b (oct_cell 0 1 c0 vs0) HB) as (tg & ET & HP).
  exists tg. split; [exact ET|]. apply oct_skipped; auto.
Qed.

(** A concrete case: the tree of [u_pd] in an open domain. *)
Example C80_example : exists s gl, StockTree 2 1 2 1 true u_pd 1 0 (mkts u_s1 ex_gs) = Ok s /\
  stocked 1 2 1 true u_pd 2 s 3 (ptree 1 0) [0;1;2;3]%Z /\ aget (ts_g s) 1 = Ok gl /\
  open_domain 1 (mkbox (fun _ => 0) (fun _ => 10) (fun _ => openB) (fun _ => openB)) /\
  (forall i x, In i [0;1;2;3]%Z -> aget u_pd i = Ok x -> 0 <= p_sound x) /\
  describes 1 2 1 true gl [u_part 0 0; u_part 1 0] /\ Forall (copy_of [u_part 0 0; u_part 1 0]) [u_act].
Proof.
  destruct u_stocked as (s & E & ST).
  destruct (tree3 _ _ _ _ _ _ _ _ _ _ _ ST ltac:(lia)) as (xa & xb & xc & xd & g & gl & gr & Pab & Pcd & _ & G1 & _ & _ & D1 & _).
  cbn in Pab. injection Pab as <- <-.
  exists s, gl. split; [exact E|]. split; [exact ST|]. split; [exact G1|]. split; [intros k _; split; reflexivity|]. split.
  { intros i x [<-|[<-|[<-|[<-|[]]]]] H; cbn in H; injection H as <-; cbn; lra. }
  split; [exact D1|]. constructor; [|constructor]. exists (u_part 0 0). split; [now left|]. repeat split; cbn; lra.
Qed.
(** One pair: a particle of size 1 whose neighbour at distance 4 comes in at speed 9. *)
Example C80_example_pair : exists a, update_pair 1 1 u_act {| gp_id := 0; gp_r := fun _ => -4; gp_v := fun _ => 9; gp_a := zerov; gp_h2 := 0; gp_fl := 0%N |} = Ok a /\
  2 < a_vsig a /\ mfv_timestep 1 (1/2) 1 0 1 true false a zerov < 1 / 2.
Proof.
  destruct (update_pair_spec 1 1 u_act {| gp_id := 0; gp_r := fun _ => -4; gp_v := fun _ => 9; gp_a := zerov; gp_h2 := 0; gp_fl := 0%N |} ltac:(cbn; lra))
    as (a & E & (A & B & C & D) & L & N & _).
  exists a. split; [exact E|].
  assert (H : 2 < a_vsig a).
  { specialize (N (fun _ => -4) (fun _ => 9) 1 ltac:(now left)).
    assert (K : apart_from 1 (a_r u_act) (fun _ => -4)) by (exists 0%nat; split; [lia|cbn; lra]).
    apply Rlt_le_trans with (2 := N K).
    assert (X := periodic_need). replace (fun _ : nat => -4) with (fun _ : nat => 6 - 10); [exact X|].
    apply FunctionalExtensionality.functional_extensionality. intros. lra. }
  split; [exact H|].
  assert (T := C80_timestep 1 (1/2) 1 0 1 false a zerov). rewrite <- C in T. specialize (T ltac:(cbn; lra) ltac:(lra)).
  destruct T as (_ & T & _). specialize (T _ (or_introl eq_refl)).
  apply Rle_lt_trans with (1 := T). cbn [a_h u_act].
  apply (Rmult_lt_reg_r (a_vsig a)); [lra|]. replace (2 * (1 / 2) * 1 / a_vsig a * a_vsig a) with 1 by (field; lra). lra.
Qed.

Print Assumptions C80_never_more.
Print Assumptions C80_conservative.
Print Assumptions C80_export.
Print Assumptions C80_timestep.
Print Assumptions C80_unlimited_refuted.
Print Assumptions C80_plane_refuted.
Print Assumptions C80_periodic_refuted.
Print Assumptions C80_octree_refuted.
