(** The walk over distant particles: the whole tree; one dimension. *)
From Verif Require Import Prelude L_Prelude Vec S_Tree M_Walk L_Tree M_KDTree M_Stock S_Stock S_Box S_Search M_Search L_Search
  M_Box L_Box M_Gather L_Gather M_Util M_Periodic M_Ghost M_Distant S_Distant L_Distant.
From Coq Require Import Reals Lra Permutation.
Local Open Scope R_scope.

(** The active particle [a] lies in cell [g0]. *)
Definition inside (ndim : nat) (g0 : gcell) (r v : vec) (c : R) : Prop :=
  in_box ndim (gbmin g0) (gbmax g0) r /\ in_box ndim (gvmin g0) (gvmax g0) v /\ c <= gmaxsound g0.
Definition member (ndim : nat) (g0 : gcell) (a : apart) : Prop :=
  inside ndim g0 (a_r a) (a_v a) (a_sound a) /\ 0 < a_h a /\ 0 < a_sound a /\ 0 < a_vsig a.

Lemma member_seen : forall ndim g0 l xs ys, Forall2 (seen ndim l) xs ys -> Forall (member ndim g0) xs -> Forall (member ndim g0) ys.
Proof.
  intros ndim g0 l xs ys H. induction H as [|x y xs ys S H IH]; intros F; [constructor|].
  inversion F as [|? ? M F']; subst. constructor; [|auto].
  destruct S as ((A & B & C & D) & L & _). unfold member in *. rewrite <- A, <- B, <- C, <- D. intuition lra.
Qed.

Section Tree.
Variables (ndim : nat) (tg : target) (pd : list particle) (s : tstate) (g0 : gcell) (pruned : bool).
(** Particles that a skipped cell is known not to hide. *)
Variable safe : vec * vec * R -> Prop.
Hypothesis HP : plain tg.
Let v := view_of (ts_k s).
Let fuel := tfuel (ts_k s).
Let visit := distant_visit ndim tg fuel v (ts_g s) pd pruned g0.

(** What is known of a cell: count, particles, and that skipping it hides nothing. *)
Definition hides (c : Z) (qs : list Z) : Prop :=
  count_ok v c qs /\ exists g xs, aget (ts_g s) c = Ok g /\ parts_of pd qs = Ok xs /\
    forall acts a x, Forall (member ndim g0) acts -> In a acts -> In x xs -> safe (body x) ->
      box_open ndim tg g0 g (dt_guess acts) = false -> apart_from ndim (a_r a) (p_r x) ->
      need ndim a (p_r x) (p_v x) (p_sound x) <= a_vsig a.
Definition leafl (c : Z) (qs : list Z) : Prop := pruned = false -> cell_list fuel v c = Ok qs.

(** Outcome for one active particle: like [seen], but only the safe ones are all counted. *)
Definition seenw (l : list (vec * vec * R)) (a a' : apart) : Prop :=
  same a a' /\ a_vsig a <= a_vsig a' /\
  (forall r v c, In (r, v, c) l -> safe (r, v, c) -> apart_from ndim (a_r a) r -> need ndim a r v c <= a_vsig a') /\
  (a_vsig a' = a_vsig a \/ exists r v c, In (r, v, c) l /\ apart_from ndim (a_r a) r /\ a_vsig a' = need ndim a r v c).

Lemma seen_weak : forall l a a', seen ndim l a a' -> seenw l a a'.
Proof. intros l a a' (A & B & C & D). repeat split; auto; try apply A. Qed.
Lemma seenw_app : forall l m a b c, seenw l a b -> seenw m b c -> seenw (l ++ m) a c.
Proof.
  intros l m a b c (S1 & L1 & A1 & E1) (S2 & L2 & A2 & E2).
  assert (R1 : a_r a = a_r b) by apply S1.
  split; [eapply same_trans; eauto|]. split; [lra|]. split.
  - intros r w k H HS HA. apply in_app_or in H. destruct H as [H|H].
    + specialize (A1 r w k H HS HA). lra.
    + rewrite (need_same ndim a b) by exact S1. apply A2; [exact H|exact HS|now rewrite <- R1].
  - destruct E2 as [E2|(r & w & k & H & HA & E2)].
    + destruct E1 as [E1|(r & w & k & H & HA & E1)]; [left; lra|].
      right. exists r, w, k. split; [apply in_or_app; now left|]. split; [exact HA|lra].
    + right. exists r, w, k. split; [apply in_or_app; now right|]. split; [now rewrite R1|].
      rewrite (need_same ndim a b) by exact S1. exact E2.
Qed.
Lemma Forall2_app_seenw : forall l m xs ys zs,
  Forall2 (seenw l) xs ys -> Forall2 (seenw m) ys zs -> Forall2 (seenw (l ++ m)) xs zs.
Proof.
  intros l m xs ys zs H. revert zs. induction H as [|x y xs ys S H IH]; intros zs H2; inversion H2; subst; constructor.
  - eapply seenw_app; eauto.
  - auto.
Qed.
Lemma member_seenw : forall l xs ys, Forall2 (seenw l) xs ys -> Forall (member ndim g0) xs -> Forall (member ndim g0) ys.
Proof.
  intros l xs ys H. induction H as [|x y xs ys S H IH]; intros F; [constructor|].
  inversion F as [|? ? M F']; subst. constructor; [|auto].
  destruct S as ((A & B & C & D) & L & _). unfold member in *. rewrite <- A, <- B, <- C, <- D. intuition lra.
Qed.
Lemma member_pos : forall acts, Forall (member ndim g0) acts -> forall a, In a acts -> 0 < a_vsig a.
Proof. intros acts F a Ha. rewrite Forall_forall in F. now destruct (F a Ha) as (_ & _ & _ & ?). Qed.

(** A skipped cell. *)
Lemma skip_seenw : forall acts xs, Forall (member ndim g0) acts ->
  (forall a x, In a acts -> In x xs -> safe (body x) -> apart_from ndim (a_r a) (p_r x) -> need ndim a (p_r x) (p_v x) (p_sound x) <= a_vsig a) ->
  Forall2 (seenw (map body xs)) acts acts.
Proof.
  intros acts xs _ H. induction acts as [|a acts IH]; constructor.
  - split; [apply same_refl|]. split; [lra|]. split; [|now left].
    intros r w c Hin HS HA. apply in_map_iff in Hin. destruct Hin as (x & E & Hx). injection E as <- <- <-.
    apply H; auto. now left.
  - apply IH. intros; apply H; auto. now right.
Qed.

Lemma parts_app2 : forall a b xs ys, parts_of pd a = Ok xs -> parts_of pd b = Ok ys -> parts_of pd (a ++ b) = Ok (xs ++ ys).
Proof.
  induction a as [|i a IH]; intros b xs ys A B; cbn in *.
  - injection A as <-. exact B.
  - destruct (aget pd i) as [x| | |]; cbn [bind] in *; try discriminate.
    destruct (parts_of pd a) as [zs| | |]; cbn [bind] in *; try discriminate. injection A as <-.
    rewrite (IH b zs ys eq_refl B). reflexivity.
Qed.

Definition dout (acts : list apart) (qs : list Z) (r : res ((list apart * R) * bool)) : Prop :=
  exists xs, parts_of pd qs = Ok xs /\
  ((exists acts', r = Ok ((acts', dt_guess acts'), false) /\ Forall2 (seenw (map body xs)) acts acts' /\ (pruned = true -> acts' = acts)) \/
   (pruned = true /\ r = Ok ((acts, dt_guess acts), true))).

Lemma distant_twalks : forall Nc cn,
  (forall t qs, ctree hides leafl t qs ->
     forall nx, linked Nc (vopen v) cn t nx -> (forall c, In c (preorder t) -> (0 <= c)%Z) ->
     forall acts, Forall (member ndim g0) acts -> dout acts qs (twalk visit t (acts, dt_guess acts))) /\
  (forall ks pss, ctrees hides leafl ks pss ->
     forall nx, linked_list Nc (vopen v) cn ks nx -> (forall c, In c (flat_map preorder ks) -> (0 <= c)%Z) ->
     forall acts, Forall (member ndim g0) acts -> dout acts (concat pss) (twalks visit ks (acts, dt_guess acts))).
Proof.
  intros Nc cn. apply ctree_mutind.
  - intros c qs (HC & g & xs & Hg & HX & HS) HL nx LK NN acts HM. rewrite linked_unfold in LK. destruct LK as (_ & LO & _).
    exists xs. split; [exact HX|].
    assert (HV : twalk visit (RNode c []) (acts, dt_guess acts) =
      if box_open ndim tg g0 g (dt_guess acts) then
        if (zlen qs =? 0)%Z then Ok ((acts, dt_guess acts), false)
        else if pruned then Ok ((acts, dt_guess acts), true)
        else let! l := cell_list fuel v c in let! acts' := update_leaf ndim tg pd l acts in Ok ((acts', dt_guess acts'), false)
      else Ok ((acts, dt_guess acts), false)).
    { rewrite twalk_unfold. unfold visit at 1, distant_visit at 1. rewrite Hg. cbn [bind].
      destruct (box_open ndim tg g0 g (dt_guess acts)); [|reflexivity].
      rewrite LO. cbn [bind]. change (Z.eqb (-1) (-1)) with true. cbn [negb]. unfold count_ok in HC. rewrite HC. cbn [bind].
      destruct (zlen qs =? 0)%Z; [reflexivity|]. destruct pruned; [reflexivity|].
      destruct (cell_list fuel v c); cbn [bind]; try reflexivity. destruct (update_leaf ndim tg pd a acts); reflexivity. }
    rewrite HV. clear HV.
    destruct (box_open ndim tg g0 g (dt_guess acts)) eqn:EO.
    + destruct (Z.eqb_spec (zlen qs) 0) as [E0|E0].
      * assert (qs = []) as -> by (destruct qs; [easy|unfold zlen in E0; simpl in E0; lia]). cbn in HX. injection HX as <-.
        left. exists acts. split; [reflexivity|]. split; [|easy]. apply skip_seenw; [exact HM|easy].
      * destruct pruned eqn:EP.
        -- right. split; reflexivity.
        -- rewrite (HL EP). cbn [bind].
           destruct (update_leaf_spec ndim tg pd qs xs acts HP HX (member_pos _ HM)) as (acts' & E & F). rewrite E. cbn [bind].
           left. exists acts'. split; [reflexivity|]. split; [|easy].
           clear - F. induction F; constructor; auto using seen_weak.
    + left. exists acts. split; [reflexivity|]. split; [|easy]. apply skip_seenw; [exact HM|].
      intros a x Ha Hx Hs HA. exact (HS acts a x HM Ha Hx Hs EO HA).
  - intros c ks pss Hne Hks IHks (HC & g & xs & Hg & HX & HS) nx LK NN acts HM.
    rewrite linked_unfold in LK. destruct LK as (_ & LO & LL).
    rewrite twalk_unfold. unfold visit at 1, distant_visit at 1. rewrite Hg. cbn [bind].
    destruct ks as [|k ks]; [easy|].
    assert (0 <= root k)%Z by (apply NN; right; destruct k; simpl; now left).
    destruct (box_open ndim tg g0 g (dt_guess acts)) eqn:EO.
    + rewrite LO. cbn [bind]. destruct (Z.eqb_spec (root k) (-1)); [lia|]. cbn [negb bind].
      exact (IHks nx LL (fun c Hc => NN c (or_intror Hc)) acts HM).
    + cbn [bind]. exists xs. split; [exact HX|]. left. exists acts. split; [reflexivity|]. split; [|easy]. apply skip_seenw; [exact HM|].
      intros a x Ha Hx Hs HA. exact (HS acts a x HM Ha Hx Hs EO HA).
  - intros nx _ _ acts HM. exists []. split; [reflexivity|]. left. exists acts. split; [reflexivity|]. split; [|easy]. apply skip_seenw; [exact HM|easy].
  - intros k ks ps pss Hk IHk Hks IHks nx [LA LB] NN acts HM. cbn [twalks concat].
    destruct (IHk _ LA (fun c Hc => NN c (in_or_app _ _ _ (or_introl Hc))) acts HM) as (xs & HX & O).
    destruct O as [(a1 & E1 & F1 & Q1)|(EP & E1)]; rewrite E1; cbn [bind].
    + destruct (IHks _ LB (fun c Hc => NN c (in_or_app _ _ _ (or_intror Hc))) a1 (member_seenw _ _ _ F1 HM)) as (ys & HY & O2).
      exists (xs ++ ys). split; [now apply parts_app2|].
      destruct O2 as [(a2 & E2 & F2 & Q2)|(EP & E2)].
      * left. exists a2. split; [exact E2|]. split; [rewrite map_app; eapply Forall2_app_seenw; eauto|].
        intros EP. rewrite Q2, Q1 by exact EP. reflexivity.
      * right. split; [exact EP|]. rewrite E2. rewrite (Q1 EP). reflexivity.
    + assert (HY : exists ys, parts_of pd (concat pss) = Ok ys).
      { clear - Hks. induction Hks; [exists []; reflexivity|]. destruct IHHks as (ys & E).
        apply ctree_root in H. destruct H as (_ & g & zs & _ & Z & _). exists (zs ++ ys). cbn [concat]. now apply parts_app2. }
      destruct HY as (ys & HY). exists (xs ++ ys). split; [now apply parts_app2|]. right. split; [exact EP|reflexivity].
Qed.

Theorem distant_walk : forall Ncell t qs acts,
  ctree hides leafl t qs -> linked Ncell (vopen v) (vnext v) t Ncell ->
  (forall c, In c (preorder t) -> (0 <= c < Ncell)%Z) -> root t = 0%Z -> msize t = Z.to_nat Ncell ->
  Forall (member ndim g0) acts ->
  exists acts' stopped xs, distant ndim tg pruned pd s Ncell g0 acts = Ok (acts', stopped) /\ parts_of pd qs = Ok xs /\
    if stopped : bool then pruned = true /\ acts' = acts
    else Forall2 (seenw (map body xs)) acts acts' /\ (pruned = true -> acts' = acts).
Proof.
  intros Ncell t qs acts HC HLK HB HR HSz HM.
  destruct (proj1 (distant_twalks Ncell (vnext v)) t qs HC Ncell HLK (fun c Hc => proj1 (HB c Hc)) acts HM) as (xs & HX & O).
  assert (NO : forall c z z', visit c z = Ok (z', Down) -> vopen v c <> Ok (-1)%Z).
  { intros c [ac dt] z'. unfold visit, distant_visit. destruct (aget (ts_g s) c); cbn [bind]; try discriminate.
    destruct (box_open _ _ _ _ _); try discriminate.
    destruct (vopen v c) as [co| | |]; cbn [bind]; try discriminate.
    destruct (Z.eqb_spec co (-1)); cbn [negb]; [|congruence].
    destruct (vN v c) as [n| | |]; cbn [bind]; try discriminate.
    destruct (n =? 0)%Z; try discriminate. destruct pruned; try discriminate.
    destruct (cell_list fuel v c); cbn [bind]; try discriminate.
    destruct (update_leaf _ _ _ _ _); discriminate. }
  unfold distant. fold v. fold fuel. fold visit. rewrite <- HSz, <- HR.
  destruct O as [(a1 & E1 & F1 & Q1)|(EP & E1)].
  - rewrite (walk_correct (vopen v) (vnext v) Ncell visit NO t Ncell (acts, dt_guess acts) _ (fun c Hc => proj2 (HB c Hc)) HLK (Z.le_refl _) E1).
    cbn [bind fst]. exists a1, false, xs. auto.
  - rewrite (walk_correct (vopen v) (vnext v) Ncell visit NO t Ncell (acts, dt_guess acts) _ (fun c Hc => proj2 (HB c Hc)) HLK (Z.le_refl _) E1).
    cbn [bind fst]. exists acts, true, xs. auto.
Qed.
End Tree.
