From Verif Require Import Prelude L_Prelude Vec M_Box L_Box M_Sink S_Stock L_Stock S_Sink.
From Coq Require Import Reals Lra Permutation.
Local Open Scope R_scope.

Lemma lsum_upd : forall {A} (f : A -> R) l n x y, nth_error l n = Some x ->
  lsum f (upd l n y) = lsum f l - f x + f y.
Proof.
  induction l as [|a l IH]; intros [|n] x y H; cbn in *; try discriminate.
  - injection H as ->. lra.
  - rewrite (IH n x y H). lra.
Qed.
Lemma lsum_aset : forall {A} (f : A -> R) l i x y l', aget l i = Ok x -> aset l i y = Ok l' ->
  lsum f l' = lsum f l - f x + f y.
Proof.
  intros A f l i x y l' H1 H2. apply aget_Ok_inv in H1 as [_ H1]. apply aset_Ok_inv in H2 as [_ ->]. now apply lsum_upd.
Qed.
Lemma in_upd : forall {A} (l : list A) n x y, In y (upd l n x) -> In y l \/ y = x.
Proof.
  induction l as [|a l IH]; intros [|n] x y H; cbn in *; try tauto.
  - destruct H as [->|H]; auto.
  - destruct H as [->|H]; auto. destruct (IH n x y H); auto.
Qed.
Lemma in_aget : forall {A} (l : list A) i x, aget l i = Ok x -> In x l.
Proof. intros A l i x H. apply aget_Ok_inv in H as [_ H]. eapply nth_error_In, H. Qed.

Section Loops.
Variables (ndim : nat) (w0 wpot : R -> R).
Variables (sm : Z) (sfrac sdt alpha_ss mmean : R).
Notation whole := (whole sm sfrac sdt mmean).
Notation loop1 := (loop1 sm sfrac sdt mmean).
Notation loop2 := (loop2 ndim sm sfrac sdt mmean).

(** What is taken: number, particle, mass. *)
Fixpoint takes (trot : R) (ps : list gas) (ids : list Z) (macc : R) : list (Z * gas * R) :=
  match ids with
  | [] => []
  | i :: r =>
      match aget ps i with
      | Ok p =>
          if g_dead p then takes trot ps r macc
          else
            let mt := Rmin (g_m p) macc in
            let mt := if whole trot mt p then g_m p else mt in
            (i, p, mt) :: if rltb (macc - mt) tiny then [] else takes trot ps r (macc - mt)
      | _ => []
      end
  end.
Definition tm (x : Z * gas * R) : R := snd x.
Definition tp (x : Z * gas * R) : gas := snd (fst x).

Lemma loop1_takes : forall trot ps ids macc c, (forall i, In i ids -> (0 <= i < zlen ps)%Z) ->
  exists c', loop1 trot ps ids macc c = Ok c' /\ let T := takes trot ps ids macc in
    c_m c' = c_m c + lsum tm T /\
    (forall k, c_r c' k = c_r c k + lsum (fun x => tm x * g_r (tp x) k) T) /\
    (forall k, c_v c' k = c_v c k + lsum (fun x => tm x * g_v (tp x) k) T) /\
    (forall k, c_a c' k = c_a c k + lsum (fun x => tm x * g_a (tp x) k) T) /\
    c_u c' = c_u c + lsum (fun x => tm x * g_u (tp x)) T.
Proof.
  intros trot ps. induction ids as [|i ids IH]; intros macc c Hi; cbn zeta.
  - exists c. cbn. repeat split; intros; lra.
  - destruct (aget_in ps i) as [p Hp]; [apply Hi; now left|].
    cbn [M_Sink.loop1 takes]. rewrite Hp. cbn [bind]. destruct (g_dead p) eqn:D.
    + apply IH. intros; apply Hi; now right.
    + cbn zeta. set (mt := if whole trot (Rmin (g_m p) macc) p then g_m p else Rmin (g_m p) macc).
      destruct (rltb (macc - mt) tiny) eqn:B.
      * eexists. split; [reflexivity|]. cbn. unfold tm, tp. cbn. repeat split; intros; lra.
      * match goal with |- context [M_Sink.loop1 _ _ _ _ _ _ _ _ ?C] => destruct (IH (macc - mt) C) as (c' & E & A1 & A2 & A3 & A4 & A5) end;
          [intros; apply Hi; now right|].
        exists c'. split; [exact E|]. cbn [c_m c_r c_v c_a c_u lsum] in *. unfold tm, tp in *. cbn [fst snd] in *.
        repeat split; intros; rewrite ?A1, ?A2, ?A3, ?A4, ?A5; lra.
Qed.

(** The mass taken. *)
Lemma takes_bounds : forall trot ps ids macc, 0 <= macc -> (forall p, In p ps -> 0 <= g_m p) ->
  forall x, In x (takes trot ps ids macc) ->
  0 <= tm x <= g_m (tp x) /\ In (fst (fst x)) ids /\ aget ps (fst (fst x)) = Ok (tp x) /\ g_dead (tp x) = false.
Proof.
  intros trot ps. induction ids as [|i ids IH]; intros macc Hm Hp x; cbn [takes]; [easy|].
  destruct (aget ps i) as [p| | |] eqn:E; try easy. assert (0 <= g_m p) by (apply Hp; eapply in_aget; eauto).
  destruct (g_dead p) eqn:D.
  - intros Hx. destruct (IH macc Hm Hp x Hx) as (A & B & C & F). repeat split; auto; [apply A|apply A|now right].
  - cbn zeta. set (mt := if whole trot (Rmin (g_m p) macc) p then g_m p else Rmin (g_m p) macc).
    intros [<-|Hx].
    + unfold tm, tp. cbn. repeat split; auto; unfold mt; destruct (whole trot (Rmin (g_m p) macc) p); try lra.
      * now apply Rmin_glb.
      * apply Rmin_l.
    + destruct (rltb (macc - mt) tiny) eqn:B; [easy|]. apply rltb_false in B.
      assert (0 < tiny) by (unfold tiny; apply Rinv_0_lt_compat, pow_lt; lra).
      destruct (IH (macc - mt) ltac:(lra) Hp x Hx) as (A & B' & C & F). repeat split; auto; [apply A|apply A|now right].
Qed.
Lemma takes_ext : forall trot ps ps' ids macc, (forall i, In i ids -> aget ps i = aget ps' i) ->
  takes trot ps ids macc = takes trot ps' ids macc.
Proof.
  intros trot ps ps'. induction ids as [|i ids IH]; intros macc H; cbn [takes]; [easy|].
  rewrite <- (H i (or_introl eq_refl)). destruct (aget ps i); auto.
  destruct (g_dead a); [apply IH; intros; apply H; now right|]. cbn zeta.
  destruct (rltb _ tiny); auto. f_equal. apply IH. intros; apply H; now right.
Qed.

(** Functions of a particle that sinks change only through the mass. *)
Definition by_mass (f : gas -> R) (phi : gas -> R) : Prop :=
  (forall p, f (swallow p) = f p - g_m p * phi p) /\ (forall dm p, f (drain dm p) = f p - dm * phi p).
Lemma loop2_takes : forall trot R0 V0 ids ps macc L, NoDup ids -> (forall i, In i ids -> (0 <= i < zlen ps)%Z) ->
  exists ps' L', loop2 trot R0 V0 ps ids macc L = Ok (ps', L') /\ let T := takes trot ps ids macc in
    zlen ps' = zlen ps /\
    (forall f phi, by_mass f phi -> lsum f ps' = lsum f ps - lsum (fun x => tm x * phi (tp x)) T) /\
    (forall k l c, plane ndim k l c ->
       L' c = L c + lsum (fun x => tm x * ((g_r (tp x) k - R0 k) * (g_v (tp x) l - V0 l) - (g_r (tp x) l - R0 l) * (g_v (tp x) k - V0 k))) T).
Proof.
  intros trot R0 V0. induction ids as [|i ids IH]; intros ps macc L HN Hi; cbn zeta.
  - exists ps, L. cbn. repeat split; intros; lra.
  - inversion HN as [|? ? Hni HN']; subst.
    destruct (aget_in ps i) as [p Hp]; [apply Hi; now left|].
    cbn [M_Sink.loop2 takes]. rewrite Hp. cbn [bind]. destruct (g_dead p) eqn:D.
    + apply IH; auto. intros; apply Hi; now right.
    + cbn zeta. set (w := whole trot (Rmin (g_m p) macc) p). set (mt := if w then g_m p else Rmin (g_m p) macc).
      set (p' := if w then swallow p else drain mt p).
      rewrite (aset_in ps i p') by (apply Hi; now left). cbn [bind].
      set (ps1 := upd ps (Z.to_nat i) p'). set (L1 := add_angmom ndim mt (vsub (g_r p) R0) (vsub (g_v p) V0) L).
      assert (F1 : forall f phi, by_mass f phi -> lsum f ps1 = lsum f ps - mt * phi p).
      { intros f phi [B1 B2]. unfold ps1. apply aget_Ok_inv in Hp as [_ Hp]. rewrite (lsum_upd f ps _ p p' Hp).
        unfold p', mt. destruct w; [rewrite B1|rewrite B2]; lra. }
      assert (F2 : forall k l c, plane ndim k l c -> L1 c = L c + mt * ((g_r p k - R0 k) * (g_v p l - V0 l) - (g_r p l - R0 l) * (g_v p k - V0 k))).
      { intros k l c Hpl. unfold L1, add_angmom, vsub.
        destruct Hpl as [[-> [E|[E|E]]]|[-> E]]; injection E as -> -> ->; cbn; lra. }
      destruct (rltb (macc - mt) tiny) eqn:B.
      * exists ps1, L1. split; [reflexivity|]. split; [apply zlen_upd|]. split.
        -- intros f phi Hb. rewrite (F1 f phi Hb). cbn. unfold tm, tp. cbn. lra.
        -- intros k l c Hpl. rewrite (F2 k l c Hpl). cbn. unfold tm, tp. cbn. lra.
      * destruct (IH ps1 (macc - mt) L1 HN') as (ps' & L' & E & Z1 & A1 & A2).
        { intros j Hj. unfold ps1. rewrite zlen_upd. apply Hi. now right. }
        exists ps', L'. split; [exact E|].
        assert (TE : takes trot ps1 ids (macc - mt) = takes trot ps ids (macc - mt)).
        { apply takes_ext. intros j Hj. unfold ps1. apply aget_upd_ne; [apply (Hi i); now left|]. intros ->. contradiction. }
        rewrite TE in A1, A2. split; [unfold ps1 in Z1; now rewrite zlen_upd in Z1|]. split.
        -- intros f phi Hb. rewrite (A1 f phi Hb), (F1 f phi Hb). cbn [lsum]. unfold tm, tp. cbn [fst snd]. lra.
        -- intros k l c Hpl. rewrite (A2 k l c Hpl), (F2 k l c Hpl). cbn [lsum]. unfold tm, tp. cbn [fst snd]. lra.
Qed.
(** Masses stay non-negative. *)
Lemma loop2_nonneg : forall trot R0 V0 ids ps macc L ps' L', 0 <= macc -> (forall p, In p ps -> 0 <= g_m p) ->
  loop2 trot R0 V0 ps ids macc L = Ok (ps', L') -> forall p, In p ps' -> 0 <= g_m p.
Proof.
  intros trot R0 V0. induction ids as [|i ids IH]; intros ps macc L ps' L' Hm Hp E; cbn [M_Sink.loop2] in E.
  - injection E as <- <-. auto.
  - destruct (aget ps i) as [p| | |] eqn:Ep; try discriminate. cbn [bind] in E. destruct (g_dead p).
    + eapply IH; eauto.
    + assert (P0 : 0 <= g_m p) by (apply Hp; eapply in_aget; eauto).
      cbn zeta in E. set (w := whole trot (Rmin (g_m p) macc) p) in *. set (mt := if w then g_m p else Rmin (g_m p) macc) in *.
      destruct (aset ps i (if w then swallow p else drain mt p)) as [ps1| | |] eqn:Ea; try discriminate. cbn [bind] in E.
      assert (H1 : forall q, In q ps1 -> 0 <= g_m q).
      { intros q Hq. apply aset_Ok_inv in Ea as [_ ->]. apply in_upd in Hq as [Hq| ->]; auto.
        unfold mt. destruct w; cbn; [lra|]. pose proof (Rmin_l (g_m p) macc). lra. }
      destruct (rltb (macc - mt) tiny) eqn:B.
      * injection E as <- <-. auto.
      * apply rltb_false in B. assert (0 < tiny) by (unfold tiny; apply Rinv_0_lt_compat, pow_lt; lra).
        eapply IH; [| |exact E]; auto. lra.
Qed.

(** The gathering of the sink's particles. *)
Lemma own_list_ok : forall s sk l ps, (forall i, In i l -> (0 <= i < zlen ps)%Z) -> NoDup l ->
  exists ps' o, own_list ndim s sk ps l = Ok (ps', o) /\ zlen ps' = zlen ps /\ NoDup (map fst o) /\
    (forall i, In i (map fst o) -> In i l) /\
    (forall f, (forall lv p, f (set_levelneib lv p) = f p) -> lsum f ps' = lsum f ps) /\
    (forall p', In p' ps' -> exists p, In p ps /\ g_m p' = g_m p).
Proof.
  intros s sk. induction l as [|i l IH]; intros ps Hi HN.
  - exists ps, []. cbn. repeat split; auto; try constructor; try tauto. intros p' H. exists p'. auto.
  - inversion HN as [|? ? Hni HN']; subst.
    destruct (aget_in ps i) as [p Hp]; [apply Hi; now left|].
    assert (SK : exists ps' o, own_list ndim s sk ps l = Ok (ps', o) /\ zlen ps' = zlen ps /\ NoDup (map fst o) /\
      (forall j, In j (map fst o) -> In j (i :: l)) /\
      (forall f, (forall lv p, f (set_levelneib lv p) = f p) -> lsum f ps' = lsum f ps) /\
      (forall p', In p' ps' -> exists p, In p ps /\ g_m p' = g_m p)).
    { destruct (IH ps) as (ps' & o & E & A & B & C & D & F); auto. { intros; apply Hi; now right. }
      exists ps', o. repeat split; auto. intros; right; auto. }
    cbn [own_list]. rewrite Hp. cbn [bind]. destruct (g_dead p); [exact SK|]. destruct (g_sinkid p =? s)%Z; [|exact SK].
    cbn zeta. destruct (rltb _ _); [exact SK|]. clear SK.
    set (p1 := set_levelneib (Z.max (g_levelneib p) (s_level sk)) p).
    rewrite (aset_in ps i p1) by (apply Hi; now left). cbn [bind]. set (ps1 := upd ps (Z.to_nat i) p1).
    destruct (IH ps1) as (ps' & o & E & A & B & C & D & F); auto.
    { intros j Hj. unfold ps1. rewrite zlen_upd. apply Hi. now right. }
    rewrite E. cbn [bind]. eexists _, _. split; [reflexivity|]. unfold ps1 in A. rewrite zlen_upd in A.
    split; [exact A|]. cbn [map fst]. split; [constructor; auto|]. split; [intros j [<-|Hj]; [now left|right; auto]|]. split.
    + intros f Hf. rewrite (D f Hf). unfold ps1. apply aget_Ok_inv in Hp as [_ Hp]. rewrite (lsum_upd f ps _ p p1 Hp). unfold p1. rewrite Hf. lra.
    + intros p' Hp'. destruct (F p' Hp') as (q & Hq & Eq). apply in_upd in Hq as [Hq| ->]; [exists q; auto|].
      exists p. split; [eapply in_aget; eauto|]. rewrite Eq. reflexivity.
Qed.
Lemma insert_rev_perm : forall x l, Permutation (insert_rev x l) (x :: l).
Proof.
  induction l as [|y t IH]; cbn; [auto|]. destruct (rleb (snd y) (snd x)); [auto|].
  eapply perm_trans; [apply perm_skip, IH|apply perm_swap].
Qed.
Lemma isort_perm : forall l, Permutation (InsertionSortIds l) l.
Proof.
  intros l. unfold InsertionSortIds. eapply perm_trans; [apply Permutation_sym, Permutation_rev|].
  assert (H : forall a, Permutation (fold_left (fun acc x => insert_rev x acc) l a) (l ++ a)).
  { induction l as [|x l IH]; intros a; cbn; [auto|]. eapply perm_trans; [apply IH|].
    eapply perm_trans; [apply Permutation_app_head, insert_rev_perm|]. apply Permutation_sym, Permutation_middle. }
  specialize (H []). now rewrite app_nil_r in H.
Qed.
Lemma enclosed_ok : forall sk ps ids e, (forall i, In i ids -> (0 <= i < zlen ps)%Z) -> (forall p, In p ps -> 0 <= g_m p) ->
  0 <= e_menc e -> exists e', enclosed ndim w0 wpot sk ps ids e = Ok e' /\ 0 <= e_menc e'.
Proof.
  intros sk ps. induction ids as [|i ids IH]; intros e Hi Hp He; [exists e; auto|].
  destruct (aget_in ps i) as [p Ep]; [apply Hi; now left|]. cbn [enclosed]. rewrite Ep. cbn [bind].
  assert (0 <= g_m p) by (apply Hp; eapply in_aget; eauto).
  destruct (g_dead p); apply IH; auto; try (intros; apply Hi; now right). cbn. lra.
Qed.
Lemma accreted_nonneg : forall timestep sk e, 0 <= e_menc e -> 0 <= fst (fst (accreted sm alpha_ss timestep sk e)).
Proof.
  intros timestep sk e He. unfold accreted. destruct (sm =? 1)%Z; cbn; [|lra].
  apply Rmult_le_pos; [lra|apply Rmax_r].
Qed.

Definition w_m (x : R * vec * vec) : R := fst (fst x).
Definition w_r (x : R * vec * vec) : vec := snd (fst x).
Definition w_v (x : R * vec * vec) : vec := snd x.
Lemma com_identity : forall (M : R) (L : list (R * vec * vec)) (Rc Vc : vec) k l,
  lsum w_m L = M ->
  (forall j, M * Rc j = lsum (fun x => w_m x * w_r x j) L) ->
  (forall j, M * Vc j = lsum (fun x => w_m x * w_v x j) L) ->
  M * (Rc k * Vc l - Rc l * Vc k) +
  lsum (fun x => w_m x * ((w_r x k - Rc k) * (w_v x l - Vc l) - (w_r x l - Rc l) * (w_v x k - Vc k))) L =
  lsum (fun x => w_m x * (w_r x k * w_v x l - w_r x l * w_v x k)) L.
Proof.
  intros M L Rc Vc k l HM HR HV.
  assert (E : lsum (fun x => w_m x * ((w_r x k - Rc k) * (w_v x l - Vc l) - (w_r x l - Rc l) * (w_v x k - Vc k))) L =
    lsum (fun x => w_m x * (w_r x k * w_v x l - w_r x l * w_v x k)) L
    - Vc l * lsum (fun x => w_m x * w_r x k) L - Rc k * lsum (fun x => w_m x * w_v x l) L
    + Vc k * lsum (fun x => w_m x * w_r x l) L + Rc l * lsum (fun x => w_m x * w_v x k) L
    + (Rc k * Vc l - Rc l * Vc k) * lsum w_m L).
  { clear. induction L as [|x L IH]; cbn [lsum]; [lra|]. rewrite IH. ring. }
  rewrite E, <- !HR, <- !HV, HM. ring.
Qed.

Lemma accrete_sink_conserves : forall nnow timestep s sk ps found, valid_ids ps found ->
  (forall p, In p ps -> 0 <= g_m p) -> 0 < s_m sk -> (s_nstep sk <> 0)%Z ->
  exists ps' sk', accrete_sink ndim w0 wpot sm sfrac sdt alpha_ss mmean nnow timestep s sk ps found = Ok (ps', sk') /\
    zlen ps' = zlen ps /\ s_nstep sk' = s_nstep sk /\ 0 < s_m sk' /\ (forall p, In p ps' -> 0 <= g_m p) /\
    lsum g_m ps' + s_m sk' = lsum g_m ps + s_m sk /\
    (forall k, lsum (fun p => g_m p * g_v p k) ps' + s_m sk' * s_v sk' k = lsum (fun p => g_m p * g_v p k) ps + s_m sk * s_v sk k) /\
    (forall k, lsum (fun p => g_m p * g_r p k) ps' + s_m sk' * s_r sk' k = lsum (fun p => g_m p * g_r p k) ps + s_m sk * s_r sk k) /\
    (forall k, lsum (fun p => g_m p * g_a p k) ps' + s_m sk' * s_a sk' k = lsum (fun p => g_m p * g_a p k) ps + s_m sk * s_a sk k) /\
    lsum (fun p => g_m p * g_u p) ps' + s_utot sk' = lsum (fun p => g_m p * g_u p) ps + s_utot sk /\
    (forall k l c, plane ndim k l c ->
      lsum (fun p => g_m p * (g_r p k * g_v p l - g_r p l * g_v p k)) ps' + (s_m sk' * (s_r sk' k * s_v sk' l - s_r sk' l * s_v sk' k) + s_angmom sk' c) =
      lsum (fun p => g_m p * (g_r p k * g_v p l - g_r p l * g_v p k)) ps + (s_m sk * (s_r sk k * s_v sk l - s_r sk l * s_v sk k) + s_angmom sk c)).
Proof.
  intros nnow timestep s sk ps found [HN Hi] Hp Hs Hst. unfold accrete_sink.
  destruct (s_Ngas sk =? 0)%Z; [exists ps, sk; repeat split; auto|].
  destruct (s_nstep sk =? 0)%Z eqn:E0; [exfalso; lia|]. clear E0.
  destruct (negb _); [exists ps, sk; repeat split; auto|].
  destruct (own_list_ok s sk found ps Hi HN) as (ps1 & o & -> & Z1 & N1 & I1 & F1 & M1). cbn [bind].
  set (ids := map fst (InsertionSortIds o)).
  assert (PI : Permutation ids (map fst o)) by (apply Permutation_map, isort_perm).
  assert (NI : NoDup ids) by (eapply Permutation_NoDup; [apply Permutation_sym, PI|exact N1]).
  assert (BI : forall i, In i ids -> (0 <= i < zlen ps1)%Z).
  { intros i H. rewrite Z1. apply Hi, I1. eapply Permutation_in; [exact PI|exact H]. }
  assert (P1 : forall p, In p ps1 -> 0 <= g_m p).
  { intros p H. destruct (M1 p H) as (q & Hq & ->). auto. }
  destruct (enclosed_ok sk ps1 ids {| e_menc := 0; e_wnorm := 0; e_gpe := 0; e_rot := 0; e_tvisc := 1; e_trad := 0 |} BI P1 ltac:(cbn; lra))
    as (e & -> & He). cbn [bind].
  pose proof (accreted_nonneg timestep sk e He) as Hacc.
  destruct (accreted sm alpha_ss timestep sk e) as [[macc trot] dmdt]. cbn [fst] in Hacc.
  destruct (loop1_takes trot ps1 ids macc {| c_m := s_m sk; c_r := vscal (s_m sk) (s_r sk); c_v := vscal (s_m sk) (s_v sk);
     c_a := vscal (s_m sk) (s_a sk); c_u := s_utot sk |} BI) as (c & -> & C1 & C2 & C3 & C4 & C5). cbn [bind].
  set (T := takes trot ps1 ids macc) in *. cbn [c_m c_r c_v c_a c_u] in C1, C2, C3, C4, C5.
  set (r := fun k => c_r c k / c_m c). set (v := fun k => c_v c k / c_m c).
  set (L0 := add_angmom ndim (s_m sk) (vsub (s_r sk) r) (vsub (s_v sk) v) (s_angmom sk)).
  destruct (loop2_takes trot r v ids ps1 macc L0 NI BI) as (ps' & L & E2 & Z2 & A1 & A2). rewrite E2. cbn [bind].
  fold T in A1, A2.
  assert (TP : 0 <= lsum tm T).
  { apply lsum_nonneg. intros x Hx. apply (takes_bounds trot ps1 ids macc Hacc P1 x Hx). }
  assert (MP : 0 < c_m c) by lra.
  eexists ps', _. split; [reflexivity|]. cbn [s_m s_r s_v s_a s_nstep s_angmom s_utot].
  split; [congruence|]. split; [reflexivity|]. split; [exact MP|].
  split; [eapply loop2_nonneg; [exact Hacc|exact P1|exact E2]|].
  assert (Q : forall k, c_m c * r k = c_r c k) by (intros; unfold r; field; lra).
  assert (Q' : forall k, c_m c * v k = c_v c k) by (intros; unfold v; field; lra).
  split; [|split; [|split; [|split; [|split]]]].
  - rewrite (A1 g_m (fun _ => 1)) by (split; intros; cbn; lra). rewrite (F1 g_m) by reflexivity. rewrite C1.
    rewrite (lsum_ext (fun x => tm x * 1) tm) by (intros; lra). lra.
  - intros k. rewrite (A1 _ (fun p => g_v p k)) by (split; intros; cbn; lra). rewrite (F1 (fun p => g_m p * g_v p k)) by reflexivity. rewrite Q', C3. unfold vscal. lra.
  - intros k. rewrite (A1 _ (fun p => g_r p k)) by (split; intros; cbn; lra). rewrite (F1 (fun p => g_m p * g_r p k)) by reflexivity. rewrite Q, C2. unfold vscal. lra.
  - intros k. rewrite (A1 _ (fun p => g_a p k)) by (split; intros; cbn; lra). rewrite (F1 (fun p => g_m p * g_a p k)) by reflexivity.
    replace (c_m c * (c_a c k / c_m c)) with (c_a c k) by (field; lra). rewrite C4. unfold vscal. lra.
  - rewrite (A1 _ (fun p => g_u p)) by (split; intros; cbn; lra). rewrite (F1 (fun p => g_m p * g_u p)) by reflexivity. rewrite C5. lra.
  - intros k l cc Hpl. rewrite (A1 _ (fun p => g_r p k * g_v p l - g_r p l * g_v p k)) by (split; intros; cbn; lra).
    rewrite (F1 (fun p => g_m p * (g_r p k * g_v p l - g_r p l * g_v p k))) by reflexivity.
    rewrite (A2 k l cc Hpl).
    assert (HL : L0 cc = s_angmom sk cc + s_m sk * ((s_r sk k - r k) * (s_v sk l - v l) - (s_r sk l - r l) * (s_v sk k - v k))).
    { unfold L0, add_angmom, vsub. destruct Hpl as [[-> [E|[E|E]]]|[-> E]]; injection E as -> -> ->; cbn; lra. }
    rewrite HL.
    set (W := (s_m sk, s_r sk, s_v sk) :: map (fun x => (tm x, g_r (tp x), g_v (tp x))) T).
    assert (SM : forall f, lsum f (map (fun x => (tm x, g_r (tp x), g_v (tp x))) T) = lsum (fun x => f (tm x, g_r (tp x), g_v (tp x))) T).
    { intros f. clear. induction T as [|x T IH]; cbn [map lsum]; [lra|]. now rewrite IH. }
    pose proof (com_identity (c_m c) W r v k l) as CI. unfold W in CI. cbn [lsum] in CI. rewrite !SM in CI. unfold w_m, w_r, w_v in CI. cbn [fst snd] in CI.
    assert (CI' := CI (eq_sym C1)). clear CI.
    assert (H1 : forall j, c_m c * r j = lsum (fun x => w_m x * w_r x j) W).
    { intros j. unfold W. cbn [lsum]. rewrite SM. unfold w_m, w_r, w_v. cbn [fst snd]. rewrite Q, C2. unfold vscal. lra. }
    assert (H2 : forall j, c_m c * v j = lsum (fun x => w_m x * w_v x j) W).
    { intros j. unfold W. cbn [lsum]. rewrite SM. unfold w_m, w_r, w_v. cbn [fst snd]. rewrite Q', C3. unfold vscal. lra. }
    unfold W, w_m, w_r, w_v in H1, H2. cbn [lsum] in H1, H2. specialize (CI' H1 H2). lra.
Qed.

(** All sinks, in any order. *)
Lemma accrete_all_conserves : forall nnow timestep found order ps sks, masses_ok ps sks ->
  (forall s, In s sks -> (s_nstep s <> 0)%Z) -> (forall s, In s order -> (0 <= s < zlen sks)%Z /\ valid_ids ps (found s)) ->
  exists ps' sks', accrete_all ndim w0 wpot sm sfrac sdt alpha_ss mmean nnow timestep found order ps sks = Ok (ps', sks') /\
    zlen ps' = zlen ps /\ zlen sks' = zlen sks /\ masses_ok ps' sks' /\
    total_mass ps' sks' = total_mass ps sks /\
    (forall k, total_momentum k ps' sks' = total_momentum k ps sks /\ total_moment k ps' sks' = total_moment k ps sks /\
               total_force k ps' sks' = total_force k ps sks) /\
    total_heat ps' sks' = total_heat ps sks /\
    (forall k l c, plane ndim k l c -> total_angmom k l c ps' sks' = total_angmom k l c ps sks).
Proof.
  intros nnow timestep found. induction order as [|s order IH]; intros ps sks [Hp Hs] Hst Ho.
  - exists ps, sks. repeat split; auto.
  - destruct (Ho s (or_introl eq_refl)) as [Hb Hv]. destruct (aget_in sks s Hb) as [sk Esk].
    cbn [accrete_all]. rewrite Esk. cbn [bind].
    assert (Isk : In sk sks) by (eapply in_aget; eauto).
    destruct (accrete_sink_conserves nnow timestep s sk ps (found s) Hv Hp (Hs sk Isk) (Hst sk Isk))
      as (ps1 & sk1 & -> & Z1 & N1 & P1 & Q1 & K1 & K2 & K3 & K4 & K5 & K6). cbn [bind].
    rewrite (aset_in sks s sk1 Hb). cbn [bind]. set (sks1 := upd sks (Z.to_nat s) sk1).
    assert (U : forall f, lsum f sks1 = lsum f sks - f sk + f sk1).
    { intros f. unfold sks1. apply aget_Ok_inv in Esk as [_ Esk]. now apply lsum_upd. }
    destruct (IH ps1 sks1) as (ps' & sks' & E & A1 & A2 & A3 & A4 & A5 & A6 & A7).
    + split; [exact Q1|]. intros x Hx. apply in_upd in Hx as [Hx| ->]; auto.
    + intros x Hx. apply in_upd in Hx as [Hx| ->]; auto. rewrite N1. auto.
    + intros s' Hs'. destruct (Ho s' (or_intror Hs')) as [B1 [B2 B3]]. unfold sks1. rewrite zlen_upd. split; [exact B1|]. split; [exact B2|].
      intros i Hi. rewrite Z1. auto.
    + exists ps', sks'. split; [exact E|]. unfold sks1 in A2. rewrite zlen_upd in A2. split; [congruence|]. split; [exact A2|].
      split; [exact A3|]. rewrite A4, A6. unfold total_mass, total_heat. rewrite !U. split; [lra|].
      split; [intros k; destruct (A5 k) as (-> & -> & ->); unfold total_momentum, total_moment, total_force; rewrite !U;
              specialize (K2 k); specialize (K3 k); specialize (K4 k); repeat split; lra|].
      split; [lra|]. intros k l c Hpl. rewrite (A7 k l c Hpl). unfold total_angmom. rewrite !U. specialize (K6 k l c Hpl). lra.
Qed.
End Loops.
