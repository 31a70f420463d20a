(** Lemmas on the exchange of ghosts: the ghosts of a process are copies of the exported particles. *)
From Verif Require Import Prelude L_Prelude Vec S_Tree L_Tree L_KDTop M_Util S_Util L_Util M_Sync L_Sync M_Store L_Store M_Return S_Return L_Return.
From Coq Require Import Reals Lra.
Local Open Scope Z_scope.

Lemma put_ok : forall gs d i, 0 <= i -> i + zlen gs <= zlen d ->
  exists d', put_ghosts d i gs = Ok d' /\ zlen d' = zlen d /\ (forall j, ~ (i <= j < i + zlen gs) -> aget d' j = aget d j) /\
    forall t g, aget gs t = Ok g -> aget d' (i + t) = Ok (unset_active g).
Proof.
  induction gs as [|g gs IH]; intros d i Hi HL.
  - exists d. split; [reflexivity|]. split; [reflexivity|]. split; [reflexivity|]. intros t g E. apply aget_Ok_inv in E as [R _]. unfold zlen in R. cbn in R. lia.
  - assert (Lg : zlen (g :: gs) = 1 + zlen gs) by (unfold zlen; cbn [length]; lia). pose proof (zlen_nonneg gs). cbn [put_ghosts]. destruct (aset_spec d i (unset_active g)) as (d1 & E1 & L1 & G1 & O1); [lia|].
    rewrite E1. cbn [bind]. destruct (IH d1 (i + 1)) as (d' & E & L & O & G); [lia|lia|]. exists d'. split; [exact E|]. split; [lia|]. split.
    + intros j Hj. rewrite O by lia. apply O1. lia.
    + intros t x Ht. pose proof (aget_Ok_inv _ _ _ Ht) as [Rt _]. destruct (Z.eq_dec t 0) as [->|N0].
      * change (Ok g = Ok x) in Ht. injection Ht as <-. rewrite O by lia. replace (i + 0) with i by lia. exact G1.
      * replace (i + t) with (i + 1 + (t - 1)) by lia. apply G. rewrite <- Ht. pose proof (aget_app2 [g] gs (t - 1) ltac:(lia)) as X. change (zlen [g]) with 1 in X. replace (1 + (t - 1)) with t in X by lia. symmetry. exact X.
Qed.
Lemma upto_aget : forall {A} (f : Z -> list A) N q t, 0 <= q < N -> 0 <= t < zlen (f q) -> aget (upto f N) (zlen (upto f q) + t) = aget (f q) t.
Proof. intros A f N q t Hq Ht. destruct (upto_split f q N Hq) as (post & ->). rewrite aget_app2 by lia. apply aget_app1. lia. Qed.
Lemma upto_len_ext : forall {A B} (f : Z -> list A) (g : Z -> list B) n, (forall q, zlen (f q) = zlen (g q)) -> zlen (upto f n) = zlen (upto g n).
Proof. intros A B f g n H. rewrite <- !zsum_upto. f_equal. apply map_ext. exact H. Qed.
Lemma upto_len_mono : forall {A} (f : Z -> list A) q N, 0 <= q < N -> zlen (upto f q) + zlen (f q) <= zlen (upto f N).
Proof. intros A f q N H. destruct (upto_split f q N H) as (post & ->). rewrite !L_Sync.zlen_app. pose proof (zlen_nonneg post). lia. Qed.

Definition p0 : proc := mkproc (mkstore 0 0 0 []) 0.
Section Exchange.
Variables (N : Z) (junk : part) (E : list (list (list Z))) (procs : list proc).
Hypotheses (HN : 0 < N) (HP : zlen procs = N) (SQ : square N E) (EX : exports_ok E procs).
Hypothesis HD : forall q p, aget procs q = Ok p -> 0 <= Nhydro (store_of p) /\ 0 <= nper p /\ Nhydro (store_of p) + nper p <= zlen (data (store_of p)).
Definition pr (q : Z) : proc := nth (Z.to_nat q) procs p0.
Lemma pr_get : forall q, 0 <= q < N -> aget procs q = Ok (pr q).
Proof. intros q Hq. clear - HP Hq. apply aget_nth_error; [lia|]. apply nth_error_nth'. unfold zlen in HP. lia. Qed.
Lemma pr_inv : forall q p, aget procs q = Ok p -> 0 <= q < N /\ p = pr q.
Proof. intros q p H. clear - HP H. pose proof (aget_Ok_inv _ _ _ H) as [R _]. rewrite HP in R. split; [exact R|]. rewrite pr_get in H by exact R. congruence. Qed.
Definition msg (q r : Z) : list part := map (fun i => set_iorig i (nth (Z.to_nat i) (data (store_of (pr q))) junk)) (ent [] E q r).
Definition NrecvOf : list (list Z) := mat N (fun r q => zlen (ent [] E q r)).
Definition arrived (r : Z) : list part := upto (fun q => msg q r) N.
Lemma msg_len : forall q r, zlen (msg q r) = zlen (ent [] E q r). Proof. intros. unfold msg, zlen. now rewrite map_length. Qed.
Lemma arrived_len : forall r, 0 <= r < N -> zlen (arrived r) = before E r (Z.to_nat N).
Proof. intros r Hr. unfold arrived. rewrite (before_upto N E r SQ Hr N) by lia. apply upto_len_ext. intros q. apply msg_len. Qed.

Lemma map_mat : forall {A B} (g : A -> B) (f : Z -> Z -> A), map (map g) (mat N f) = mat N (fun q r => g (f q r)).
Proof. intros A B g f. unfold mat. rewrite map_map. apply map_ext. intros q. now rewrite map_map. Qed.

Lemma exchange_ok : forall received, (forall r, 0 <= r < N -> exists b, aget received r = Ok b /\ zlen b = before E r (Z.to_nat N)) ->
  exchange N E NrecvOf procs received = Ok (map arrived (zs N)).
Proof.
  intros received HR. unfold exchange.
  rewrite (each_ok (fun q => upto (msg q) N)).
  2:{ intros q Hq. rewrite pr_get by exact Hq. cbn [bind]. assert (EQ : aget E q = Ok (map (ent [] E q) (zs N))) by (rewrite (square_mat [] N E SQ) at 1; exact (aget_zs (fun q => map (ent [] E q) (zs N)) N q Hq)).
      rewrite EQ. cbn [bind]. unfold fill_export. rewrite (collect_ok _ (fun i => set_iorig i (nth (Z.to_nat i) (data (store_of (pr q))) junk))).
      - f_equal. unfold upto, msg. rewrite concat_map, map_map. reflexivity.
      - intros i Hi. apply in_concat in Hi as (l & Hl & Hi). apply in_map_iff in Hl as (r & <- & Hr). unfold zs in Hr. rewrite zseq_in in Hr.
        pose proof (EX q r _ _ i (square_get [] N E q r SQ Hq ltac:(lia)) (pr_get q Hq) Hi) as B. destruct (HD q _ (pr_get q Hq)) as (B1 & B2 & B3).
        rewrite (aget_nth_error _ i (nth (Z.to_nat i) (data (store_of (pr q))) junk)); [reflexivity|lia|]. apply nth_error_nth'. unfold zlen in B3. lia. }
  cbn [bind]. fold (zs N). apply a2a_ok.
  - intros q r Hq Hr. rewrite !msg_len. split; [|split; [|split]].
    + rewrite (square_mat [] N E SQ) at 1. rewrite map_mat. exact (aget_mat N (fun q r => zlen (ent [] E q r)) q r Hq Hr).
    + unfold aget2. rewrite (square_mat [] N E SQ) at 1. unfold mat. rewrite map_map, aget_zs by exact Hq. cbn [bind]. rewrite map_map.
      rewrite (running_upto (ent [] E q)) by exact Hr. f_equal. apply upto_len_ext. intros x. symmetry. apply msg_len.
    + unfold NrecvOf. now rewrite aget_mat.
    + unfold aget2, NrecvOf, mat. rewrite map_map, aget_zs by exact Hr. cbn [bind]. rewrite (running_upto (fun q => ent [] E q r)) by exact Hq. f_equal. apply upto_len_ext. intros x. symmetry. apply msg_len.
  - intros r Hr. destruct (HR r Hr) as (b & Eb & Lb). exists b. split; [exact Eb|]. rewrite Lb. symmetry. apply arrived_len. exact Hr.
Qed.
Lemma send_receive_ok : forall old, square N old -> SendReceiveGhosts N junk old E procs = Ok (map arrived (zs N), NrecvOf).
Proof.
  intros old SO. unfold SendReceiveGhosts. rewrite (square_mat [] N E SQ) at 1. rewrite map_mat. rewrite (alltoall_ok N (fun q r => zlen (ent [] E q r)) old ltac:(lia) SO). cbn [bind]. fold NrecvOf.
  rewrite exchange_ok; [reflexivity|]. intros r Hr. unfold NrecvOf, mat. rewrite map_map, aget_zs by exact Hr. eexists. split; [reflexivity|].
  unfold zlen at 1. rewrite repeat_length. rewrite fold_add, (zsum_upto (fun q => ent [] E q r)). rewrite (before_upto N E r SQ Hr N) by lia. unfold zlen. lia.
Qed.
(** A ghost of process r. *)
Lemma arrived_get : forall r q l t i pq x, 0 <= r < N -> aget2 E q r = Ok l -> aget procs q = Ok pq -> aget l t = Ok i -> aget (data (store_of pq)) i = Ok x ->
  aget (arrived r) (before E r (Z.to_nat q) + t) = Ok (set_iorig i x).
Proof.
  intros r q l t i pq x Hr Hl Hp Hi Hx. destruct (square_aget [] N E q r l SQ Hl) as (Hq & _ & ->). apply pr_inv in Hp as [_ ->]. pose proof (aget_Ok_inv _ _ _ Hi) as [Rt Ni].
  rewrite (before_upto N E r SQ Hr q) by lia. rewrite (upto_len_ext _ (fun q => msg q r)) by (intros; symmetry; apply msg_len). unfold arrived. rewrite (upto_aget (fun q => msg q r)); [|exact Hq|rewrite msg_len; exact Rt].
  apply aget_nth_error; [lia|]. unfold msg. erewrite map_nth_error; [|exact Ni]. pose proof (aget_Ok_inv _ _ _ Hx) as [_ Nx]. now rewrite (nth_error_nth _ _ _ Nx).
Qed.

Lemma search_ok : forall old, square N old -> (forall q p, aget procs q = Ok p -> zlen (data (store_of p)) = Nhydromax (store_of p) /\ Nghost (store_of p) = nper p) ->
  exists out, SearchGhostParticles N junk old E procs = Ok (out, NrecvOf) /\ zlen out = N /\
  forall r p, aget procs r = Ok p -> exists p', aget out r = Ok p' /\ Nhydro (store_of p') = Nhydro (store_of p) /\ nper p' = nper p /\
    Nghost (store_of p') = nper p + before E r (Z.to_nat N) /\ zlen (data (store_of p')) = Nhydromax (store_of p') /\ Nhydro (store_of p') + Nghost (store_of p') <= Nhydromax (store_of p') /\
    (forall i, 0 <= i < Nhydro (store_of p) + nper p -> aget (data (store_of p')) i = aget (data (store_of p)) i) /\
    (forall q e i pq x, copy_of E procs r i q e -> aget procs q = Ok pq -> aget (data (store_of pq)) e = Ok x ->
       aget (data (store_of p')) i = Ok (unset_active (set_iorig e x))).
Proof.
  intros old SO HS. unfold SearchGhostParticles. rewrite send_receive_ok by exact SO. cbn [bind].
  assert (A : forall r, 0 <= r < N -> exists p', add_ghosts junk (pr r) (arrived r) = Ok p' /\ Nhydro (store_of p') = Nhydro (store_of (pr r)) /\ nper p' = nper (pr r) /\
    Nghost (store_of p') = nper (pr r) + before E r (Z.to_nat N) /\ zlen (data (store_of p')) = Nhydromax (store_of p') /\ Nhydro (store_of p') + Nghost (store_of p') <= Nhydromax (store_of p') /\
    (forall i, 0 <= i < Nhydro (store_of (pr r)) + nper (pr r) -> aget (data (store_of p')) i = aget (data (store_of (pr r))) i) /\
    (forall q e i pq x, copy_of E procs r i q e -> aget procs q = Ok pq -> aget (data (store_of pq)) e = Ok x ->
       aget (data (store_of p')) i = Ok (unset_active (set_iorig e x)))).
  { intros r Hr. destruct (HD r _ (pr_get r Hr)) as (B1 & B2 & B3). destruct (HS r _ (pr_get r Hr)) as (B4 & B5). set (s := store_of (pr r)) in *.
    unfold add_ghosts. fold s. rewrite arrived_len by exact Hr. pose proof (arrived_len r Hr) as AL. pose proof (zlen_nonneg (arrived r)).
    assert (S1 : exists s1, (if Nhydromax s <? Nhydro s + Nghost s + before E r (Z.to_nat N) then AllocateMemory junk (Nhydro s + Nghost s + before E r (Z.to_nat N)) s else Ok s) = Ok s1 /\
       Nhydro s1 = Nhydro s /\ Nghost s1 = Nghost s /\ zlen (data s1) = Nhydromax s1 /\ Nhydro s + nper (pr r) + before E r (Z.to_nat N) <= Nhydromax s1 /\ forall i, 0 <= i < Nhydromax s -> aget (data s1) i = aget (data s) i).
    { destruct (Z.ltb_spec (Nhydromax s) (Nhydro s + Nghost s + before E r (Z.to_nat N))) as [L|L].
      - destruct (Allocate_spec junk (Nhydro s + Nghost s + before E r (Z.to_nat N)) s B4 ltac:(lia)) as (s1 & E1 & M1 & N1 & G1 & L1 & F1).
        exists s1. split; [exact E1|]. split; [exact N1|]. split; [exact G1|]. split; [exact L1|]. split; [lia|]. intros i Hi. rewrite <- F1. symmetry. apply aget_firstn. lia.
      - exists s. repeat split; auto; lia. }
    destruct S1 as (s1 & -> & N1 & G1 & L1 & M1 & O1). cbn [bind]. rewrite N1. destruct (put_ok (arrived r) (data s1) (Nhydro s + nper (pr r))) as (d & -> & Ld & Od & Gd); [lia|lia|]. cbn [bind].
    eexists. split; [reflexivity|]. cbn [store_of nper Nhydro Nghost Nhydromax data]. split; [reflexivity|]. split; [reflexivity|]. split; [lia|]. split; [lia|]. split; [lia|]. split.
    - intros i Hi. rewrite Od by lia. apply O1. lia.
    - intros q e i pq x (p & l & t & C1 & C2 & C3 & ->) Hpq Hx. apply pr_inv in C1 as [_ ->]. fold s. rewrite <- Z.add_assoc. apply Gd. exact (arrived_get r q l t e pq x Hr C2 Hpq C3 Hx). }
  rewrite (each_ok (fun r => match add_ghosts junk (pr r) (arrived r) with Ok p => p | _ => p0 end)).
  2:{ intros r Hr. rewrite pr_get by exact Hr. cbn [bind]. rewrite aget_zs by exact Hr. cbn [bind]. destruct (A r Hr) as (p' & -> & _). reflexivity. }
  cbn [bind]. eexists. split; [reflexivity|]. split; [unfold zlen; rewrite map_length, zseq_length; lia|].
  intros r p Hp. apply pr_inv in Hp as [Hr ->]. destruct (A r Hr) as (p' & Ep & R). exists p'. split; [|exact R]. rewrite aget_map_zseq by exact Hr. now rewrite Ep.
Qed.

Lemma copy_ok : forall received, (forall r, 0 <= r < N -> exists b, aget received r = Ok b /\ zlen b = before E r (Z.to_nat N)) ->
  (forall q p, aget procs q = Ok p -> Nhydro (store_of p) + nper p + before E q (Z.to_nat N) <= zlen (data (store_of p))) ->
  exists out, CopyHydroDataToGhosts N E NrecvOf received procs = Ok out /\ zlen out = N /\
  forall r p, aget procs r = Ok p -> exists p', aget out r = Ok p' /\ Nhydro (store_of p') = Nhydro (store_of p) /\ nper p' = nper p /\
    Nghost (store_of p') = Nghost (store_of p) /\ Nhydromax (store_of p') = Nhydromax (store_of p) /\ zlen (data (store_of p')) = zlen (data (store_of p)) /\
    (forall i, ~ (Nhydro (store_of p) + nper p <= i < Nhydro (store_of p) + nper p + before E r (Z.to_nat N)) -> aget (data (store_of p')) i = aget (data (store_of p)) i) /\
    (forall q e i pq x, copy_of E procs r i q e -> aget procs q = Ok pq -> aget (data (store_of pq)) e = Ok x ->
       aget (data (store_of p')) i = Ok (unset_active (set_iorig e x))).
Proof.
  intros received HR HS. unfold CopyHydroDataToGhosts. rewrite exchange_ok by exact HR. cbn [bind].
  assert (A : forall r, 0 <= r < N -> exists d, put_ghosts (data (store_of (pr r))) (Nhydro (store_of (pr r)) + nper (pr r)) (arrived r) = Ok d /\ zlen d = zlen (data (store_of (pr r))) /\
    (forall i, ~ (Nhydro (store_of (pr r)) + nper (pr r) <= i < Nhydro (store_of (pr r)) + nper (pr r) + before E r (Z.to_nat N)) -> aget d i = aget (data (store_of (pr r))) i) /\
    (forall q e i pq x, copy_of E procs r i q e -> aget procs q = Ok pq -> aget (data (store_of pq)) e = Ok x -> aget d i = Ok (unset_active (set_iorig e x)))).
  { intros r Hr. destruct (HD r _ (pr_get r Hr)) as (B1 & B2 & B3). pose proof (HS r _ (pr_get r Hr)). pose proof (arrived_len r Hr) as AL.
    destruct (put_ok (arrived r) (data (store_of (pr r))) (Nhydro (store_of (pr r)) + nper (pr r))) as (d & Ed & Ld & Od & Gd); [lia|lia|]. exists d. split; [exact Ed|]. split; [exact Ld|]. split; [rewrite AL in Od; exact Od|].
    intros q e i pq x (p & l & t & C1 & C2 & C3 & ->) Hpq Hx. apply pr_inv in C1 as [_ ->]. rewrite <- Z.add_assoc. apply Gd. exact (arrived_get r q l t e pq x Hr C2 Hpq C3 Hx). }
  rewrite (each_ok (fun r => match put_ghosts (data (store_of (pr r))) (Nhydro (store_of (pr r)) + nper (pr r)) (arrived r) with
     Ok d => mkproc (mkstore (Nhydro (store_of (pr r))) (Nghost (store_of (pr r))) (Nhydromax (store_of (pr r))) d) (nper (pr r)) | _ => p0 end)).
  2:{ intros r Hr. rewrite pr_get by exact Hr. cbn [bind]. rewrite aget_zs by exact Hr. cbn [bind]. destruct (A r Hr) as (d & -> & _). reflexivity. }
  eexists. split; [reflexivity|]. split; [unfold zlen; rewrite map_length, zseq_length; lia|].
  intros r p Hp. apply pr_inv in Hp as [Hr ->]. destruct (A r Hr) as (d & Ed & Ld & Od & Gd). rewrite aget_map_zseq by exact Hr. rewrite Ed. eexists. split; [reflexivity|]. cbn [store_of nper Nhydro Nghost Nhydromax data]. auto 10.
Qed.
End Exchange.
