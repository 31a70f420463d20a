(** The return of changes made to ghosts: the whole routine. *)
From Verif Require Import Prelude L_Prelude Vec S_Tree L_Tree L_KDTop M_Util S_Util L_Util M_Sync L_Sync M_Store L_Store M_Return S_Return L_Return L_Return2 L_Return3.
From Coq Require Import Reals Lra.
Local Open Scope Z_scope.

Section Back.
Variables (k : kind) (N : Z) (E : list (list (list Z))) (Nreceive : list (list Z)) (ids : list (list Z)) (procs : list proc).
Hypotheses (HN : 0 < N) (HP : zlen procs = N) (HI : zlen ids = N) (SQ : square N E) (SR : square N Nreceive) (EX : exports_ok E procs).
Hypothesis HR : forall q r l n, aget2 E q r = Ok l -> aget2 Nreceive r q = Ok n -> n = zlen l.
Hypothesis HD : forall q p, aget procs q = Ok p -> 0 <= Nhydro (store_of p) /\ 0 <= nper p /\ Nhydro (store_of p) + nper p + before E q (Z.to_nat N) <= zlen (data (store_of p)).
(** Ghosts at the boundary are copies of particles created before them. *)
Hypothesis PG : forall q p j x, aget procs q = Ok p -> Nhydro (store_of p) <= j < Nhydro (store_of p) + nper p -> aget (data (store_of p)) j = Ok x -> 0 <= piorig x < j.
(** The ghosts of other processes still have their iorig. *)
Hypothesis GO : forall r i q e p x, copy_of E procs r i q e -> aget procs r = Ok p -> aget (data (store_of p)) i = Ok x -> piorig x = e.
Hypothesis ID : forall r p l i, aget procs r = Ok p -> aget ids r = Ok l -> In i l ->
  Nhydro (store_of p) + nper p <= i < Nhydro (store_of p) + nper p + before E r (Z.to_nat N).
Variable junk : part.

Notation pr := (pr procs).
Let pget := pr_get N procs HP.
Let base (r : Z) := Nhydro (store_of (pr r)) + nper (pr r).
Let e (r q : Z) := ent [] E q r.
Let starts (r : Z) := i_start_ghost (base r) (map (fun q => zlen (e r q)) (zs N)).
Let home (r i : Z) := upper_bound (starts r) i.
Let idl (r : Z) := nth (Z.to_nat r) ids [].
Let D (r i : Z) := nth (Z.to_nat i) (data (store_of (pr r))) junk.
Let M (r q : Z) : list rdata := map (fun i => make k (D r i)) (filter (fun i => home r i =? q) (idl r)).
Let rt (q i : Z) := match real_parent (S (length (data (store_of (pr q))))) (Nhydro (store_of (pr q))) (data (store_of (pr q))) i with Ok j => j | _ => -1 end.

Lemma idget : forall r, 0 <= r < N -> aget ids r = Ok (idl r).
Proof. intros r Hr. apply aget_nth_error; [lia|]. apply nth_error_nth'. unfold zlen in HI. lia. Qed.
Lemma Nrec_row : forall r, 0 <= r < N -> aget Nreceive r = Ok (map (fun q => zlen (e r q)) (zs N)).
Proof.
  intros r Hr. rewrite (square_mat 0 N Nreceive SR) at 1. unfold mat. rewrite aget_zs by exact Hr. f_equal. apply map_ext_in. intros q Hq. unfold zs in Hq. rewrite zseq_in in Hq.
  apply (HR q r); [|apply square_get with (N := N); auto; lia]. apply square_get with (N := N); auto; lia.
Qed.
Lemma tot_upto : forall r, 0 <= r < N -> before E r (Z.to_nat N) = zlen (upto (e r) N).
Proof. intros r Hr. apply (before_upto N E r SQ Hr N). lia. Qed.
(** The process found for a ghost is the one it came from. *)
Lemma home_ok : forall r i, 0 <= r < N -> In i (idl r) -> 0 <= home r i < N /\ 0 <= i < zlen (data (store_of (pr r))) /\
  exists t x, copy_of E procs r i (home r i) x /\ aget (e r (home r i)) t = Ok x /\ piorig (D r i) = x.
Proof.
  intros r i Hr Hi. pose proof (ID r _ _ i (pget r Hr) (idget r Hr) Hi) as B. destruct (HD r _ (pget r Hr)) as (B1 & B2 & B3). rewrite tot_upto in B, B3 by exact Hr.
  destruct (find_block (e r) N (i - base r)) as (q & Hq & Bq); [lia|unfold base; lia|]. assert (HH : home r i = q) by (apply (ub_upto (e r) N (base r) q i Hq); lia).
  rewrite HH. split; [exact Hq|]. split; [unfold base in *; lia|]. destruct (aget_in (e r q) (i - base r - zlen (upto (e r) q))) as (x & Ex); [lia|].
  exists (i - base r - zlen (upto (e r) q)), x. assert (C : copy_of E procs r i q x).
  { exists (pr r), (e r q), (i - base r - zlen (upto (e r) q)). split; [now apply pget|]. split; [now apply square_get with (N := N)|]. split; [exact Ex|].
    rewrite (before_upto N E r SQ Hr q) by lia. fold (e r). unfold base. change (fun q' => ent [] E q' r) with (e r). lia. }
  split; [exact C|]. split; [exact Ex|]. apply (GO r i q x (pr r) (D r i) C (pget r Hr)). apply aget_nth_error; [unfold base in *; lia|]. apply nth_error_nth'. unfold base, zlen in *. lia.
Qed.
Lemma copy_home : forall r i q x, copy_of E procs r i q x -> 0 <= r < N /\ 0 <= q < N /\ home r i = q.
Proof.
  intros r i q x (p & l & t & C1 & C2 & C3 & C4). destruct (square_aget [] N E q r l SQ C2) as (Hq & Hr & ->). split; [exact Hr|]. split; [exact Hq|].
  apply (pr_inv N procs HP) in C1 as [_ ->]. pose proof (aget_Ok_inv _ _ _ C3) as [Rt _]. apply (ub_upto (e r) N (base r) q i Hq). rewrite (before_upto N E r SQ Hr q) in C4 by lia.
  change (fun q' => ent [] E q' r) with (e r) in C4. fold (base r) in C4. unfold e at 3. lia.
Qed.

Lemma bufs_ok : each N (fun r =>
    let! p := aget procs r in
    let! n := aget Nreceive r in
    let! i := aget ids r in
    sort_updates k (i_start_ghost (Nhydro (store_of p) + nper p) n) (data (store_of p)) i (repeat [] (Z.to_nat N))) = Ok (mat N M).
Proof.
  apply each_ok. intros r Hr. rewrite pget by exact Hr. cbn [bind]. rewrite Nrec_row by exact Hr. cbn [bind]. rewrite idget by exact Hr. cbn [bind].
  assert (RE : repeat (@nil rdata) (Z.to_nat N) = map (fun _ => []) (zs N)).
  { assert (G : forall n a, repeat (@nil rdata) n = map (fun _ => []) (zseq a n)) by (clear; induction n as [|n IH]; intros a; [reflexivity|]; cbn; now rewrite (IH (a + 1))). apply G. }
  rewrite RE. fold (base r). fold (starts r). rewrite (sort_ok k (starts r) (data (store_of (pr r))) junk N); [reflexivity|]. intros i Hi. destruct (home_ok r i Hr Hi) as (A & B & _). split; [exact A|exact B].
Qed.
Lemma id_len : forall r, 0 <= r < N -> zlen (upto (M r) N) = zlen (idl r).
Proof.
  intros r Hr. rewrite <- (part_len (home r) N (idl r)); [|lia|intros i Hi; destruct (home_ok r i Hr Hi) as (A & _); exact A]. apply upto_len_ext. intros q. unfold M, zlen. now rewrite map_length.
Qed.
Lemma M_orig : forall r q x, 0 <= r < N -> 0 <= q < N -> In x (M r q) -> 0 <= r_iorig x < base q.
Proof.
  intros r q x Hr Hq Hx. unfold M in Hx. apply in_map_iff in Hx as (i & <- & Hi). apply filter_In in Hi as [Hi HH]. apply Z.eqb_eq in HH. destruct (home_ok r i Hr Hi) as (_ & _ & t & y & C & G & O). cbn [make r_iorig]. rewrite O.
  rewrite HH in *. apply (EX q r (e r q) (pr q)); [now apply square_get with (N := N)|now apply pget|]. apply aget_Ok_inv in G as [_ G]. eapply nth_error_In, G.
Qed.
(** What process q received. *)
Let got (q : Z) : list rdata := upto (fun r => M r q) N.
Lemma got_orig : forall q x, 0 <= q < N -> In x (got q) -> 0 <= r_iorig x < base q.
Proof. intros q x Hq Hx. apply in_upto in Hx as (r & Hr & Hx). apply (M_orig r q x); auto. lia. Qed.

Lemma back_eq : exists f, DoUpdateMpiGhostParents k N Nreceive ids procs = each N f /\ forall r, 0 <= r < N ->
  f r = let! d := update_all k (Nhydro (store_of (pr r))) (got r) (data (store_of (pr r))) in
        Ok (mkproc (mkstore (Nhydro (store_of (pr r))) (Nghost (store_of (pr r))) (Nhydromax (store_of (pr r))) d) (nper (pr r))).
Proof.
  unfold DoUpdateMpiGhostParents. rewrite bufs_ok. cbn [bind]. rewrite map_mat.
  set (dis := fun (f : Z -> list rdata) => match compute_displs (repeat 0 (Z.to_nat N)) (map (fun x => zlen (f x)) (zs N)) with Ok d => d | _ => [] end).
  assert (DI : forall f : Z -> list rdata, compute_displs (repeat 0 (Z.to_nat N)) (map (fun x => zlen (f x)) (zs N)) = Ok (dis f) /\ zlen (dis f) = N /\ forall j, 0 <= j < N -> aget (dis f) j = Ok (zlen (upto f j))).
  { intros f. destruct (displs_ok f N HN) as (d & Ed & Ld & Gd). unfold dis. rewrite Ed. auto. }
  rewrite (each_ok (fun r => dis (M r))).
  2:{ intros r Hr. unfold mat. rewrite aget_zs by exact Hr. cbn [bind]. apply DI. }
  cbn [bind]. fold (zs N). rewrite (each_ok (fun r => upto (M r) N)).
  2:{ intros r Hr. unfold mat. rewrite aget_zs by exact Hr. cbn [bind]. rewrite aget_zs by exact Hr. cbn [bind]. rewrite idget by exact Hr. cbn [bind].
      destruct (DI (M r)) as (_ & LD & GD). pose proof (copy_buf_ok (M r) (Z.to_nat N) 0 (dis (M r)) (repeat (mkrdata (-1) 0) (length (idl r)))) as X.
      replace (0 + Z.of_nat (Z.to_nat N)) with N in X by lia. apply X; [lia|lia| |].
      - intros j Hj. apply GD. lia.
      - rewrite id_len by exact Hr. unfold zlen. rewrite repeat_length. cbn. lia. }
  cbn [bind]. fold (zs N). rewrite (alltoall_ok N (fun q r => zlen (M q r))).
  3:{ split; [unfold zlen; rewrite repeat_length; lia|]. intros x Hx. apply repeat_spec in Hx as ->. unfold zlen. rewrite repeat_length. lia. }
  2: lia.
  cbn [bind]. rewrite (each_ok (fun r => dis (fun q => M q r))).
  2:{ intros r Hr. unfold mat. rewrite aget_zs by exact Hr. cbn [bind]. apply (DI (fun q => M q r)). }
  cbn [bind]. fold (zs N). rewrite (a2a_ok N M).
  - cbn [bind]. eexists. split; [reflexivity|]. intros r Hr. cbv beta. rewrite pget by exact Hr. cbn [bind]. rewrite aget_zs by exact Hr. reflexivity.
  - intros q r Hq Hr. split; [now apply (aget_mat N (fun q r => zlen (M q r)))|]. split; [|split].
    + unfold aget2. rewrite aget_zs by exact Hq. cbn [bind]. now apply DI.
    + now apply (aget_mat N (fun r q => zlen (M q r))).
    + unfold aget2. rewrite (aget_zs (fun r => dis (fun q => M q r))) by exact Hr. cbn [bind]. now apply (DI (fun q => M q r)).
  - intros r Hr. unfold mat. rewrite map_map, aget_zs by exact Hr. eexists. split; [reflexivity|]. rewrite fold_add, (zsum_upto (fun q => M q r)). unfold zlen at 1. rewrite repeat_length. unfold zlen. lia.
Qed.

Lemma rt_ok : forall q i, 0 <= q < N -> 0 <= i < base q -> stands_for (data (store_of (pr q))) (Nhydro (store_of (pr q))) i (rt q i) /\
  real_parent (S (length (data (store_of (pr q))))) (Nhydro (store_of (pr q))) (data (store_of (pr q))) i = Ok (rt q i).
Proof.
  intros q i Hq Hi. destruct (HD q _ (pget q Hq)) as (B1 & B2 & B3). assert (0 <= before E q (Z.to_nat N)) by (rewrite tot_upto by exact Hq; apply zlen_nonneg).
  destruct (rp_ok (Nhydro (store_of (pr q))) (nper (pr q)) (data (store_of (pr q)))) with (fuel := S (length (data (store_of (pr q))))) (i := i) as (j & Ej & Sj).
  - exact B1. - lia. - intros j x Hj Hx. exact (PG q _ j x (pget q Hq) Hj Hx). - exact Hi. - unfold base, zlen in *. lia.
  - unfold rt. rewrite Ej. auto.
Qed.

Theorem back_ok : exists out, DoUpdateMpiGhostParents k N Nreceive ids procs = Ok out /\ zlen out = N /\
  forall q p, aget procs q = Ok p -> exists p', aget out q = Ok p' /\ Nhydro (store_of p') = Nhydro (store_of p) /\ Nghost (store_of p') = Nghost (store_of p) /\
    Nhydromax (store_of p') = Nhydromax (store_of p) /\ nper p' = nper p /\ zlen (data (store_of p')) = zlen (data (store_of p)) /\
    (forall i, ~ (0 <= i < Nhydro (store_of p)) -> aget (data (store_of p')) i = aget (data (store_of p)) i) /\
    forall j x, 0 <= j < Nhydro (store_of p) -> aget (data (store_of p)) j = Ok x ->
    exists L vals, ((forall l, In l ids -> NoDup l) -> NoDup L) /\
      (forall r i, In (r, i) L <-> (exists l, aget ids r = Ok l /\ In i l) /\ comes_from E procs r i q j) /\
      Forall2 (fun ri v => exists p y, aget procs (fst ri) = Ok p /\ aget (data (store_of p)) (snd ri) = Ok y /\ v = make k y) L vals /\
      aget (data (store_of p')) j = Ok (fold_left (fun p d => update_received k d p) vals x).
Proof.
  destruct back_eq as (f & -> & Hf).
  assert (A : forall q, 0 <= q < N -> exists d, f q = Ok (mkproc (mkstore (Nhydro (store_of (pr q))) (Nghost (store_of (pr q))) (Nhydromax (store_of (pr q))) d) (nper (pr q))) /\
    zlen d = zlen (data (store_of (pr q))) /\ (forall i, ~ (0 <= i < Nhydro (store_of (pr q))) -> aget d i = aget (data (store_of (pr q))) i) /\
    forall j x, 0 <= j < Nhydro (store_of (pr q)) -> aget (data (store_of (pr q))) j = Ok x -> aget d j = Ok (fold_left (fun p x => update_received k x p) (filter (fun x => rt q (r_iorig x) =? j) (got q)) x)).
  { intros q Hq. destruct (HD q _ (pget q Hq)) as (B1 & B2 & B3). assert (0 <= before E q (Z.to_nat N)) by (rewrite tot_upto by exact Hq; apply zlen_nonneg).
    destruct (update_all_ok k (Nhydro (store_of (pr q))) (nper (pr q)) (got q) (data (store_of (pr q)))) as (d & Ed & Ld & Od & Gd); [exact B1|exact B2|lia| | |].
    - intros j x Hj Hx. exact (PG q _ j x (pget q Hq) Hj Hx).
    - intros x Hx. exact (got_orig q x Hq Hx).
    - exists d. rewrite Hf by exact Hq. rewrite Ed. split; [reflexivity|]. split; [exact Ld|]. split; [exact Od|]. intros j x Hj Hx. rewrite (Gd j x Hj Hx). do 2 f_equal.
      apply filter_ext_in. intros y Hy. destruct (rt_ok q (r_iorig y) Hq (got_orig q y Hq Hy)) as [_ ->]. reflexivity. }
  rewrite (each_ok (fun q => match f q with Ok p => p | _ => p0 end)).
  2:{ intros q Hq. destruct (A q Hq) as (d & -> & _). reflexivity. }
  eexists. split; [reflexivity|]. split; [unfold zlen; rewrite map_length, zseq_length; lia|].
  intros q p Hp. apply (pr_inv N procs HP) in Hp as [Hq ->]. destruct (A q Hq) as (d & Ed & Ld & Od & Gd). rewrite aget_map_zseq by exact Hq. rewrite Ed. eexists. split; [reflexivity|].
  cbn [store_of nper Nhydro Nghost Nhydromax data]. do 4 (split; [reflexivity|]). split; [exact Ld|]. split; [exact Od|]. intros j x Hj Hx.
  set (W := fun r => filter (fun i => (home r i =? q) && (rt q (piorig (D r i)) =? j)) (idl r)).
  exists (upto (fun r => map (pair r) (W r)) N), (map (fun ri => make k (D (fst ri) (snd ri))) (upto (fun r => map (pair r) (W r)) N)).
  split; [|split; [|split]].
  - intros ND. apply nodup_pairs. intros r Hr. apply NoDup_filter. apply ND. pose proof (idget r Hr) as X. apply aget_Ok_inv in X as [_ X]. eapply nth_error_In, X.
  - intros r i. split.
    + intros H. apply in_upto in H as (r' & Hr & H). apply in_map_iff in H as (i' & EQ & H). injection EQ as -> ->. replace (Z.max 0 N) with N in Hr by lia. apply filter_In in H as [Hi H]. apply andb_true_iff in H as [H1 H2]. apply Z.eqb_eq in H1, H2.
      split; [exists (idl r); split; [now apply idget|exact Hi]|]. destruct (home_ok r i Hr Hi) as (_ & _ & t & y & C & G & O). rewrite H1 in C, G. exists y, (pr q). split; [exact C|]. split; [now apply pget|].
      rewrite O in H2. destruct (rt_ok q y Hq) as [S _]; [|rewrite H2 in S; exact S]. apply (EX q r (e r q) (pr q)); [now apply square_get with (N := N)|now apply pget|]. apply aget_Ok_inv in G as [_ G]. eapply nth_error_In, G.
    + intros ((l & El & Hi) & y & pq & C & Ep & S). destruct (copy_home r i q y C) as (Hr & _ & HH). rewrite (idget r Hr) in El. injection El as <-. apply (pr_inv N procs HP) in Ep as [_ ->].
      apply in_upto. exists r. split; [lia|]. apply in_map. apply filter_In. split; [exact Hi|]. rewrite HH, Z.eqb_refl. cbn [andb]. apply Z.eqb_eq.
      destruct (home_ok r i Hr Hi) as (_ & RI & t & y' & C' & G & O). assert (OY : piorig (D r i) = y).
      { apply (GO r i q y (pr r) (D r i) C (pget r Hr)). apply aget_nth_error; [lia|]. apply nth_error_nth'. unfold zlen in RI. lia. }
      rewrite OY. destruct (rt_ok q y Hq) as [S' _]; [|exact (stands_det _ _ _ _ _ S' S)]. rewrite <- OY, O. rewrite HH in G. apply (EX q r (e r q) (pr q)); [now apply square_get with (N := N)|now apply pget|]. apply aget_Ok_inv in G as [_ G]. eapply nth_error_In, G.
  - assert (F : forall r i, In (r, i) (upto (fun r => map (pair r) (W r)) N) -> 0 <= r < N /\ In i (idl r)).
    { intros r i H. apply in_upto in H as (r' & Hr & H). apply in_map_iff in H as (i' & EQ & H). injection EQ as -> ->. apply filter_In in H as [H _]. split; [lia|exact H]. }
    induction (upto (fun r => map (pair r) (W r)) N) as [|[r i] l IH]; [constructor|]. cbn [map]. constructor; [|apply IH; intros; apply F; now right].
    destruct (F r i (or_introl eq_refl)) as [Hr Hi]. destruct (home_ok r i Hr Hi) as (_ & RI & _). exists (pr r), (D r i). cbn [fst snd]. split; [now apply pget|]. split; [|reflexivity].
    apply aget_nth_error; [lia|]. apply nth_error_nth'. unfold zlen in RI. lia.
  - rewrite (Gd j x Hj Hx). f_equal. f_equal. unfold got. rewrite filter_upto, map_upto. unfold upto. f_equal. apply map_ext. intros r. unfold M, W. rewrite filter_map_comm, map_map. cbn [fst snd]. f_equal.
    cbn [make r_iorig]. induction (idl r) as [|i l IH]; [reflexivity|]. cbn [filter]. destruct (home r i =? q); cbn [filter andb]; [|exact IH]. destruct (rt q (piorig (D r i)) =? j); [f_equal|]; exact IH.
Qed.
End Back.
