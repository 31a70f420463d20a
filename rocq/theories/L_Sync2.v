(** The update of the sinks as a whole. *)
From Verif Require Import Prelude L_Prelude Vec S_Tree L_Tree M_Box S_Box L_Box M_Util S_Util L_Util M_Balance S_Balance L_Balance M_Sync S_Sync L_Sync.
From Coq Require Import Reals Lra.
Local Open Scope Z_scope.

Lemma sel_filter : forall {A} q (f : A -> bool) own l, length own = length l ->
  (forall i o x, nth_error own i = Some o -> nth_error l i = Some x -> (o = q <-> f x = true)) -> sel q own l = filter f l.
Proof.
  intros A q f. induction own as [|o own IH]; intros [|x l] H K; try discriminate; [reflexivity|]. cbn [sel filter]. injection H as H.
  rewrite (IH l H) by (intros i; exact (K (S i))). specialize (K 0%nat o x eq_refl eq_refl). destruct (Z.eqb_spec o q) as [E|E]; destruct (f x); intuition congruence.
Qed.
Lemma sel_more : forall {A} q (f : A -> bool) own l, length own = length l ->
  (forall i o x, nth_error own i = Some o -> nth_error l i = Some x -> f x = true -> o = q) ->
  (length (filter f l) <= length (sel q own l))%nat /\
  ((exists i x, nth_error own i = Some q /\ nth_error l i = Some x /\ f x = false) -> (length (filter f l) < length (sel q own l))%nat).
Proof.
  intros A q f. induction own as [|o own IH]; intros [|x l] H K; try discriminate; cbn [sel filter].
  - split; [lia|]. intros (i & x & E & _). destruct i; discriminate.
  - injection H as H. destruct (IH l H) as [I1 I2]; [intros i; exact (K (S i))|]. specialize (K 0%nat o x eq_refl eq_refl). split.
    + destruct (Z.eqb_spec o q) as [E|E]; destruct (f x); cbn [length]; try lia; now elim E; apply K.
    + intros (i & y & E1 & E2 & E3). destruct i as [|i]; cbn [nth_error] in *.
      * injection E1 as ->. injection E2 as ->. rewrite E3, Z.eqb_refl. cbn [length]. lia.
      * specialize (I2 ltac:(eauto)). destruct (Z.eqb_spec o q) as [E|E]; destruct (f x); cbn [length]; try lia; now elim E; apply K.
Qed.
Lemma zsum_cnt : forall own n, (forall o, In o own -> 0 <= o < Z.of_nat n) -> zsum (map (fun q => cnt q own) (zseq 0 n)) = zlen own.
Proof.
  induction own as [|o own IH]; intros n H.
  - assert (Z0 : forall m a, zsum (map (fun q => cnt q []) (zseq a m)) = 0) by (induction m as [|m IHm]; intros a; [reflexivity|]; cbn [zseq map zsum]; rewrite IHm; reflexivity). apply Z0.
  - assert (HO : 0 <= o < Z.of_nat n) by (apply H; now left). specialize (IH n (fun o' Ho' => H o' (or_intror Ho'))).
    assert (G : forall m a, zsum (map (fun q => cnt q (o :: own)) (zseq a m)) = zsum (map (fun q => cnt q own) (zseq a m)) + (if (a <=? o) && (o <? a + Z.of_nat m) then 1 else 0)).
    { induction m as [|m IHm]; intros a; cbn [zseq map zsum].
      - destruct (Z.leb_spec a o); destruct (Z.ltb_spec o (a + Z.of_nat 0)); cbn [andb]; lia.
      - rewrite IHm, cnt_cons. destruct (Z.eqb_spec o a); destruct (Z.leb_spec a o); destruct (Z.ltb_spec o (a + Z.of_nat (S m))); destruct (Z.leb_spec (a + 1) o); destruct (Z.ltb_spec o (a + 1 + Z.of_nat m)); cbn [andb]; lia. }
    rewrite G, IH. destruct (Z.leb_spec 0 o); destruct (Z.ltb_spec o (0 + Z.of_nat n)); cbn [andb]; unfold zlen; cbn [length]; lia.
Qed.
Lemma concat_zlen : forall (ndim : nat) (L : Z -> list sinkd) own qs, (forall q x, In q qs -> In x (L q) -> sized ndim x) -> (forall q, In q qs -> length (L q) = length own) ->
  zlen (concat (map (fun q => data (sel q own (L q))) qs)) = zsum (map (fun q => cnt q own) qs) * number_variables ndim.
Proof.
  intros ndim L own. induction qs as [|q qs IH]; intros HS HL; [reflexivity|]. cbn [map concat zsum]. rewrite zlen_app, IH; [|intros p x Hp; apply HS; now right|intros p Hp; apply HL; now right].
  rewrite (data_length ndim) by (intros x Hx; apply (HS q x); [now left|]; eapply sel_in; exact Hx).
  replace (zlen (sel q own (L q))) with (cnt q own); [lia|]. unfold cnt, zlen. f_equal. apply sel_length. symmetry. apply HL. now left.
Qed.
Lemma firstn_zseq_map : forall {A} (g : Z -> A) n j, firstn j (map g (zseq 0 n)) = map g (zseq 0 (Nat.min j n)).
Proof.
  intros A g n j. generalize 0 as a. revert j. induction n as [|n IH]; intros j a; [now destruct j|]. destruct j; [reflexivity|]. cbn [zseq map firstn Nat.min]. now rewrite IH.
Qed.

Section Whole.
Variables (ndim : nat) (junk : R) (doms : list box) (sinks : list (list sinkd)) (Ns : nat).
Notation nv := (number_variables ndim).
Notation Nmpi := (zlen sinks).
Hypothesis (HN : sinks <> []) (HD : zlen doms = Nmpi) (HL : forall l, In l sinks -> length l = Ns) (HS : forall l x, In l sinks -> In x l -> sized ndim x).
Hypothesis HU : forall s r r', claimed ndim doms sinks s r -> claimed ndim doms sinks s r' -> r = r'.

Definition Lr (r : Z) : list sinkd := match aget sinks r with Ok l => l | _ => [] end.
Definition Dr (r : Z) : box := match aget doms r with Ok b => b | _ => mkbox (fun _ => 0%R) (fun _ => 0%R) end.
Lemma Lr_ok : forall r, 0 <= r < Nmpi -> aget sinks r = Ok (Lr r) /\ In (Lr r) sinks /\ length (Lr r) = Ns.
Proof.
  intros r Hr. unfold Lr. destruct (aget_in sinks r Hr) as (l & E). rewrite E. assert (In l sinks) by (apply aget_Ok_inv in E as [_ E]; now apply nth_error_In in E). auto.
Qed.
Lemma Dr_ok : forall r, 0 <= r < Nmpi -> aget doms r = Ok (Dr r).
Proof. intros r Hr. unfold Dr. destruct (aget_in doms r) as (l & E); [lia|]. now rewrite E. Qed.
Lemma claimed_local : forall s r x, 0 <= r < Nmpi -> nth_error (Lr r) s = Some x -> is_local ndim (Dr r) x = true <-> claimed ndim doms sinks (Z.of_nat s) r.
Proof.
  intros s r x Hr E. destruct (Lr_ok r Hr) as (EL & _). pose proof (Dr_ok r Hr) as ED. unfold is_local, claimed. rewrite ParticleInBox_correct. split.
  - intros I. exists (Dr r), (Lr r), x. split; [exact ED|]. split; [exact EL|]. split; [|exact I]. apply aget_nth_error; [lia|]. now rewrite Nat2Z.id.
  - intros (d & l & y & E1 & E2 & E3 & I). assert (d = Dr r) as -> by congruence. assert (l = Lr r) as -> by congruence. apply aget_Ok_inv in E3 as [_ E3]. rewrite Nat2Z.id in E3. assert (y = x) as -> by congruence. exact I.
Qed.
Lemma claimed_range : forall s r, claimed ndim doms sinks s r -> 0 <= r < Nmpi /\ 0 <= s < Z.of_nat Ns.
Proof.
  intros s r (d & l & x & _ & E2 & E3 & _). pose proof (aget_Ok_inv _ _ _ E2) as [R E]. apply nth_error_In in E. specialize (HL l E). apply aget_Ok_inv in E3 as [S _]. unfold zlen in S. lia.
Qed.
Lemma N_pos : 0 < Nmpi. Proof. destruct sinks; [contradiction|]. unfold zlen. cbn [length]. lia. Qed.

Lemma owners_ok : exists own, Allreduce_max (map (fun r => find_owner ndim r (Dr r) (Lr r)) (zseq 0 (Z.to_nat Nmpi))) = Ok own /\ length own = Ns /\
  (forall s r, claimed ndim doms sinks (Z.of_nat s) r -> nth_error own s = Some r) /\
  (forall s, (s < Ns)%nat -> (forall r, ~ claimed ndim doms sinks (Z.of_nat s) r) -> nth_error own s = Some 0).
Proof.
  destruct (reduce_ok (map (fun r => find_owner ndim r (Dr r) (Lr r)) (zseq 0 (Z.to_nat Nmpi))) Ns) as (w & E & L & W).
  { pose proof N_pos. destruct (Z.to_nat Nmpi) eqn:En; [lia|]. discriminate. }
  { intros v Hv. apply in_map_iff in Hv as (r & <- & Hr). apply zseq_in in Hr. unfold find_owner. rewrite map_length. apply Lr_ok. lia. }
  assert (V : forall s r x, nth_error (Lr r) s = Some x -> nth s (find_owner ndim r (Dr r) (Lr r)) 0 = if is_local ndim (Dr r) x then r else 0).
  { intros s r x Ex. unfold find_owner. erewrite nth_error_nth; [reflexivity|]. now rewrite (map_nth_error _ _ _ Ex). }
  assert (X : forall s r, (s < Ns)%nat -> 0 <= r < Nmpi -> exists x, nth_error (Lr r) s = Some x).
  { intros s r Hs Hr. destruct (Lr_ok r Hr) as (_ & _ & LL). destruct (nth_error (Lr r) s) eqn:En; [eauto|]. apply nth_error_None in En. lia. }
  assert (NE : forall s o, (s < Ns)%nat -> nth s w 0 = o -> nth_error w s = Some o).
  { intros s o Hs Eo. rewrite (nth_error_nth' w 0) by lia. now f_equal. }
  exists w. split; [exact E|]. split; [exact L|]. split.
  - intros s r C. destruct (claimed_range _ _ C) as [Rr Rs]. assert (Hs : (s < Ns)%nat) by lia. apply NE; [exact Hs|]. destruct (W s) as ((v & Hv & Ev) & M).
    destruct (X s r Hs Rr) as (x & Ex). assert (I := proj2 (claimed_local s r x Rr Ex) C).
    assert (M1 := M (find_owner ndim r (Dr r) (Lr r)) ltac:(apply in_map_iff; exists r; split; [reflexivity|]; apply zseq_in; lia)). rewrite (V s r x Ex), I in M1.
    apply in_map_iff in Hv as (p & <- & Hp). apply zseq_in in Hp. destruct (X s p Hs ltac:(lia)) as (y & Ey). rewrite (V s p y Ey) in Ev. destruct (is_local ndim (Dr p) y) eqn:Ip.
    + apply (claimed_local s p y) in Ip; [|lia|exact Ey]. rewrite Ev. exact (HU _ _ _ Ip C).
    + lia.
  - intros s Hs NC. apply NE; [exact Hs|]. destruct (W s) as ((v & Hv & Ev) & _). apply in_map_iff in Hv as (p & <- & Hp). apply zseq_in in Hp. destruct (X s p Hs ltac:(lia)) as (y & Ey). rewrite (V s p y Ey) in Ev.
    destruct (is_local ndim (Dr p) y) eqn:Ip; [|exact Ev]. apply (claimed_local s p y) in Ip; [|lia|exact Ey]. now elim (NC p).
Qed.
Lemma numbers_ok : forall n, (forall r, 0 <= n r) ->
  Allreduce_max (map (fun r => upd (repeat 0 (Z.to_nat Nmpi)) (Z.to_nat r) (n r)) (zseq 0 (Z.to_nat Nmpi))) = Ok (map n (zseq 0 (Z.to_nat Nmpi))).
Proof.
  intros n Hn. destruct (reduce_ok (map (fun r => upd (repeat 0 (Z.to_nat Nmpi)) (Z.to_nat r) (n r)) (zseq 0 (Z.to_nat Nmpi))) (Z.to_nat Nmpi)) as (w & E & L & W).
  { pose proof N_pos. destruct (Z.to_nat Nmpi) eqn:En; [lia|]. discriminate. }
  { intros v Hv. apply in_map_iff in Hv as (r & <- & Hr). now rewrite length_upd, repeat_length. }
  rewrite E. f_equal. apply (nth_ext _ _ 0 0); [now rewrite map_length, zseq_length|]. intros s Hs. rewrite L in Hs.
  assert (V : forall r, 0 <= r < Nmpi -> nth s (upd (repeat 0 (Z.to_nat Nmpi)) (Z.to_nat r) (n r)) 0 = if Z.of_nat s =? r then n r else 0).
  { intros r Hr. apply nth_error_nth. destruct (Z.eqb_spec (Z.of_nat s) r) as [<-|N].
    - rewrite Nat2Z.id. apply nth_error_upd_eq. rewrite repeat_length. exact Hs.
    - rewrite nth_error_upd_ne by lia. rewrite (nth_error_nth' _ 0) by (rewrite repeat_length; exact Hs). now rewrite nth_repeat. }
  assert (R0 : nth s (map n (zseq 0 (Z.to_nat Nmpi))) 0 = n (Z.of_nat s)).
  { apply nth_error_nth. erewrite map_nth_error; [reflexivity|]. rewrite (nth_error_nth' _ 0) by (rewrite zseq_length; exact Hs). f_equal. now rewrite zseq_nth by exact Hs. }
  rewrite R0. destruct (W s) as ((v & Hv & Ev) & M).
  assert (IS : In (Z.of_nat s) (zseq 0 (Z.to_nat Nmpi))) by (apply zseq_in; lia).
  assert (M1 := M _ (in_map (fun r => upd (repeat 0 (Z.to_nat Nmpi)) (Z.to_nat r) (n r)) _ _ IS)). cbn beta in M1. rewrite V, Z.eqb_refl in M1 by lia.
  apply in_map_iff in Hv as (p & <- & Hp). apply zseq_in in Hp. rewrite V in Ev by lia. specialize (Hn (Z.of_nat s)). destruct (Z.eqb_spec (Z.of_nat s) p) as [<-|N]; lia.
Qed.

Notation qs := (zseq 0 (Z.to_nat Nmpi)).
Notation loc := (fun r => local_sinks ndim (Dr r) (Lr r)).
Lemma start_ok : forall (X : list Z -> list Z -> list Z -> res (list (list sinkd))),
  exists own, length own = Ns /\
  (forall s r, claimed ndim doms sinks (Z.of_nat s) r -> nth_error own s = Some r) /\
  (forall s, (s < Ns)%nat -> (forall r, ~ claimed ndim doms sinks (Z.of_nat s) r) -> nth_error own s = Some 0) /\
  (let! owners := each Nmpi (fun r => let! d := aget doms r in let! s := aget sinks r in Ok (find_owner ndim r d s)) in
   let! locals := each Nmpi (fun r => let! d := aget doms r in let! s := aget sinks r in Ok (local_sinks ndim d s)) in
   let! numbers := each Nmpi (fun r => let! n := aget locals r in aset (repeat 0 (Z.to_nat Nmpi)) r n) in
   let! owner := Allreduce_max owners in
   let! per_rank := Allreduce_max numbers in X locals owner per_rank) = X (map loc qs) own (map loc qs).
Proof.
  intros X. destruct owners_ok as (own & E & L & C1 & C2). exists own. split; [exact L|]. split; [exact C1|]. split; [exact C2|].
  rewrite (each_ok (fun r => find_owner ndim r (Dr r) (Lr r))) by (intros r Hr; rewrite (Dr_ok r Hr); cbn [bind]; rewrite (proj1 (Lr_ok r Hr)); reflexivity). cbn [bind].
  rewrite (each_ok loc) by (intros r Hr; rewrite (Dr_ok r Hr); cbn [bind]; rewrite (proj1 (Lr_ok r Hr)); reflexivity). cbn [bind].
  rewrite (each_ok (fun r => upd (repeat 0 (Z.to_nat Nmpi)) (Z.to_nat r) (loc r))).
  2:{ intros r Hr. rewrite (aget_map_zseq loc) by exact Hr. cbn [bind]. apply aset_in. unfold zlen at 1. rewrite repeat_length. lia. }
  cbn [bind]. rewrite E. cbn [bind]. rewrite (numbers_ok loc) by (intros r; unfold local_sinks, zlen; lia). reflexivity.
Qed.

(** A sink that no process claims: process 0 writes past the end of its buffer. *)
Lemma homeless : forall s, (s < Ns)%nat -> (forall r, ~ claimed ndim doms sinks (Z.of_nat s) r) -> UpdateSinksAfterAccretion ndim junk doms sinks = UB.
Proof.
  intros s Hs NC. unfold UpdateSinksAfterAccretion. pose proof N_pos as NP.
  destruct (start_ok (fun locals owner per_rank =>
    let! sends := each Nmpi (fun r => let! n := aget locals r in let! s := aget sinks r in
      let! (buf, _) := fill_buffer r owner s (repeat junk (Z.to_nat (n * nv))) 0 in Ok buf) in
    let! displ := compute_displs (repeat 0 (Z.to_nat Nmpi)) per_rank in
    let displ := map (fun d => d * nv) displ in let counts := map (fun n => n * nv) per_rank in
    let! recv := Allgatherv (Z.to_nat Nmpi) 0 sends (map (fun n => n * nv) locals) counts displ (repeat junk (Z.to_nat (zlen owner * nv))) in
    each Nmpi (fun r => let! s := aget sinks r in unpack_loop ndim r owner s displ (repeat 0 (Z.to_nat Nmpi)) recv))) as (own & LO & C1 & C2 & E).
  cbv zeta in *. etransitivity; [exact E|]. clear E.
  match goal with |- (let! x := ?e in _) = UB => enough (e = UB) as -> by reflexivity end.
  apply (each_from_ub _ _ 0 0); [intros p Hp; lia|lia|]. assert (H0 : 0 <= 0 < Nmpi) by lia.
  rewrite (aget_map_zseq loc) by exact H0. cbn [bind]. destruct (Lr_ok 0 H0) as (EL & IL & LL). rewrite EL. cbn [bind].
  pose proof (fill_ub ndim 0 own (Lr 0) [] (repeat junk (Z.to_nat (local_sinks ndim (Dr 0) (Lr 0) * nv)))) as FU. cbn [app] in FU. change (zlen (@nil R)) with 0 in FU. rewrite FU; [reflexivity|lia|intros x Hx; exact (HS _ x IL Hx)|].
  pose proof (nv_pos ndim) as NV. assert (LS : local_sinks ndim (Dr 0) (Lr 0) < zlen (sel 0 own (Lr 0))).
  { unfold local_sinks, zlen. apply inj_lt. apply (sel_more 0 (is_local ndim (Dr 0))); [lia| |].
    - intros i o x Ei Ex I. apply (claimed_local i 0 x H0 Ex) in I. apply C1 in I. congruence.
    - destruct (nth_error (Lr 0) s) as [x|] eqn:Ex; [|apply nth_error_None in Ex; lia]. exists s, x. split; [now apply C2|]. split; [exact Ex|]. destruct (is_local ndim (Dr 0) x) eqn:I; [|reflexivity]. apply (claimed_local s 0 x H0 Ex) in I. now elim (NC 0). }
  unfold zlen at 1. rewrite repeat_length. assert (0 <= local_sinks ndim (Dr 0) (Lr 0)) by (unfold local_sinks, zlen; lia). rewrite Z2Nat.id by nia. nia.
Qed.

(** Every sink is claimed by one process. *)
Hypothesis HC : forall s, 0 <= s < Z.of_nat Ns -> exists r, claimed ndim doms sinks s r.
Lemma update_ok : exists out, UpdateSinksAfterAccretion ndim junk doms sinks = Ok out /\ zlen out = Nmpi /\
  forall r l, aget sinks r = Ok l -> exists l', aget out r = Ok l' /\ zlen l' = zlen l /\
    forall s o x, aget l s = Ok x -> claimed ndim doms sinks s o ->
      (o = r -> aget l' s = Ok x) /\
      (o <> r -> forall lo y, aget sinks o = Ok lo -> aget lo s = Ok y -> aget l' s = Ok (adopt x y)).
Proof.
  pose proof N_pos as NP. unfold UpdateSinksAfterAccretion.
  destruct (start_ok (fun locals owner per_rank =>
    let! sends := each Nmpi (fun r => let! n := aget locals r in let! s := aget sinks r in
      let! (buf, _) := fill_buffer r owner s (repeat junk (Z.to_nat (n * nv))) 0 in Ok buf) in
    let! displ := compute_displs (repeat 0 (Z.to_nat Nmpi)) per_rank in
    let displ := map (fun d => d * nv) displ in let counts := map (fun n => n * nv) per_rank in
    let! recv := Allgatherv (Z.to_nat Nmpi) 0 sends (map (fun n => n * nv) locals) counts displ (repeat junk (Z.to_nat (zlen owner * nv))) in
    each Nmpi (fun r => let! s := aget sinks r in unpack_loop ndim r owner s displ (repeat 0 (Z.to_nat Nmpi)) recv))) as (own & LO & C1 & _ & E).
  cbv zeta in *. 
  assert (OR : forall o, In o own -> 0 <= o < Nmpi).
  { intros o Ho. apply In_nth_error in Ho as (i & Ei). assert (Hi : (i < Ns)%nat) by (rewrite <- LO; apply nth_error_Some; congruence).
    destruct (HC (Z.of_nat i)) as (r & C); [lia|]. rewrite (C1 i r C) in Ei. injection Ei as <-. now apply claimed_range in C. }
  assert (LOC : forall q, 0 <= q < Nmpi -> loc q = cnt q own).
  { intros q Hq. destruct (Lr_ok q Hq) as (_ & _ & LL). unfold cnt, local_sinks, zlen. f_equal. rewrite (sel_length q own own (Lr q)) by lia. f_equal. symmetry. apply sel_filter; [lia|].
    intros i o x Ei Ex. rewrite (claimed_local i q x Hq Ex). split; [intros ->|intros C; rewrite (C1 i q C) in Ei; congruence].
    assert (Hi : (i < Ns)%nat) by (rewrite <- LO; apply nth_error_Some; congruence). destruct (HC (Z.of_nat i)) as (r & C); [lia|]. rewrite (C1 i r C) in Ei. injection Ei as <-. exact C. }
  assert (ML : map loc qs = map (fun q => cnt q own) qs) by (apply map_ext_in; intros q Hq; apply zseq_in in Hq; apply LOC; lia).
  rewrite ML in E.
  set (snd_ := fun q => data (sel q own (Lr q))).
  assert (SE : each Nmpi (fun r => let! n := aget (map (fun q => cnt q own) qs) r in let! s := aget sinks r in
      let! (buf, _) := fill_buffer r own s (repeat junk (Z.to_nat (n * nv))) 0 in Ok buf) = Ok (map snd_ qs)).
  { apply each_ok. intros r Hr. rewrite (aget_map_zseq (fun q => cnt q own)) by exact Hr. cbn [bind]. destruct (Lr_ok r Hr) as (EL & IL & LL). rewrite EL. cbn [bind].
    destruct (fill_ok ndim r own (Lr r) [] (repeat junk (Z.to_nat (cnt r own * nv)))) as (off & EF); [lia|intros x Hx; exact (HS _ x IL Hx)| |].
    - pose proof (nv_pos ndim). assert (CE : cnt r own = zlen (sel r own (Lr r))) by (unfold cnt, zlen; f_equal; apply sel_length; lia). rewrite CE. unfold zlen at 1. rewrite repeat_length. unfold zlen. rewrite Z2Nat.id by nia. reflexivity.
    - cbn [app] in EF. change (zlen (@nil R)) with 0 in EF. rewrite EF. reflexivity. }
  rewrite SE in E. cbn [bind] in E.
  destruct (compute_displs_spec (repeat 0 (Z.to_nat Nmpi)) (map (fun q => cnt q own) qs)) as (dp & EDp & LDp & VDp); [unfold zlen; rewrite repeat_length, map_length, zseq_length; lia|].
  rewrite EDp in E. cbn [bind] in E. assert (ZD : zlen dp = Nmpi) by (rewrite LDp; unfold zlen; rewrite repeat_length; lia).
  assert (CT : forall j, (j <= Z.to_nat Nmpi)%nat -> zlen (concat (firstn j (map snd_ qs))) = zsum (firstn j (map (fun q => cnt q own) qs)) * nv).
  { intros j Hj. rewrite !firstn_zseq_map. apply concat_zlen.
    - intros q x Hq. apply zseq_in in Hq. intros Hx. destruct (Lr_ok q ltac:(lia)) as (_ & IL & _). exact (HS _ x IL Hx).
    - intros q Hq. apply zseq_in in Hq. rewrite LO. apply Lr_ok. lia. }
  assert (DP : forall q, 0 <= q < Nmpi -> aget (map (fun d => d * nv) dp) q = Ok (zlen (concat (firstn (Z.to_nat q) (map snd_ qs))))).
  { intros q Hq. specialize (VDp q ltac:(lia)). apply aget_Ok_inv in VDp as [_ VD]. apply aget_nth_error; [lia|]. rewrite (map_nth_error _ _ _ VD). f_equal. symmetry. apply CT. lia. }
  assert (TOT : zlen (concat (map snd_ qs)) = zlen own * nv).
  { rewrite <- (firstn_all (map snd_ qs)) at 1. rewrite map_length, zseq_length, CT by lia. f_equal. rewrite <- (zsum_cnt own (Z.to_nat Nmpi)); [|intros o Ho; specialize (OR o Ho); lia].
    f_equal. rewrite <- (firstn_all (map (fun q => cnt q own) qs)) at 2. now rewrite map_length, zseq_length. }
  assert (GV : Allgatherv (Z.to_nat Nmpi) 0 (map snd_ qs) (map (fun n => n * nv) (map (fun q => cnt q own) qs)) (map (fun n => n * nv) (map (fun q => cnt q own) qs)) (map (fun d => d * nv) dp)
     (repeat junk (Z.to_nat (zlen own * nv))) = Ok (concat (map snd_ qs))).
  { pose proof (gatherv_ok (map snd_ qs) [] (map (fun n => n * nv) (map (fun q => cnt q own) qs)) (map (fun d => d * nv) dp) (repeat junk (Z.to_nat (zlen own * nv)))) as G.
    cbn [app concat] in G. rewrite map_length, zseq_length in G. change (zlen (@nil (list R))) with 0 in G. apply G.
    - intros q Hq. assert (Hq' : 0 <= q < Nmpi) by (unfold zlen at 1 in Hq; rewrite map_length, zseq_length in Hq; lia). exists (snd_ q). split; [now apply aget_map_zseq|]. rewrite map_map.
      rewrite (aget_map_zseq (fun q => cnt q own * nv)) by exact Hq'. f_equal. unfold snd_. destruct (Lr_ok q Hq') as (_ & IL & LL). rewrite (data_length ndim) by (intros x Hx; apply sel_in in Hx; exact (HS _ x IL Hx)).
      f_equal. unfold cnt, zlen. f_equal. apply sel_length. lia.
    - intros q Hq. apply DP. unfold zlen at 1 in Hq. rewrite map_length, zseq_length in Hq. lia.
    - rewrite TOT. unfold zlen at 1. rewrite repeat_length. pose proof (nv_pos ndim). unfold zlen. nia. }
  rewrite GV in E. cbn [bind] in E.
  assert (UN : forall r, 0 <= r < Nmpi -> exists l', unpack_loop ndim r own (Lr r) (map (fun d => d * nv) dp) (repeat 0 (Z.to_nat Nmpi)) (concat (map snd_ qs)) = Ok l' /\ length l' = length (Lr r) /\
     forall i o x y, nth_error own i = Some o -> nth_error (Lr r) i = Some x -> nth_error (Lr o) i = Some y -> nth_error l' i = Some (merge r o x y)).
  { intros r Hr. destruct (unpack_loop_ok ndim r Lr (map (fun d => d * nv) dp) (concat (map snd_ qs)) Nmpi Ns own) with (o2 := own) (o1 := @nil Z) (l1 := @nil sinkd) (l2 := Lr r) (consumed := repeat 0 (Z.to_nat Nmpi)) as (l' & E1 & E2 & E3); auto.
    - intros q Hq. now apply Lr_ok.
    - intros q x Hq Hx. destruct (Lr_ok q Hq) as (_ & IL & _). exact (HS _ x IL Hx).
    - intros q t Hq Ht. exists (zlen (concat (firstn (Z.to_nat q) (map snd_ qs)))). split; [now apply DP|].
      assert (SP : map snd_ qs = firstn (Z.to_nat q) (map snd_ qs) ++ snd_ q :: skipn (S (Z.to_nat q)) (map snd_ qs)).
      { pose proof (aget_map_zseq snd_ Nmpi q Hq) as A. apply aget_Ok_inv in A as [_ A]. rewrite <- (firstn_skipn (Z.to_nat q) (map snd_ qs)) at 1. f_equal.
        clear -A. revert A. generalize (map snd_ qs) as l. generalize (Z.to_nat q) as n. induction n as [|n IH]; intros [|x l] A; cbn in *; try discriminate; [now injection A as ->|now apply IH]. }
      rewrite SP at 1. rewrite concat_app, aget_app2 by lia. cbn [concat]. apply aget_app1. fold (snd_ q). unfold snd_. destruct (Lr_ok q Hq) as (_ & IL & LL).
      rewrite (data_length ndim) by (intros x Hx; apply sel_in in Hx; exact (HS _ x IL Hx)). unfold cnt in Ht. unfold zlen in *. rewrite (sel_length q own (Lr q) own) by lia. lia.
    - unfold zlen. rewrite repeat_length. lia.
    - intros q Hq _. change (cnt q []) with 0. apply aget_nth_error; [lia|]. rewrite (nth_error_nth' _ 0) by (rewrite repeat_length; lia). now rewrite nth_repeat.
    - exists l'. split; [exact E1|]. split; [exact E2|]. intros i o x y A B C. exact (E3 i o x y A B C). }
  set (g := fun r => match unpack_loop ndim r own (Lr r) (map (fun d => d * nv) dp) (repeat 0 (Z.to_nat Nmpi)) (concat (map snd_ qs)) with Ok l' => l' | _ => [] end).
  exists (map g qs). split.
  - etransitivity; [exact E|]. apply each_ok. intros r Hr. rewrite (proj1 (Lr_ok r Hr)). cbn [bind]. unfold g. destruct (UN r Hr) as (l' & E1 & _). now rewrite E1.
  - split; [unfold zlen; rewrite map_length, zseq_length; lia|]. intros r l El. pose proof (aget_Ok_inv _ _ _ El) as [Hr _]. assert (l = Lr r) as -> by (destruct (Lr_ok r Hr); congruence).
    destruct (UN r Hr) as (l' & E1 & E2 & E3). exists l'. split; [rewrite (aget_map_zseq g) by exact Hr; unfold g; now rewrite E1|]. split; [unfold zlen; now rewrite E2|].
    intros s o x Ex C. destruct (claimed_range _ _ C) as [Ho Hs]. assert (Es : s = Z.of_nat (Z.to_nat s)) by lia. rewrite Es in C. apply C1 in C. apply aget_Ok_inv in Ex as [_ Ex].
    destruct (Lr_ok o Ho) as (ELo & _ & LLo). destruct (nth_error (Lr o) (Z.to_nat s)) as [y|] eqn:Ey; [|apply nth_error_None in Ey; lia].
    specialize (E3 _ _ _ _ C Ex Ey). unfold merge in E3. split.
    + intros ->. rewrite Z.eqb_refl in E3. apply aget_nth_error; [lia|exact E3].
    + intros N lo y' Elo Ey'. assert (lo = Lr o) as -> by congruence. apply aget_Ok_inv in Ey' as [_ Ey']. assert (y' = y) as -> by congruence. rewrite (proj2 (Z.eqb_neq o r) N) in E3. apply aget_nth_error; [lia|exact E3].
Qed.
End Whole.
