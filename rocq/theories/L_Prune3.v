From Verif Require Import Prelude L_Prelude S_Tree L_Tree M_Walk Vec M_Box M_Util M_Periodic M_Prune S_Prune L_KDBuild L_KDTop L_StockTree L_Oct4 L_Oct5 L_Prune L_Prune2.
Local Open Scope Z_scope.

Lemma relabel_comp : forall f h t, relabel h (relabel f t) = relabel (fun c => h (f c)) t.
Proof.
  intros f h. induction t as [c ks IH] using rtree_ind2. cbn [relabel]. f_equal. rewrite map_map. induction IH; simpl; congruence.
Qed.
Lemma relabel_id : forall f t, (forall c, In c (preorder t) -> f c = c) -> relabel f t = t.
Proof.
  intros f. induction t as [c ks IH] using rtree_ind2. cbn [relabel preorder]. intros H. f_equal; [apply H; now left|].
  assert (H' : forall c, In c (flat_map preorder ks) -> f c = c) by (intros; apply H; now right). clear H.
  induction IH as [|k ks H1 H2 IH]; [reflexivity|]. cbn [map flat_map] in *. f_equal; [apply H1|apply IH]; intros; apply H', in_or_app; auto.
Qed.
Lemma zseq_nth : forall n a i, (i < n)%nat -> nth_error (zseq a n) i = Some (a + Z.of_nat i).
Proof. induction n; intros a [|i] H; try lia; cbn [zseq nth_error]; [f_equal; lia|]. rewrite IHn by lia. f_equal. lia. Qed.
Lemma list_ext : forall {A} (l m : list A), (forall i, nth_error l i = nth_error m i) -> l = m.
Proof.
  induction l as [|a l IH]; intros [|b m] H; auto; try (specialize (H 0%nat); discriminate). f_equal.
  - specialize (H 0%nat). now injection H.
  - apply IH. intros i. apply (H (S i)).
Qed.
Lemma aget_repeat : forall {A} (x : A) n i, 0 <= i < Z.of_nat n -> aget (repeat x n) i = Ok x.
Proof.
  intros A x n i H. unfold aget. destruct (Z.ltb_spec i 0); [lia|]. assert ((Z.to_nat i < n)%nat) by lia. revert H1. generalize (Z.to_nat i). clear.
  induction n; intros [|k] H; try lia; cbn; auto. apply IHn. lia.
Qed.

Section T.
Variables (ndim : nat) (simbox : dombox) (kernrange macfactor : R) (localNode : bool) (lmin lmax : Z) (hmn hmx : vec).
Variables (celldata : list pcell) (Ncell Ncellmax : Z) (t : rtree) (next : Z).
Notation opn := (opens ndim simbox kernrange macfactor localNode lmin lmax hmn hmx).
Notation op := (op ndim simbox kernrange macfactor localNode lmin lmax hmn hmx celldata).
Notation Create := (CreatePrunedTreeForMpiNode ndim simbox kernrange macfactor localNode lmin lmax hmn hmx celldata Ncell Ncellmax).
Hypothesis Hroot : root t = 0.
Hypothesis Hnd : NoDup (preorder t).
Hypothesis Hb : forall c, In c (preorder t) -> 0 <= c < Ncell.
Hypothesis Hli : linked Ncell (co_of celldata) (cn_of celldata) t next.
Hypothesis Hnx : Ncell <= next.
Hypothesis Hmax : Ncell <= Ncellmax.
Hypothesis Hlen : Ncell <= zlen celldata.
Hypothesis Hex : forall c k, In c (preorder t) -> aget celldata c = Ok k -> Ncell <= k_cnext k -> k_cnext k = Ncell \/ k_cnext k = Ncellmax.
Let p := prune op t.

Lemma create_prunes : forall pruned Nprunedcellmax, 0 <= Nprunedcellmax <= zlen pruned ->
  (zlen (preorder p) <= Nprunedcellmax ->
     exists cells lf ll n, Create Nprunedcellmax pruned = Ok (cells, lf, ll, n) /\ pruned_copy celldata p cells lf ll n /\ zlen cells = zlen pruned) /\
  (Nprunedcellmax < zlen (preorder p) -> exists cells lf ll, Create Nprunedcellmax pruned = Ok (cells, lf, ll, -1)).
Proof.
  intros pruned M HM. unfold CreatePrunedTreeForMpiNode.
  set (s0 := mkps _ _ _ _ _).
  assert (Lids : zlen (q_ids s0) = Ncellmax + 1) by (cbn; unfold zlen; rewrite repeat_length; assert (0 <= Ncell) by (pose proof (Hb (root t)); destruct t as [c ks]; cbn in *; specialize (H (or_introl eq_refl)); lia); lia).
  destruct (twalk_done ndim simbox kernrange macfactor localNode lmin lmax hmn hmx celldata M Ncell Hlen t next s0) as [A B]; auto.
  { cbn. lia. } { cbn. lia. } { lia. }
  fold p in A, B. cbn [q_n s0] in A, B. rewrite Z.add_0_l in A, B.
  assert (Fuel : (msize t <= Z.to_nat Ncell)%nat).
  { unfold msize. apply nodup_bound; auto. intros c Hc. specialize (Hb c Hc). lia. }
  assert (VD : forall c s s', prune_visit ndim simbox kernrange macfactor localNode lmin lmax hmn hmx celldata M c s = Ok (s', Down) -> co_of celldata c <> Ok (-1)).
  { intros c s s'. unfold prune_visit, co_of. destruct (_ =? _); [discriminate|]. destruct (aset (q_ids s) c (q_n s)); try discriminate. cbn [bind].
    destruct (aget celldata c) as [k| | |]; try discriminate. cbn [bind]. destruct (opn k) eqn:EO.
    - intros _ K. injection K as K. now apply opens_copen in EO.
    - destruct (aset _ _ _); cbn; discriminate. }
  assert (WK : forall x, twalk (prune_visit ndim simbox kernrange macfactor localNode lmin lmax hmn hmx celldata M) t s0 = Ok x ->
     walk (fun c => let! k := aget celldata c in Ok (k_copen k)) (fun c => let! k := aget celldata c in Ok (k_cnext k))
      Ncell (prune_visit ndim simbox kernrange macfactor localNode lmin lmax hmn hmx celldata M) (Z.to_nat Ncell) 0%Z s0 = Ok x).
  { intros x E. eapply walk_mono; [exact VD|exact Fuel|]. rewrite <- Hroot. eapply walk_correct; eauto. intros c Hc. now apply Hb. }
  split; intros HP.
  2:{ destruct (B HP) as (s1 & E1). rewrite (WK _ E1). cbn [bind]. eauto. }
  destruct (A HP) as (s1 & E1 & D). rewrite (WK _ E1). cbn [bind].
  set (W := preorder p) in *. set (n := zlen W) in *.
  assert (Pn : 0 < n) by (unfold n, W, p; destruct t; unfold zlen; cbn; lia).
  assert (WB : forall c, In c W -> 0 <= c < Ncell) by (intros c Hc; apply Hb; now apply prune_incl in Hc).
  assert (Qn : q_n s1 = n) by (rewrite (d_n _ _ _ _ _ _ _ _ _ _ _ _ _ _ D); reflexivity). rewrite Qn.
  assert (L1 : zlen (q_ids s1) = Ncellmax + 1) by now rewrite (d_li _ _ _ _ _ _ _ _ _ _ _ _ _ _ D).
  assert (L2 : zlen (q_cells s1) = zlen pruned) by now rewrite (d_lc _ _ _ _ _ _ _ _ _ _ _ _ _ _ D).
  assert (Nc0 : 0 < Ncell) by (destruct W as [|w W'] eqn:EW; [unfold n in Pn; cbn in Pn; lia|specialize (WB w (or_introl eq_refl)); lia]).
  rewrite aset_in by lia. cbn [bind]. rewrite aset_in by (rewrite zlen_upd; lia). cbn [bind].
  set (ids := upd (upd (q_ids s1) (Z.to_nat Ncell) n) (Z.to_nat Ncellmax) n).
  set (f := val (q_ids s1)).
  assert (Fk : forall k c, nth_error W k = Some c -> aget (q_ids s1) c = Ok (Z.of_nat k)).
  { intros k c H. rewrite (d_id _ _ _ _ _ _ _ _ _ _ _ _ _ _ D _ _ H). reflexivity. }
  assert (Ff : forall k c, nth_error W k = Some c -> f c = Z.of_nat k) by (intros k c H; unfold f, val; now rewrite (Fk k c H)).
  assert (Iin : forall c, In c W -> aget ids c = Ok (f c)).
  { intros c Hc. specialize (WB c Hc). unfold ids. rewrite !aget_upd_ne by lia. apply In_nth_error in Hc as (k & Hk). rewrite (Ff _ _ Hk). now apply Fk. }
  assert (Iex : aget ids Ncell = Ok n /\ aget ids Ncellmax = Ok n).
  { unfold ids. split; [|apply aget_upd_eq; rewrite zlen_upd; lia]. destruct (Z.eq_dec Ncellmax Ncell) as [->|Ne].
    - apply aget_upd_eq; rewrite zlen_upd; lia.
    - rewrite aget_upd_ne by lia. apply aget_upd_eq. lia. }
  set (g := g Ncell f n).
  (* pointers of the cells in the pruned tree *)
  assert (NX : forall c k, In c W -> aget celldata c = Ok k -> (k_cnext k < Ncell -> In (k_cnext k) W) /\ (opn k = true -> In (k_copen k) W)).
  { intros c k Hc Ek. eapply (prune_nexts ndim simbox kernrange macfactor localNode lmin lmax hmn hmx celldata Ncell W) with (t := t) (next := next); eauto.
    - intros x Hx. exact Hx.
    - intros x Hx. now apply Hb.
    - lia. }
  assert (Gx : forall c k, In c W -> aget celldata c = Ok k -> aget ids (k_cnext k) = Ok (g (k_cnext k))).
  { intros c k Hc Ek. unfold g, L_Prune2.g. destruct (Z.ltb_spec (k_cnext k) Ncell) as [K|K].
    - apply Iin. now apply (NX c k Hc Ek).
    - destruct (Hex c k) as [-> | ->]; auto; try apply Iex. now apply prune_incl in Hc. }
  assert (Go : forall c k, In c W -> aget celldata c = Ok k -> opn k = true -> aget ids (k_copen k) = Ok (g (k_copen k))).
  { intros c k Hc Ek EO. destruct (NX c k Hc Ek) as [_ N2]. specialize (N2 EO). rewrite (Iin _ N2). unfold g, L_Prune2.g. specialize (WB _ N2).
    destruct (Z.ltb_spec (k_copen k) Ncell); [easy|lia]. }
  (* the links as functions of the new number *)
  set (orig := fun i => nth (Z.to_nat i) W 0).
  assert (Of : forall c, In c W -> orig (f c) = c).
  { intros c Hc. apply In_nth_error in Hc as (k & Hk). unfold orig. rewrite (Ff _ _ Hk), Nat2Z.id. now apply nth_error_nth. }
  assert (On : forall i, 0 <= i < n -> In (orig i) W /\ f (orig i) = i /\ nth_error W (Z.to_nat i) = Some (orig i)).
  { intros i Hi. assert ((Z.to_nat i < length W)%nat) by (unfold n, zlen in Hi; lia).
    assert (E : nth_error W (Z.to_nat i) = Some (orig i)) by (unfold orig; now apply nth_error_nth'). split; [eapply nth_error_In; eauto|]. split; [|exact E].
    rewrite (Ff _ _ E). lia. }
  set (cn' := fun i => let! k := aget celldata (orig i) in Ok (g (k_cnext k))).
  set (co' := fun i => let! k := aget celldata (orig i) in Ok (if opn k then g (k_copen k) else -1)).
  assert (LK : linked n co' cn' (relabel f p) (g next)).
  { apply (prune_links ndim simbox kernrange macfactor localNode lmin lmax hmn hmx celldata Ncell W f n co' cn') with (t := t); auto.
    - intros c k Hc Ek. unfold cn', co'. rewrite Of by exact Hc. rewrite Ek. cbn. auto.
    - intros x Hx. exact Hx.
    - intros x Hx. now apply Hb. }
  assert (Gn : g next = n) by (unfold g, L_Prune2.g; destruct (Z.ltb_spec next Ncell); [lia|easy]). rewrite Gn in LK.
  assert (PT : preorder (relabel f p) = zseq 0 (Z.to_nat n)).
  { rewrite relabel_preorder. fold W. apply list_ext. intros i. rewrite nth_error_map. destruct (nth_error W i) as [c|] eqn:E.
    - cbn. rewrite (Ff _ _ E). rewrite zseq_nth; [f_equal; lia|]. assert (i < length W)%nat by (apply nth_error_Some; congruence). unfold n, zlen. lia.
    - cbn. symmetry. apply nth_error_None. rewrite zseq_length. apply nth_error_None in E. unfold n, zlen. lia. }
  assert (Gle : forall c k, In c W -> aget celldata c = Ok k -> g (k_cnext k) <= n).
  { intros c k Hc Ek. unfold g, L_Prune2.g. destruct (Z.ltb_spec (k_cnext k) Ncell) as [K|K]; [|lia]. destruct (NX c k Hc Ek) as [N1 _].
    specialize (N1 K). apply In_nth_error in N1 as (j & Hj). rewrite (Ff _ _ Hj). assert (j < length W)%nat by (apply nth_error_Some; congruence). unfold n, zlen. lia. }
  assert (FW : forall i k, 0 <= i < n -> aget celldata (orig i) = Ok k -> i < g (k_cnext k) <= n /\ (if opn k then g (k_copen k) else -1) < g (k_cnext k) /\
     ((if opn k then g (k_copen k) else -1) = -1 \/ (if opn k then g (k_copen k) else -1) = i + 1)).
  { intros i k Hi Ek.
    pose proof (linked_forward n co' cn' (relabel f p) 0 (Z.to_nat n)) as Q. replace (0 + Z.of_nat (Z.to_nat n)) with n in Q by lia.
    destruct (Q LK PT) with (c := i) (o := if opn k then g (k_copen k) else -1) (x := g (k_cnext k)) as (Q1 & Q2 & Q3); auto; try lia.
    - intros c x Hc. rewrite PT in Hc. apply zseq_in in Hc. destruct (On c) as (O1 & _ & _); [lia|]. unfold cn'. 
      destruct (aget celldata (orig c)) as [k'| | |] eqn:E; try discriminate. cbn. intros K. injection K as <-. eapply Gle; eauto.
    - rewrite PT. apply zseq_in. lia.
    - unfold co'. rewrite Ek. reflexivity.
    - unfold cn'. rewrite Ek. reflexivity. }
  assert (Dc : forall i, 0 <= i < n -> exists k, aget celldata (orig i) = Ok k /\ aget (q_cells s1) i = Ok (pcopy ndim simbox kernrange macfactor localNode lmin lmax hmn hmx k)).
  { intros i Hi. destruct (On i Hi) as (O1 & O2 & O3). destruct (d_c _ _ _ _ _ _ _ _ _ _ _ _ _ _ D _ _ O3) as (kc & K1 & K2). exists kc. split; [exact K1|].
    cbn [q_n s0] in K2. rewrite <- K2. f_equal. lia. }
  set (h := fun (i : Z) (k : pcell) => set_cnext (g (k_cnext k)) (set_copen (if k_copen k =? -1 then -1 else g (k_copen k)) k)).
  assert (Hpc : forall k, k_cnext (pcopy ndim simbox kernrange macfactor localNode lmin lmax hmn hmx k) = k_cnext k) by (intros; unfold pcopy; destruct (opn k); reflexivity).
  assert (Hpo : forall k, (if k_copen (pcopy ndim simbox kernrange macfactor localNode lmin lmax hmn hmx k) =? -1 then -1 else g (k_copen (pcopy ndim simbox kernrange macfactor localNode lmin lmax hmn hmx k))) =
      if opn k then g (k_copen k) else -1).
  { intros k. unfold pcopy. destruct (opn k) eqn:EO; [|reflexivity]. apply opens_copen in EO. destruct (Z.eqb_spec (k_copen k) (-1)); easy. }
  destruct (renumber_ok ids (Z.to_nat n) 0 (q_cells s1) h) as (cells & R1 & R2 & R3).
  { lia. }
  { rewrite L2. lia. }
  { intros i Hi. assert (Hi' : 0 <= i < n) by lia. destruct (Dc i Hi') as (k & K1 & K2). destruct (On i Hi') as (O1 & O2 & O3). destruct (FW i k Hi' K1) as (F1 & F2 & _).
    exists (pcopy ndim simbox kernrange macfactor localNode lmin lmax hmn hmx k), (if opn k then g (k_copen k) else -1), (g (k_cnext k)).
    split; [exact K2|]. split; [|split; [|split; [lia|split; [lia|]]]].
    - unfold pcopy. destruct (opn k) eqn:EO.
      + destruct (Z.eqb_spec (k_copen k) (-1)) as [K|K]; [now apply opens_copen in EO|]. eapply Go; eauto.
      + reflexivity.
    - rewrite Hpc. eapply Gx; eauto.
    - unfold h. rewrite Hpc, Hpo. reflexivity. }
  rewrite R1. cbn [bind]. do 4 eexists. split; [reflexivity|].
  assert (Rc : forall i, 0 <= i < n -> exists k, aget celldata (orig i) = Ok k /\
     aget cells i = Ok (set_cnext (g (k_cnext k)) (set_copen (if opn k then g (k_copen k) else -1) (pcopy ndim simbox kernrange macfactor localNode lmin lmax hmn hmx k)))).
  { intros i Hi. destruct (Dc i Hi) as (k & K1 & K2). exists k. split; [exact K1|]. rewrite (R3 _ _ K2).
    destruct (Z.leb_spec 0 i), (Z.ltb_spec i (0 + Z.of_nat (Z.to_nat n))); try lia. cbn. unfold h. now rewrite Hpc, Hpo. }
  split; [|rewrite R2; exact L2]. split; [reflexivity|]. fold W. fold n. split; [|split].
  - exists (relabel f p). split; [|split; [exact PT|split]].
    + rewrite relabel_comp. apply relabel_id. exact Of.
    + revert LK. apply linked_ext. intros c Hc. rewrite PT in Hc. apply zseq_in in Hc. destruct (Rc c ltac:(lia)) as (k & K1 & K2).
      unfold co_of, cn_of, co', cn'. rewrite K1, K2. split; reflexivity.
    + rewrite (d_lf _ _ _ _ _ _ _ _ _ _ _ _ _ _ D). cbn [q_leaf s0 app]. rewrite relabel_leaves. reflexivity.
  - rewrite (d_ll _ _ _ _ _ _ _ _ _ _ _ _ _ _ D). reflexivity.
  - intros i Hi. destruct (Rc i Hi) as (k & K1 & K2). destruct (FW i k Hi K1) as (F1 & _ & F3). do 2 eexists. split; [exact K1|]. split; [exact K2|].
    split; [|split; [exact F1|exact F3]]. unfold same_data, pcopy. destruct (opn k); repeat split.
Qed.

(** The doubling loop. *)
Lemma retry_prunes : forall alloc m0, (forall m, m <= zlen (alloc m)) -> 0 < m0 ->
  exists fuel, forall f', (fuel <= f')%nat ->
  exists m cells lf ll n, prune_retry ndim simbox kernrange macfactor localNode lmin lmax hmn hmx f' alloc celldata Ncell Ncellmax m0 = Ok (cells, lf, ll, n) /\
    pruned_copy celldata p cells lf ll n /\ n <= m /\ (m = m0 \/ m < 2 * n) /\ zlen cells = zlen (alloc m).
Proof.
  intros alloc m0 Ha Hm0.
  assert (Q : forall f m, 0 < m -> zlen (preorder p) <= m * 2 ^ Z.of_nat f -> forall f', (f <= f')%nat ->
    exists m' cells lf ll n, prune_retry ndim simbox kernrange macfactor localNode lmin lmax hmn hmx f' alloc celldata Ncell Ncellmax m = Ok (cells, lf, ll, n) /\
    pruned_copy celldata p cells lf ll n /\ n <= m' /\ (m' = m \/ m' < 2 * n) /\ zlen cells = zlen (alloc m')).
  { induction f as [|f IH]; intros m Hm Hf f' Hf'.
    - destruct (create_prunes (alloc m) m) as [A _]. { specialize (Ha m). lia. } destruct A as (cells & lf & ll & n & E & PC & Z). { cbn in Hf. lia. }
      assert (n = zlen (preorder p)) as En by apply PC. assert (0 < n) by (rewrite En; unfold p; destruct t; unfold zlen; cbn; lia).
      exists m, cells, lf, ll, n. split; [|split; [exact PC|split; [|auto]]].
      + destruct f'; cbn [prune_retry]; rewrite E; cbn [bind]; destruct (Z.eqb_spec n (-1)); try lia; reflexivity.
      + rewrite En. cbn in Hf. lia.
    - destruct (create_prunes (alloc m) m) as [A B]. { specialize (Ha m). lia. }
      destruct (Z.le_gt_cases (zlen (preorder p)) m) as [K|K].
      + destruct (A K) as (cells & lf & ll & n & E & PC & Z). assert (n = zlen (preorder p)) as En by apply PC. assert (0 < n) by (rewrite En; unfold p; destruct t; unfold zlen; cbn; lia).
        exists m, cells, lf, ll, n. split; [|split; [exact PC|split; [lia|auto]]].
        destruct f'; cbn [prune_retry]; rewrite E; cbn [bind]; destruct (Z.eqb_spec n (-1)); try lia; reflexivity.
      + destruct (B ltac:(lia)) as (cells & lf & ll & E). destruct f' as [|f']; [lia|]. cbn [prune_retry]. rewrite E. cbn [bind]. change (-1 =? -1) with true. cbn [Z.eqb].
        destruct (IH (2 * m) ltac:(lia)) with (f' := f') as (m' & cs & lf' & ll' & n & E' & PC & H1 & H2 & H3); [|lia|].
        { rewrite Nat2Z.inj_succ, Z.pow_succ_r in Hf by lia. lia. }
        exists m', cs, lf', ll', n. split; [exact E'|]. split; [exact PC|]. split; [exact H1|]. split; [|exact H3]. right. destruct H2 as [->|H2]; [|exact H2].
        assert (n = zlen (preorder p)) as En by apply PC. lia. }
  exists (length (preorder p)). intros f' Hf'. apply Q with (f := length (preorder p)); auto.
  unfold zlen. assert (forall k, Z.of_nat k <= 2 ^ Z.of_nat k) as PW.
  { induction k; [cbn; lia|]. rewrite Nat2Z.inj_succ, Z.pow_succ_r by lia. lia. }
  specialize (PW (length (preorder p))). nia.
Qed.
End T.
