From Verif Require Import Prelude L_Prelude Vec S_Tree M_Walk L_Tree M_KDTree L_StockTree M_Search L_Search M_Stock S_Stock L_Stock
  M_Box S_Box L_Box M_Gather S_Search.
From Coq Require Import Reals Lra Permutation.
Local Open Scope Z_scope.

(** Every cell's list is a sublist of the whole: inherits NoDup and any property of members. *)
Lemma ctree_sub : forall (P L : Z -> list Z -> Prop) (Q C : Z -> Prop),
  (forall t ps, ctree P L t ps -> NoDup ps -> (forall p, In p ps -> Q p) -> (forall c, In c (preorder t) -> C c) ->
     ctree (fun c qs => P c qs /\ NoDup qs /\ (forall p, In p qs -> Q p) /\ C c)
           (fun c qs => L c qs /\ NoDup qs /\ (forall p, In p qs -> Q p) /\ C c) t ps) /\
  (forall ks pss, ctrees P L ks pss -> NoDup (concat pss) -> (forall p, In p (concat pss) -> Q p) ->
     (forall c, In c (flat_map preorder ks) -> C c) ->
     ctrees (fun c qs => P c qs /\ NoDup qs /\ (forall p, In p qs -> Q p) /\ C c)
           (fun c qs => L c qs /\ NoDup qs /\ (forall p, In p qs -> Q p) /\ C c) ks pss).
Proof.
  intros P L Q C. apply ctree_mutind.
  - intros c ps HP HL ND HQ HC. constructor; (split; [assumption|]); (split; [assumption|]); (split; [assumption|]);
      apply HC; now left.
  - intros c ks pss Hne Hks IH HP ND HQ HC. apply ctree_node; auto.
    + apply IH; auto. intros c' Hc. apply HC. now right.
    + repeat (split; [assumption|]). apply HC; now left.
  - intros. constructor.
  - intros k ks ps pss Hk IHk Hks IHks ND HQ HC. cbn [concat] in *. destruct (nodup_app_inv _ _ ND) as (N1 & N2 & _).
    constructor; [apply IHk|apply IHks]; auto; intros; first [apply HQ|apply HC]; apply in_or_app; auto.
Qed.

Lemma ctree_all : forall (P L : Z -> list Z -> Prop),
  (forall t ps, ctree P L t ps -> forall c, In c (preorder t) -> exists qs, P c qs) /\
  (forall ks pss, ctrees P L ks pss -> forall c, In c (flat_map preorder ks) -> exists qs, P c qs).
Proof.
  intros P L. apply ctree_mutind.
  - intros c ps HP HL c' [<-|[]]. eauto.
  - intros c ks pss Hne Hks IH HP c' [<-|H]; eauto.
  - intros c [].
  - intros k ks ps pss Hk IHk Hks IHks c H. cbn in H. apply in_app_or in H. destruct H; auto.
Qed.

Section Trim.
Variable keep : Z -> res bool.
Definition kp (i : Z) : bool := match keep i with Ok b => b | _ => false end.

Lemma aget_app_mid : forall A (a b : list A) x, aget (a ++ x :: b) (zlen a) = Ok x.
Proof.
  intros. unfold aget, zlen. destruct (Z.ltb_spec (Z.of_nat (length a)) 0); [lia|].
  rewrite Nat2Z.id, nth_error_app2, Nat.sub_diag by lia. reflexivity.
Qed.
Lemma aset_app_mid : forall A (a b : list A) x y, aset (a ++ x :: b) (zlen a) y = Ok (a ++ y :: b).
Proof.
  intros. destruct (aset_spec (a ++ x :: b) (zlen a) y) as (l & E1 & E2 & E3 & E4).
  { unfold zlen. rewrite app_length. cbn [length]. lia. }
  rewrite E1. f_equal. apply aget_ext.
  - rewrite E2. unfold zlen. rewrite !app_length. reflexivity.
  - intros i Hi. destruct (Z.eq_dec i (zlen a)) as [->|N]; [rewrite E3; symmetry; apply aget_app_mid|].
    rewrite E4 by easy. unfold aget. destruct (Z.ltb_spec i 0); [easy|].
    assert (X : nth_error (a ++ x :: b) (Z.to_nat i) = nth_error (a ++ y :: b) (Z.to_nat i)); [|now rewrite X].
    unfold zlen in N. destruct (Nat.lt_ge_cases (Z.to_nat i) (length a)).
    + rewrite !nth_error_app1; auto.
    + rewrite !nth_error_app2 by lia. destruct (Z.to_nat i - length a)%nat eqn:Ed; [lia|reflexivity].
Qed.

(** [a]: entries kept so far; [m]: slots freed; [r]: entries still to look at. *)
Lemma trim_spec : forall r a m, (forall i, In i r -> exists b, keep i = Ok b) ->
  exists rest, trim keep (a ++ m ++ r) (zlen (a ++ m)) (length r) (zlen a) =
    Ok (a ++ filter kp r ++ rest, zlen (a ++ filter kp r)).
Proof.
  induction r as [|i r IH]; intros a m Hk.
  - cbn [trim filter length]. exists m. rewrite !app_nil_r. reflexivity.
  - cbn [length trim]. rewrite app_assoc, aget_app_mid. cbn [bind].
    destruct (Hk i (or_introl eq_refl)) as [b Hb]. rewrite Hb. cbn [bind filter].
    assert (Kb : kp i = b) by (unfold kp; now rewrite Hb). rewrite Kb.
    assert (Hk' : forall i, In i r -> exists b, keep i = Ok b) by (intros; apply Hk; now right).
    destruct b.
    + destruct m as [|x m].
      * rewrite app_nil_r. rewrite aset_app_mid. cbn [bind].
        destruct (IH (a ++ [i]) [] Hk') as [rest E]. exists rest.
        rewrite app_nil_r in E. cbn [app] in E. rewrite <- !app_assoc in E. cbn [app] in E.
        replace (zlen a + 1) with (zlen (a ++ [i])) by (unfold zlen; rewrite !app_length; cbn [length]; lia).
        exact E.
      * rewrite <- app_assoc. cbn [app]. rewrite aset_app_mid. cbn [bind].
        destruct (IH (a ++ [i]) (m ++ [i]) Hk') as [rest E]. exists rest.
        replace (a ++ i :: m ++ i :: r) with ((a ++ [i]) ++ (m ++ [i]) ++ r) by (rewrite <- !app_assoc; reflexivity).
        replace (zlen (a ++ x :: m) + 1) with (zlen ((a ++ [i]) ++ m ++ [i]))
          by (unfold zlen; repeat (rewrite app_length || cbn [length]); lia).
        replace (zlen a + 1) with (zlen (a ++ [i])) by (unfold zlen; rewrite !app_length; cbn [length]; lia).
        rewrite E. rewrite <- !app_assoc. reflexivity.
    + destruct (IH a (m ++ [i]) Hk') as [rest E]. exists rest.
      replace ((a ++ m) ++ i :: r) with (a ++ (m ++ [i]) ++ r) by (rewrite <- !app_assoc; reflexivity).
      replace (zlen (a ++ m) + 1) with (zlen (a ++ m ++ [i])) by (unfold zlen; rewrite !app_length; cbn [length]; lia).
      exact E.
Qed.
Lemma trim_whole : forall neib l, (forall i, In i l -> exists b, keep i = Ok b) ->
  exists buf' n, trim keep (neib ++ l) (zlen neib) (Z.to_nat (zlen (neib ++ l) - zlen neib)) (zlen neib) = Ok (buf', n) /\
    firstn (Z.to_nat n) buf' = neib ++ filter kp l.
Proof.
  intros neib l Hk. destruct (trim_spec l neib [] Hk) as [rest E].
  replace (Z.to_nat (zlen (neib ++ l) - zlen neib)) with (length l)
    by (unfold zlen; rewrite app_length; lia).
  cbn [app] in E. rewrite app_nil_r in E. rewrite E. eexists _, _. split; [reflexivity|].
  rewrite app_assoc. unfold zlen. rewrite Nat2Z.id. rewrite firstn_app, Nat.sub_diag, firstn_all.
  cbn [firstn]. apply app_nil_r.
Qed.
End Trim.

Section Stocked.
Variables (ndim : nat) (kr th2 : R) (quad : bool) (pd : list particle) (Nl : Z) (s : tstate) (Ncell : Z) (t : rtree) (ps : list Z).
Hypothesis ST : stocked ndim kr th2 quad pd Nl s Ncell t ps.
Let v := view_of (ts_k s).
Let fuel := tfuel (ts_k s).

Lemma parts_in : forall l xs i, parts_of pd l = Ok xs -> In i l -> exists x, aget pd i = Ok x /\ In x xs.
Proof.
  induction l as [|a l IH]; intros xs i H Hi; [easy|]. cbn [parts_of] in H.
  destruct (aget pd a) as [x| | |] eqn:E; cbn [bind] in H; try discriminate.
  destruct (parts_of pd l) as [ys| | |] eqn:F; cbn [bind] in H; try discriminate. injection H as <-.
  destruct Hi as [<-|Hi]; [exists x; split; [exact E|now left]|].
  destruct (IH ys i eq_refl Hi) as (y & A & B). exists y. split; [exact A|now right].
Qed.

(** What each cell knows. *)
Definition known (c : Z) (qs : list Z) : Prop :=
  count_ok v c qs /\ exists g, aget (ts_g s) c = Ok g /\ zlen qs = gN g /\
    (forall i, In i qs -> exists p, aget pd i = Ok p /\
      in_box ndim (gbmin g) (gbmax g) (p_r p) /\
      in_box ndim (ghbmin g) (ghbmax g) (fun k => p_r p k - kr * p_h p)%R /\
      in_box ndim (ghbmin g) (ghbmax g) (fun k => p_r p k + kr * p_h p)%R /\
      (p_h p <= ghmax g)%R /\ (norm ndim (vsub (p_r p) (grcell g)) <= grmax g)%R) /\
    (0 <= grmax g)%R /\ (0 <= ghmax g)%R /\
    cell_ok ndim kr th2 quad pd s c qs /\ 0 <= c < Ncell.

Lemma stocked_known : (0 <= kr)%R -> (forall p x, In p ps -> aget pd p = Ok x -> (0 <= p_h x)%R) ->
  ctree (fun c qs => known c qs /\ forall p, In p qs -> In p ps) (leaf_ok fuel v Nl) t ps.
Proof.
  intros Hkr Hh. destruct ST as [st_root0 st_cells0 st_links0 st_desc0 st_nodup0 st_range0].
  assert (X := proj1 (ctree_sub _ _ (fun p => In p ps) (fun c => 0 <= c < Ncell)) t ps st_desc0 st_nodup0 (fun p Hp => Hp)).
  assert (X0 : forall c, In c (preorder t) -> 0 <= c < Ncell).
  { intros c Hc. rewrite st_cells0, zseq_in in Hc. lia. }
  specialize (X X0).
  refine (proj1 (ctree_impl _ _ _ _ _ _) t ps X).
  - intros c qs (CO & F & G & Rg). assert (CO' := CO). destruct CO as (k & g & xs & A & B & C & D & E).
    split; [|exact G]. split.
    + unfold count_ok, v. cbn. unfold kget. rewrite A. cbn [bind]. now rewrite B.
    + exists g. split; [exact C|]. destruct E as [d_N d_Nactive d_bb d_hb d_vb d_h d_sound d_h0 d_hatt d_satt d_rmax d_rmax0 d_rcell d_diag d_cdist d_m d_com d_cov d_quad]. split.
      { rewrite d_N. clear - D. revert xs D. induction qs; intros xs D; cbn in D; [now injection D as <-|].
        destruct (aget pd a); cbn [bind] in D; try discriminate. destruct (parts_of pd qs) as [ys| | |]; cbn [bind] in D; try discriminate.
        injection D as <-. unfold zlen in *. cbn [length]. rewrite !Nat2Z.inj_succ. now rewrite (IHqs ys eq_refl). }
      split; [|repeat (split; [assumption|]); assumption].
      intros i Hi. destruct (parts_in _ _ _ D Hi) as (p & P1 & P2). exists p. split; [exact P1|].
      assert (H0 := Hh i p (G i Hi) P1).
      split; [|split; [|split; [|split; [now apply d_h|now apply d_rmax]]]].
      * intros k0 Hk. destruct (d_bb k0 Hk) as [Bd _]. exact (Bd p P2).
      * intros k0 Hk. destruct (d_hb k0 Hk) as [Bd _]. destruct (Bd p P2). cbn in *. split; [lra|]. nra.
      * intros k0 Hk. destruct (d_hb k0 Hk) as [Bd _]. destruct (Bd p P2). cbn in *. split; [nra|lra].
  - intros c qs ((k & A & B & C) & F & G & Rg). unfold leaf_ok, cell_list, v, view_of. cbn [vfirst vlast vinext]. unfold kget. rewrite A. cbn [bind].
    split; [|split; [exact C|]].
    + apply read_list_chain; auto.
      * intros p Hp. destruct (st_range0 p (G p Hp)). lia.
      * unfold fuel, tfuel. assert (length qs <= length (inext (ts_k s)))%nat; [|lia].
        apply L_KDBuild.nodup_bound; [exact F|]. intros p Hp. destruct (st_range0 p (G p Hp)). unfold zlen in *. lia.
    + intros p ->. destruct B as [-> _]. reflexivity.
Qed.

Lemma stocked_walk_fuel : Z.to_nat Ncell = msize t.
Proof. destruct ST as [st_root0 st_cells0 st_links0 st_desc0 st_nodup0 st_range0]. unfold msize. rewrite st_cells0. now rewrite zseq_length. Qed.
Lemma stocked_range : forall c, In c (preorder t) -> 0 <= c < Ncell.
Proof. destruct ST as [st_root0 st_cells0 st_links0 st_desc0 st_nodup0 st_range0]. intros c Hc. rewrite st_cells0, zseq_in in Hc. lia. Qed.
Lemma stocked_linked : linked Ncell (vopen v) (vnext v) t Ncell.
Proof. destruct ST as [st_root0 st_cells0 st_links0 st_desc0 st_nodup0 st_range0]. exact st_links0. Qed.

Lemma part_of_ps : forall p, In p ps -> exists x, aget pd p = Ok x.
Proof.
  intros p Hp. destruct ST as [st_root0 st_cells0 st_links0 st_desc0 st_nodup0 st_range0]. apply ctree_root in st_desc0. destruct st_desc0 as (k & g & xs & A & B & C & D & E).
  destruct (parts_in _ _ _ D Hp) as (x & F & _). eauto.
Qed.

Hypothesis Hkr : (0 <= kr)%R.
Hypothesis Hh : forall p x, In p ps -> aget pd p = Ok x -> (0 <= p_h x)%R.

(** ** Search around a point *)
Theorem gather_point_correct : forall Nneibmax rp rsearch neib,
  (0 <= rsearch)%R -> zlen neib <= Nneibmax ->
  exists r, gather_point ndim pd s Ncell Nl Nneibmax rp rsearch neib = Ok r /\
    match r with
    | Some l => l = neib ++ filter (fun i => match aget pd i with
                                             | Ok p => negb (p_dead p) && rltb (norm ndim (vsub (p_r p) rp)) rsearch
                                             | _ => false end) ps /\ zlen l <= Nneibmax
    | None => Nneibmax <= zlen neib + Nl + zlen (filter (fun i => match aget pd i with
                                             | Ok p => negb (p_dead p) && rltb (norm ndim (vsub (p_r p) rp)) rsearch
                                             | _ => false end) ps)
    end.
Proof.
  intros Nneibmax rp rs neib Hrs Hn.
  set (want := fun i => match aget pd i with
       | Ok p => negb (p_dead p) && rltb (norm ndim (vsub (p_r p) rp)) rs | _ => false end).
  assert (KP : forall i, kept (point_keep ndim pd rp rs) i = want i).
  { intros i. unfold kept, point_keep, want. destruct (aget pd i) as [p| | |]; cbn [bind]; auto.
    rewrite Bool.andb_comm. f_equal. apply Bool.eq_iff_eq_true. rewrite !rltb_true. now rewrite norm_lt_sqr. }
  assert (FE : forall l, filter (kept (point_keep ndim pd rp rs)) l = filter want l).
  { intros l. apply filter_ext. exact KP. }
  assert (G := gather_walk fuel v Nl (point_opn ndim (ts_g s) rp rs) (point_keep ndim pd rp rs) Nneibmax Ncell t ps Ncell).
  assert (CT : ctree (fun c ps => count_ok v c ps /\ opn_ok (point_opn ndim (ts_g s) rp rs) (point_keep ndim pd rp rs) c ps /\ keep_ok (point_keep ndim pd rp rs) ps) (leaf_ok fuel v Nl) t ps).
  { refine (proj1 (ctree_impl _ _ _ _ _ (fun c qs H => H)) t ps (stocked_known Hkr Hh)).
    intros c qs ((HC & g & Hg & HN & HI & HR & _) & HS). split; [exact HC|]. split.
    - eexists. unfold point_opn. rewrite Hg. cbn [bind]. split; [reflexivity|].
      intros Hf i Hi. apply rltb_false in Hf. destruct (HI i Hi) as (p & Hp & _ & _ & _ & _ & HD).
      unfold point_keep. rewrite Hp. cbn [bind]. f_equal. apply Bool.andb_false_iff. left. apply rltb_false.
      assert (Ht := norm_triangle_sub ndim (grcell g) (p_r p) rp).
      rewrite norm_sub_sym in HD.
      destruct (Rlt_le_dec (dot ndim (vsub (p_r p) rp) (vsub (p_r p) rp)) (rs * rs)) as [X|X]; [|exact X].
      apply norm_lt_sqr in X; [|exact Hrs].
      exfalso. assert (Y : (norm ndim (vsub (grcell g) rp) < rs + grmax g)%R) by lra.
      apply norm_lt_sqr in Y; lra.
    - intros i Hi. destruct (HI i Hi) as (p & Hp & _). unfold point_keep. rewrite Hp. cbn [bind]. eauto. }
  specialize (G CT stocked_linked (Z.le_refl _) stocked_range neib Hn).
  unfold gather_point. fold v fuel. rewrite stocked_walk_fuel.
  destruct ST as [SR _ _ _ _ _]. rewrite SR in G.
  destruct G as [(n1 & E1 & E2 & E3)|(n1 & rest & E1 & E2 & E3 & E4)]; rewrite E1; cbn [bind].
  - eexists. split; [reflexivity|]. cbn. rewrite FE in E2. auto.
  - eexists. split; [reflexivity|]. cbn. rewrite FE in E2.
    assert (X : zlen (neib ++ filter want ps) = zlen (n1 ++ rest)) by now rewrite E2.
    unfold zlen in *. rewrite !app_length in X. lia.
Qed.

(** ** Search with trimming *)
Lemma gather_trim_correct : forall Nneibmax opn keep neib (want : Z -> Prop),
  zlen neib <= Nneibmax ->
  (forall c qs, known c qs -> (forall p, In p qs -> In p ps) -> exists b, opn c = Ok b /\
     (b = false -> forall p, In p qs -> ~ want p)) ->
  (forall p, In p ps -> exists b, keep p = Ok b) ->
  exists r, gather_trim (ts_k s) Ncell Nl Nneibmax opn keep neib = Ok r /\
    match r with
    | Some l => zlen l <= Nneibmax /\ exists l', l = neib ++ l' /\ subseq l' ps /\
                (forall p, In p l' -> keep p = Ok true) /\
                (forall p, In p ps -> want p -> keep p = Ok true -> In p l')
    | None => Nneibmax <= zlen neib + Nl + zlen ps
    end.
Proof.
  intros Nneibmax opn keep neib want Hn Hopn Hkeep.
  (* auxiliary walk: which particles are gathered *)
  unfold gather_trim. fold v fuel. rewrite stocked_walk_fuel.
  (* a particle is taken iff all ancestors are opened *)
  assert (G : forall Nc cn,
    (forall t qs, ctree (fun c qs => known c qs /\ forall p, In p qs -> In p ps) (leaf_ok fuel v Nl) t qs ->
       forall nx, linked Nc (vopen v) cn t nx -> (forall c, In c (preorder t) -> 0 <= c) ->
       forall nb, zlen nb <= Nneibmax ->
       exists nb' st, twalk (gather_visit fuel v opn (fun _ => Ok true) Nl Nneibmax) t nb = Ok (nb', st) /\
         exists l, nb' = nb ++ l /\ zlen nb' <= Nneibmax /\ subseq l qs /\
           (st = true -> Nneibmax <= zlen nb' + Nl) /\ (st = false -> forall p, In p qs -> want p -> In p l)) /\
    (forall ks pss, ctrees (fun c qs => known c qs /\ forall p, In p qs -> In p ps) (leaf_ok fuel v Nl) ks pss ->
       forall nx, linked_list Nc (vopen v) cn ks nx -> (forall c, In c (flat_map preorder ks) -> 0 <= c) ->
       forall nb, zlen nb <= Nneibmax ->
       exists nb' st, twalks (gather_visit fuel v opn (fun _ => Ok true) Nl Nneibmax) ks nb = Ok (nb', st) /\
         exists l, nb' = nb ++ l /\ zlen nb' <= Nneibmax /\ subseq l (concat pss) /\
           (st = true -> Nneibmax <= zlen nb' + Nl) /\ (st = false -> forall p, In p (concat pss) -> want p -> In p l))).
  { assert (FT : forall l, filter (kept (fun _ => Ok true)) l = l).
    { induction l; cbn; [reflexivity|]. now rewrite IHl. }
    intros Nc cn. apply ctree_mutind.
    - intros c qs (HK & HS) (HL & HLn & _) nx LK NN nb Hcap.
      destruct (Hopn c qs HK HS) as (b & Hb & Hbf). destruct HK as (HC & _).
      rewrite linked_unfold in LK. destruct LK as (_ & LO & _). cbn in LO.
      rewrite twalk_unfold. unfold gather_visit. rewrite Hb. cbn [bind]. destruct b.
      + change (kget (cells (ts_k s)) copen c) with (vopen v c) in LO. rewrite LO. cbn [bind].
        replace (negb (-1 =? -1)) with false by reflexivity. rewrite HC. cbn [bind].
        destruct (Z.eqb_spec (zlen qs) 0) as [E0|E0].
        * assert (qs = []) as -> by (destruct qs; [easy|unfold zlen in E0; simpl in E0; lia]).
          cbn [bind]. exists nb, false. split; [reflexivity|]. exists []. rewrite app_nil_r. repeat split; auto; try discriminate. constructor.
        * destruct (Z.ltb_spec (zlen nb + Nl) Nneibmax).
          -- rewrite HL. cbn [bind]. rewrite push_all_spec; [|eauto|lia]. cbn [bind]. rewrite FT.
             eexists _, _. split; [reflexivity|]. exists qs. repeat split; auto using subseq_refl; try discriminate.
             unfold zlen in *. rewrite app_length. lia.
          -- cbn [bind]. exists nb, true. split; [reflexivity|]. exists []. rewrite app_nil_r.
             repeat split; auto using subseq_none; try discriminate; try lia.
      + cbn [bind]. exists nb, false. split; [reflexivity|]. exists []. rewrite app_nil_r.
        split; [reflexivity|]. split; [exact Hcap|]. split; [apply subseq_none|]. split; [discriminate|].
        intros _ p Hp W. destruct (Hbf eq_refl p Hp W).
    - intros c ks pss Hne Hks IHks (HK & HS) nx LK NN nb Hcap.
      destruct (Hopn c _ HK HS) as (b & Hb & Hbf).
      rewrite linked_unfold in LK. destruct LK as (_ & LO & LL).
      rewrite twalk_unfold. unfold gather_visit at 1. rewrite Hb. cbn [bind]. destruct b.
      + rewrite LO. cbn [bind]. destruct ks as [|k ks]; [easy|].
        assert (0 <= root k) by (apply NN; right; destruct k; simpl; now left).
        destruct (Z.eqb_spec (root k) (-1)); [lia|]. cbn [negb bind].
        exact (IHks nx LL (fun c Hc => NN c (or_intror Hc)) nb Hcap).
      + cbn [bind]. exists nb, false. split; [reflexivity|]. exists []. rewrite app_nil_r.
        split; [reflexivity|]. split; [exact Hcap|]. split; [apply subseq_none|]. split; [discriminate|].
        intros _ p Hp W. destruct (Hbf eq_refl p Hp W).
    - intros. exists nb, false. split; [reflexivity|]. exists []. rewrite app_nil_r. repeat split; auto; try discriminate. constructor.
    - intros k ks qs pss Hk IHk Hks IHks nx [LA LB] NN nb Hcap. cbn [twalks concat].
      destruct (IHk _ LA (fun c Hc => NN c (in_or_app _ _ _ (or_introl Hc))) nb Hcap)
        as (n1 & st1 & E1 & l1 & F1 & G1 & H1 & I1 & J1).
      rewrite E1. cbn [bind]. destruct st1.
      + exists n1, true. split; [reflexivity|]. exists l1. repeat split; auto; try discriminate.
        replace l1 with (l1 ++ []) by apply app_nil_r. apply subseq_app; auto using subseq_none.
      + destruct (IHks _ LB (fun c Hc => NN c (in_or_app _ _ _ (or_intror Hc))) n1 G1)
          as (n2 & st2 & E2 & l2 & F2 & G2 & H2 & I2 & J2).
        exists n2, st2. split; [exact E2|]. exists (l1 ++ l2). subst n1 n2. rewrite <- app_assoc in *.
        repeat split; auto.
        * now apply subseq_app.
        * intros E p Hp W. apply in_app_or in Hp. apply in_or_app. destruct Hp; auto. }
  destruct (proj1 (G Ncell (vnext v)) t ps (stocked_known Hkr Hh) Ncell stocked_linked
              (fun c Hc => proj1 (stocked_range c Hc)) neib Hn) as (nb' & st & E & l & F1 & F2 & F3 & F4 & F5).
  destruct ST as [SR _ _ _ _ _].
  assert (NO : forall c s0 s', gather_visit fuel v opn (fun _ => Ok true) Nl Nneibmax c s0 = Ok (s', Down) -> vopen v c <> Ok (-1)).
  { intros c s0 s'. unfold gather_visit. destruct (opn c) as [[|]| | |]; cbn [bind]; try discriminate.
    destruct (vopen v c) as [co| | |]; cbn [bind]; try discriminate.
    destruct (Z.eqb_spec co (-1)); cbn [negb]; [|congruence].
    destruct (vN v c) as [n| | |]; cbn [bind]; try discriminate.
    destruct (n =? 0); try discriminate. destruct (zlen s0 + Nl <? Nneibmax); try discriminate.
    destruct (cell_list fuel v c); cbn [bind]; try discriminate.
    destruct (push_all Nneibmax (fun _ => Ok true) a s0); discriminate. }
  assert (W := walk_correct (vopen v) (vnext v) Ncell _ NO t Ncell neib (nb', st)
                 (fun c Hc => proj2 (stocked_range c Hc)) stocked_linked (Z.le_refl _) E).
  rewrite SR in W. rewrite W. cbn [bind].
  assert (Sub : forall x, In x l -> In x ps).
  { clear - F3. induction F3; intros x Hx; cbn in *; auto. destruct Hx; auto. }
  assert (SubL : zlen l <= zlen ps).
  { clear - F3. unfold zlen. induction F3; cbn [length]; lia. }
  destruct st.
  - eexists. split; [reflexivity|]. cbn. specialize (F4 eq_refl). subst nb'. unfold zlen in *. rewrite app_length in *. lia.
  - subst nb'. destruct (trim_whole keep neib l) as (buf' & n & T1 & T2).
    { intros i Hi. apply Hkeep. now apply Sub. }
    rewrite T1. cbn [bind]. eexists. split; [reflexivity|]. cbn. rewrite T2.
    assert (length (filter (kp keep) l) <= length l)%nat.
    { clear. induction l as [|a l IHl]; cbn; [lia|]. destruct (kp keep a); cbn; lia. }
    split; [unfold zlen in *; rewrite app_length in *; lia|].
    exists (filter (kp keep) l). split; [reflexivity|]. split; [|split].
    + eapply subseq_trans; [exact F3|]. clear. induction l as [|a l IHl]; cbn; [apply subseq_refl|].
      destruct (kp keep a); [now apply sub_take|now apply sub_skip].
    + intros p Hp. apply filter_In in Hp. destruct Hp as [Hp K]. destruct (Hkeep p (Sub p Hp)) as [b E1].
      unfold kp in K. rewrite E1 in *. now subst b.
    + intros p Hp W0 K. apply filter_In. split; [now apply F5|]. unfold kp. now rewrite K.
Qed.

(** ** Gravity *)
Theorem grav_lists_partition : forall near opn,
  (forall c, 0 <= c < Ncell -> exists b o, near c = Ok b /\ opn c = Ok o) ->
  exists neib direct gcells pss,
    grav_lists s Ncell near opn = Ok (neib, direct, gcells) /\
    Permutation ps (neib ++ direct ++ concat pss) /\
    Forall2 (cell_ok ndim kr th2 quad pd s) gcells pss /\
    Forall (fun c => near c = Ok false /\ opn c = Ok false) gcells /\
    (forall i, In i direct \/ In i (concat pss) -> exists c qs, known c qs /\ In i qs /\ near c = Ok false).
Proof.
  intros near opn Hdec.
  destruct (grav_walk fuel v Nl near opn (fun c qs => known c qs /\ forall p, In p qs -> In p ps) (leaf_ok fuel v Nl)) with
    (Ncell := Ncell) (t := t) (ps := ps) (next := Ncell) (s := ([] : list Z, [] : list Z, [] : list Z))
    as (s' & E & dn & dd & dc & dps & -> & G1 & G2 & G3 & G4 & G5);
    auto using stocked_linked, stocked_range, Z.le_refl, stocked_known.
  - intros c qs (HK & _). split; [apply HK|]. destruct HK as (_ & g & _ & _ & _ & _ & _ & _ & HR). exact (Hdec c HR).
  - cbn [fst snd app] in E. exists dn, dd, dc, dps. unfold grav_lists. fold v fuel. rewrite stocked_walk_fuel.
    rewrite (st_root _ _ _ _ _ _ _ _ _ _ ST) in E. rewrite E. cbn [bind]. split; [reflexivity|].
    split; [exact G2|]. split; [|split; [exact G3|]].
    + clear - G1. induction G1; constructor; auto. destruct H as ((_ & g & _ & _ & _ & _ & _ & X & _) & _). exact X.
    + intros i [Hi|Hi].
      * rewrite Forall_forall in G5. destruct (G5 i Hi) as (c & qs & (A & _) & _ & B & C). eauto.
      * clear - G1 G3 Hi. induction G1; [easy|]. cbn in Hi. inversion G3; subst. apply in_app_or in Hi. destruct Hi; auto.
        destruct H as (A & _). exists x, y. tauto.
Qed.

Lemma cell_known : forall c, 0 <= c < Ncell -> exists qs, known c qs.
Proof.
  intros c Hc. destruct (proj1 (ctree_all _ _) t ps (stocked_known Hkr Hh) c) as (qs & A & _); eauto.
  rewrite (st_cells _ _ _ _ _ _ _ _ _ _ ST), zseq_in. lia.
Qed.

(** Mass and dipole are those of all particles. *)
Lemma lsum_parts : forall (f : particle -> R) l xs, parts_of pd l = Ok xs ->
  lsum f xs = lsum (fun i => match aget pd i with Ok p => f p | _ => 0%R end) l.
Proof.
  induction l as [|i l IH]; intros xs E; cbn [parts_of] in E; [injection E as <-; reflexivity|].
  destruct (aget pd i) as [p| | |] eqn:Ep; cbn [bind] in E; try discriminate.
  destruct (parts_of pd l) as [ys| | |]; cbn [bind] in E; try discriminate. injection E as <-.
  cbn [lsum]. rewrite Ep, (IH ys eq_refl). reflexivity.
Qed.
Lemma cells_sum : forall (F : gcell -> R) (f : particle -> R) gcells pss,
  (forall g xs, describes ndim kr th2 quad g xs -> F g = lsum f xs) ->
  Forall2 (cell_ok ndim kr th2 quad pd s) gcells pss ->
  lsum (fun c => match aget (ts_g s) c with Ok g => F g | _ => 0%R end) gcells =
  lsum (fun i => match aget pd i with Ok p => f p | _ => 0%R end) (concat pss).
Proof.
  intros F f gcells pss HF H. induction H as [|c qs gcells pss (k & g & xs & A & B & C & D & E) _ IH]; [reflexivity|].
  cbn [lsum concat]. rewrite C, lsum_app, IH, (HF g xs E), (lsum_parts f qs xs D). reflexivity.
Qed.
Theorem grav_lists_mass : forall near opn neib direct gcells,
  (forall c, 0 <= c < Ncell -> exists b o, near c = Ok b /\ opn c = Ok o) ->
  grav_lists s Ncell near opn = Ok (neib, direct, gcells) ->
  let part f i := match aget pd i with Ok p => f p | _ => 0%R end in
  let cell F c := match aget (ts_g s) c with Ok g => F g | _ => 0%R end in
  (lsum (part gmass) neib + lsum (part gmass) direct + lsum (cell gm) gcells = lsum (part gmass) ps)%R /\
  forall k, (lsum (part (fun p => gmass p * p_r p k)) neib + lsum (part (fun p => gmass p * p_r p k)) direct +
             lsum (cell (fun g => gm g * gr g k)) gcells = lsum (part (fun p => gmass p * p_r p k)) ps)%R.
Proof.
  intros near opn neib direct gcells Hdec E part cell.
  destruct (grav_lists_partition near opn Hdec) as (n1 & d1 & c1 & pss & E' & G1 & G2 & _).
  rewrite E in E'. injection E' as <- <- <-. split; [|intros k]; unfold part, cell;
    rewrite (lsum_perm _ _ _ G1), !lsum_app.
  - rewrite (cells_sum gm gmass gcells pss); [lra| |exact G2]. intros g xs D. apply (d_m _ _ _ _ _ _ D).
  - rewrite (cells_sum (fun g => gm g * gr g k)%R (fun p => gmass p * p_r p k)%R gcells pss); [lra| |exact G2].
    intros g xs D. apply (d_com _ _ _ _ _ _ D).
Qed.

Hypothesis Hdim : (1 <= ndim <= 3)%nat.

Lemma norm_comp : forall n (a : vec) k, (k < n)%nat -> (Rabs (a k) <= norm n a)%R.
Proof.
  intros n a k Hk. unfold norm. rewrite <- sqrt_Rsqr_abs. apply sqrt_le_1_alt. unfold Rsqr, dot.
  apply (sumf_term_le n (fun k => a k * a k)%R); auto. intros. nra.
Qed.

Theorem gather_cell_correct : forall Nneibmax g0 hmax neib,
  zlen neib <= Nneibmax -> (0 <= hmax)%R -> (0 <= grmax g0)%R ->
  exists r, gather_cell ndim kr pd s Ncell Nl Nneibmax g0 hmax neib = Ok r /\
    match r with
    | Some l => zlen l <= Nneibmax /\ exists l', l = neib ++ l' /\ subseq l' ps /\
        (forall i, In i l' -> exists p, aget pd i = Ok p /\ p_dead p = false /\
            (norm ndim (vsub (p_r p) (grcell g0)) < grmax g0 + kr * hmax)%R) /\
        (forall i p x, In i ps -> aget pd i = Ok p -> p_dead p = false -> covers ndim g0 x ->
            (norm ndim (vsub (p_r p) x) < kr * hmax)%R -> In i l')
    | None => Nneibmax <= zlen neib + Nl + zlen ps
    end.
Proof.
  intros Nneibmax g0 hmax neib Hn Hhm Hr0.
  assert (0 <= kr * hmax)%R by nra.
  destruct (gather_trim_correct Nneibmax (cell_opn ndim kr (ts_g s) g0 hmax) (cell_keep ndim kr pd g0 hmax) neib
    (fun i => exists p x, aget pd i = Ok p /\ covers ndim g0 x /\ (norm ndim (vsub (p_r p) x) < kr * hmax)%R)) as (r & E & HR); auto.
  - intros c qs (HC & g & Hg & HN & HI & HR & _) HS. unfold cell_opn. rewrite Hg. cbn [bind].
    eexists. split; [reflexivity|]. intros Hf i Hi (p & x & Hp & (Hx & _) & Hd).
    destruct (HI i Hi) as (p' & Hp' & HB & _). rewrite Hp in Hp'. injection Hp' as <-.
    assert (BoxOverlap ndim (fun k => gbmin g0 k - kr * hmax)%R (fun k => gbmax g0 k + kr * hmax)%R (gbmin g) (gbmax g) = true); [|congruence].
    apply BoxOverlap_point with (x := p_r p); auto. intros k Hk. specialize (Hx k Hk).
    assert (Q := norm_comp ndim (vsub (p_r p) x) k Hk). unfold vsub at 1 in Q.
    assert (Q1 := Rle_abs (p_r p k - x k)). assert (Q2 := Rle_abs (- (p_r p k - x k))). rewrite Rabs_Ropp in Q2. lra.
  - intros i Hi. destruct (part_of_ps i Hi) as [p Hp]. unfold cell_keep. rewrite Hp. cbn [bind]. destruct (p_dead p); eauto.
  - exists r. split; [exact E|]. destruct r as [l|]; [|exact HR].
    destruct HR as (HL & l' & -> & HS & HK & HC). split; [exact HL|]. exists l'. split; [reflexivity|]. split; [exact HS|].
    assert (SQ : forall p, (dot ndim (vsub (p_r p) (grcell g0)) (vsub (p_r p) (grcell g0)) < (grmax g0 + kr * hmax) ^ 2)%R <->
                 (norm ndim (vsub (p_r p) (grcell g0)) < grmax g0 + kr * hmax)%R).
    { intros p. rewrite <- norm_lt_sqr by lra. simpl. rewrite Rmult_1_r. reflexivity. }
    split.
    + intros i Hi. specialize (HK i Hi). unfold cell_keep in HK. destruct (aget pd i) as [p| | |]; cbn [bind] in HK; try discriminate.
      destruct (p_dead p) eqn:Ed; try discriminate. exists p. repeat split; auto. injection HK as HK.
      apply rltb_true in HK. now apply SQ.
    + intros i p x Hi Hp Hd (Hx & Hxr) Hn'. apply HC; auto.
      * exists p, x. repeat split; auto; now apply Hx.
      * unfold cell_keep. rewrite Hp. cbn [bind]. rewrite Hd. f_equal. apply rltb_true. apply SQ.
        assert (T := norm_triangle_sub ndim (p_r p) x (grcell g0)). lra.
Qed.

Lemma neib_opn_complete : forall g0 c qs i p x hx, known c qs -> In i qs -> aget pd i = Ok p -> (0 <= p_h p)%R ->
  cell_member ndim kr g0 x hx -> (norm ndim (vsub (p_r p) x) <= kr * hx \/ norm ndim (vsub (p_r p) x) <= kr * p_h p)%R ->
  neib_opn ndim (ts_g s) g0 c = Ok true.
Proof.
  intros g0 c qs i p x hx (HC & g & Hg & HN & HI & HR & _) Hi Hp Hph ((Hx & _) & (Hx1 & Hx2) & Hx3) Hd.
  destruct (HI i Hi) as (p' & Hp' & HB & HH1 & HH2 & HM & _). rewrite Hp in Hp'. injection Hp' as <-.
  unfold neib_opn. rewrite Hg. cbn [bind]. f_equal. apply Bool.orb_true_iff.
  assert (Q : forall k, (k < ndim)%nat -> (- norm ndim (vsub (p_r p) x) <= p_r p k - x k <= norm ndim (vsub (p_r p) x))%R).
  { intros k Hk. assert (Q := norm_comp ndim (vsub (p_r p) x) k Hk). unfold vsub at 1 in Q.
    assert (Q1 := Rle_abs (p_r p k - x k)). assert (Q2 := Rle_abs (- (p_r p k - x k))). rewrite Rabs_Ropp in Q2. lra. }
  destruct Hd as [Hd|Hd].
  - right. apply BoxOverlap_point with (x := p_r p); auto. intros k Hk. specialize (Q k Hk). specialize (Hx3 k Hk). lra.
  - left. apply BoxOverlap_point with (x := x); auto. intros k Hk. specialize (Q k Hk).
    specialize (HH1 k Hk). specialize (HH2 k Hk). cbn in HH1, HH2. lra.
Qed.

Lemma max_case_lt : forall a b c, (c < kr * Rmax a b)%R -> (c < kr * a \/ c < kr * b)%R.
Proof. intros a b c. unfold Rmax. destruct (Rle_dec a b); auto. Qed.
Lemma max_case_le : forall a b c, (c <= kr * Rmax a b)%R -> (c <= kr * a \/ c <= kr * b)%R.
Proof. intros a b c. unfold Rmax. destruct (Rle_dec a b); auto. Qed.

Theorem neighbour_list_correct : forall Nneibmax g0 neib,
  zlen neib <= Nneibmax -> (0 <= ghmax g0)%R -> (0 <= grmax g0)%R ->
  exists r, neighbour_list ndim kr pd s Ncell Nl Nneibmax g0 neib = Ok r /\
    match r with
    | Some l => zlen l <= Nneibmax /\ exists l', l = neib ++ l' /\ subseq l' ps /\
        (forall i, In i l' -> exists p, aget pd i = Ok p /\ p_dead p = false /\
            (norm ndim (vsub (p_r p) (grcell g0)) < grmax g0 + kr * Rmax (ghmax g0) (p_h p))%R) /\
        (forall i p x hx, In i ps -> aget pd i = Ok p -> p_dead p = false -> cell_member ndim kr g0 x hx ->
            (norm ndim (vsub (p_r p) x) < kr * Rmax hx (p_h p))%R -> In i l')
    | None => Nneibmax <= zlen neib + Nl + zlen ps
    end.
Proof.
  intros Nneibmax g0 neib Hn Hhm Hr0.
  destruct (gather_trim_correct Nneibmax (neib_opn ndim (ts_g s) g0) (neib_keep ndim kr pd g0) neib
    (fun i => exists p x hx, aget pd i = Ok p /\ cell_member ndim kr g0 x hx /\ (norm ndim (vsub (p_r p) x) < kr * Rmax hx (p_h p))%R)) as (r & E & HR); auto.
  - intros c qs HK HS.
    assert (exists b, neib_opn ndim (ts_g s) g0 c = Ok b) as [b Hb].
    { destruct HK as (_ & g & Hg & _). unfold neib_opn. rewrite Hg. cbn [bind]. eauto. }
    exists b. split; [exact Hb|]. intros -> i Hi (p & x & hx & Hp & Hm & Hd).
    assert (X := neib_opn_complete g0 c qs i p x hx HK Hi Hp (Hh i p (HS i Hi) Hp) Hm).
    rewrite X in Hb; [discriminate|]. destruct (max_case_lt _ _ _ Hd); [left|right]; lra.
  - intros i Hi. destruct (part_of_ps i Hi) as [p Hp]. unfold neib_keep. rewrite Hp. cbn [bind]. destruct (p_dead p); eauto.
  - exists r. split; [exact E|]. destruct r as [l|]; [|exact HR].
    destruct HR as (HL & l' & -> & HS & HK & HC). split; [exact HL|]. exists l'. split; [reflexivity|]. split; [exact HS|].
    assert (SubI : forall x, In x l' -> In x ps).
    { clear - HS. induction HS; intros x0 Hx; cbn in *; auto. destruct Hx; auto. }
    split.
    + intros i Hi. specialize (HK i Hi). unfold neib_keep in HK. destruct (aget pd i) as [p| | |] eqn:Hp; cbn [bind] in HK; try discriminate.
      destruct (p_dead p) eqn:Ed; try discriminate. exists p. repeat split; auto. injection HK as HK.
      assert (P0 := Hh i p (SubI i Hi) Hp).
      assert (B1 := Rmax_l (ghmax g0) (p_h p)). assert (B2 := Rmax_r (ghmax g0) (p_h p)).
      apply Bool.orb_true_iff in HK. destruct HK as [HK|HK]; apply rltb_true in HK.
      * simpl in HK. rewrite Rmult_1_r in HK. apply norm_lt_sqr in HK; nra.
      * apply norm_lt_sqr in HK; nra.
    + intros i p x hx Hi Hp Hd Hm Hn'. apply HC; auto.
      * exists p, x, hx. auto.
      * unfold neib_keep. rewrite Hp. cbn [bind]. rewrite Hd. f_equal. apply Bool.orb_true_iff.
        destruct Hm as ((_ & Hxr) & (Hx1 & Hx2) & _). assert (P0 := Hh i p Hi Hp).
        assert (T := norm_triangle_sub ndim (p_r p) x (grcell g0)).
        destruct (max_case_lt _ _ _ Hn') as [Hq|Hq].
        -- left. apply rltb_true. simpl. rewrite Rmult_1_r. apply norm_lt_sqr; nra.
        -- right. apply rltb_true. apply norm_lt_sqr; nra.
Qed.

Theorem neighbour_manager_correct : forall g0 neib,
  exists l', neighbour_manager ndim s Ncell g0 neib = Ok (neib ++ l') /\ subseq l' ps /\
    (forall i p x hx, In i ps -> aget pd i = Ok p -> cell_member ndim kr g0 x hx ->
       (norm ndim (vsub (p_r p) x) <= kr * Rmax hx (p_h p))%R -> In i l').
Proof.
  intros g0 neib.
  set (want := fun i => exists p x hx, aget pd i = Ok p /\ cell_member ndim kr g0 x hx /\
         (norm ndim (vsub (p_r p) x) <= kr * Rmax hx (p_h p))%R).
  destruct (manager_walk fuel v Nl (neib_opn ndim (ts_g s) g0) want Ncell t ps Ncell neib) as (s' & E & l & -> & S1 & S2);
    auto using stocked_linked, stocked_range, Z.le_refl.
  - refine (proj1 (ctree_impl _ _ _ _ _ (fun c qs H => H)) t ps (stocked_known Hkr Hh)).
    intros c qs (HK & HS). split; [apply HK|].
    assert (exists b, neib_opn ndim (ts_g s) g0 c = Ok b) as [b Hb].
    { destruct HK as (_ & g & Hg & _). unfold neib_opn. rewrite Hg. cbn [bind]. eauto. }
    exists b. split; [exact Hb|]. intros -> i Hi (p & x & hx & Hp & Hm & Hd).
    assert (X := neib_opn_complete g0 c qs i p x hx HK Hi Hp (Hh i p (HS i Hi) Hp) Hm (max_case_le _ _ _ Hd)).
    rewrite X in Hb. discriminate.
  - exists l. unfold neighbour_manager. fold v fuel. rewrite stocked_walk_fuel.
    rewrite (st_root _ _ _ _ _ _ _ _ _ _ ST) in E. rewrite E. cbn [bind]. split; [reflexivity|]. split; [exact S1|].
    intros i p x hx Hi Hp Hm Hd. apply S2; auto. exists p, x, hx. auto.
Qed.

(** With the tests of the code in a domain without periodic boundaries, every particle that
    is in SPH range of a particle of the cell is in the neighbour list. *)
Theorem grav_lists_near : forall g0 opn,
  (0 <= grmax g0)%R -> (0 <= ghmax g0)%R ->
  (forall c, 0 <= c < Ncell -> exists o, opn c = Ok o) ->
  forall neib direct gcells,
    grav_lists s Ncell (grav_near ndim kr (ts_g s) (fun d => d) g0) opn = Ok (neib, direct, gcells) ->
    forall i p x hx, In i ps -> aget pd i = Ok p -> cell_member ndim kr g0 x hx ->
      (norm ndim (vsub (p_r p) x) <= kr * Rmax hx (p_h p))%R -> In i neib.
Proof.
  intros g0 opn Hr0 Hh0 Hopn neib direct gcells E i p x hx Hi Hp Hm Hd.
  destruct (grav_lists_partition (grav_near ndim kr (ts_g s) (fun d => d) g0) opn) as (n1 & d1 & c1 & pss & E' & G1 & G2 & G3 & G4).
  { intros c Hc. destruct (Hopn c Hc) as [o Ho]. destruct (cell_known c Hc) as (qs & _ & g & Hg & _).
    unfold grav_near. rewrite Hg. cbn [bind]. eauto. }
  rewrite E in E'. injection E' as <- <- <-.
  assert (X : In i (neib ++ direct ++ concat pss)) by now apply (Permutation_in _ G1).
  apply in_app_or in X. destruct X as [X|X]; [exact X|]. apply in_app_or in X.
  destruct (G4 i X) as (c & qs & HK & HI & HN). exfalso.
  destruct HK as (_ & g & Hg & _ & HM & HR & HH0 & _).
  destruct (HM i HI) as (p' & Hp' & _ & _ & _ & Hph & Hpr). rewrite Hp in Hp'. injection Hp' as <-.
  assert (P0 := Hh i p Hi Hp).
  destruct Hm as ((_ & Hxr) & (Hx1 & Hx2) & _).
  assert (T1 := norm_triangle_sub ndim (grcell g) (p_r p) (grcell g0)).
  assert (T2 := norm_triangle_sub ndim (p_r p) x (grcell g0)).
  rewrite norm_sub_sym in Hpr.
  unfold grav_near in HN. rewrite Hg in HN. cbn [bind] in HN. injection HN as HN.
  apply Bool.orb_false_iff in HN. destruct HN as [N1 N2]. apply rleb_false in N1, N2.
  rewrite <- norm_sqr in N1, N2.
  assert (N0 := norm_nonneg ndim (vsub (grcell g) (grcell g0))).
  destruct (max_case_le _ _ _ Hd) as [D|D].
  - assert (norm ndim (vsub (grcell g) (grcell g0)) <= grmax g + grmax g0 + kr * ghmax g0)%R by nra. nra.
  - assert (norm ndim (vsub (grcell g) (grcell g0)) <= grmax g0 + grmax g + kr * ghmax g)%R by nra. nra.
Qed.

End Stocked.

Theorem grav_lists_once : forall ndim kr th2 quad pd Nl s Ncell t ps,
  stocked ndim kr th2 quad pd Nl s Ncell t ps -> (0 <= kr)%R ->
  (forall p x, In p ps -> aget pd p = Ok x -> (0 <= p_h x)%R) ->
  forall near opn, (forall c, 0 <= c < Ncell -> exists b o, near c = Ok b /\ opn c = Ok o) ->
  exists neib direct gcells pss,
    grav_lists s Ncell near opn = Ok (neib, direct, gcells) /\
    Permutation ps (neib ++ direct ++ concat pss) /\
    Forall2 (cell_ok ndim kr th2 quad pd s) gcells pss /\
    Forall (fun c => near c = Ok false /\ opn c = Ok false) gcells.
Proof.
  intros ndim kr th2 quad pd Nl s Ncell t ps ST Hkr Hh near opn Hd.
  destruct (grav_lists_partition _ _ _ _ _ _ _ _ _ _ ST Hkr Hh near opn Hd) as (a & b & c & d & H1 & H2 & H3 & H4 & _).
  exists a, b, c, d. auto.
Qed.
