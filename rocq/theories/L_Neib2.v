From Verif Require Import Prelude L_Prelude Vec M_Box S_Box L_Box M_Util M_Periodic S_Periodic L_Periodic L_Periodic2 M_Neib S_Neib L_Neib.
From Coq Require Import Reals Lra NArith Permutation.
Local Open Scope R_scope.

(** Elements of [l] of class [c]; [cl] maps place and index to a class. *)
Fixpoint pick (cl : Z -> Z -> nat) (c : nat) (j : Z) (l : list Z) : list Z :=
  match l with [] => [] | i :: l => (if Nat.eqb (cl j i) c then [i] else []) ++ pick cl c (j + 1) l end.
Lemma pick_ext : forall cl cl' c l j, (forall j i, In i l -> cl j i = cl' j i) -> pick cl c j l = pick cl' c j l.
Proof.
  induction l; intros j H; cbn; [easy|]. rewrite (H j a) by now left. rewrite (IHl (j + 1)%Z); [easy|]. intros; apply H; now right.
Qed.
Lemma pick_in : forall cl c l j i, In i (pick cl c j l) <-> exists m, nth_error l m = Some i /\ cl (j + Z.of_nat m)%Z i = c.
Proof.
  induction l; intros j i; cbn [pick].
  - split; [easy|]. intros (m & H & _). destruct m; discriminate.
  - rewrite in_app_iff, IHl. split.
    + intros [H|(m & H1 & H2)].
      * destruct (Nat.eqb_spec (cl j a) c) as [E|]; [|easy]. destruct H as [<-|[]]. exists 0%nat. cbn. now rewrite Z.add_0_r.
      * exists (S m). split; [easy|]. rewrite <- H2. f_equal. lia.
    + intros (m & H1 & H2). destruct m as [|m].
      * left. cbn in H1. injection H1 as ->. cbn in H2. rewrite Z.add_0_r in H2. rewrite H2, Nat.eqb_refl. now left.
      * right. exists m. split; [easy|]. rewrite <- H2. f_equal. lia.
Qed.
Lemma pick_sub : forall cl c l j i, In i (pick cl c j l) -> In i l.
Proof. intros cl c l j i H. apply pick_in in H. destruct H as (m & H & _). eapply nth_error_In; eauto. Qed.
Lemma pick_nodup : forall cl c l j, NoDup l -> NoDup (pick cl c j l).
Proof.
  induction l; intros j H; cbn; [constructor|]. inversion H; subst. destruct (Nat.eqb _ _); cbn; [|now apply IHl].
  constructor; [|now apply IHl]. intros X. apply pick_sub in X. easy.
Qed.
Lemma pick_disj : forall cl c c' l j i, NoDup l -> c <> c' -> In i (pick cl c j l) -> In i (pick cl c' j l) -> False.
Proof.
  intros cl c c' l j i Hn Hc H1 H2. apply pick_in in H1, H2. destruct H1 as (m & A & B), H2 as (m' & A' & B').
  assert (m = m'). { eapply NoDup_nth_error; eauto; [apply nth_error_Some; congruence|congruence]. } subst m'. congruence.
Qed.
Lemma pick_count : forall cl l j, (forall j i, (cl j i < 4)%nat) ->
  (length (pick cl 0 j l) + length (pick cl 1 j l) + length (pick cl 2 j l) + length (pick cl 3 j l) = length l)%nat.
Proof.
  induction l; intros j H; cbn [pick]; [easy|]. rewrite !app_length. specialize (IHl (j + 1)%Z H). specialize (H j a).
  destruct (cl j a) as [|[|[|[|]]]]; cbn [Nat.eqb length]; lia.
Qed.

Lemma nth_error_Some_lt : forall A (l : list A) n x, nth_error l n = Some x -> (n < length l)%nat.
Proof. intros. apply nth_error_Some. congruence. Qed.
Section TRIM.
Variables (ndim : nat) (f : finder) (hmask gmask : nat -> bool) (once keep : bool) (nper : Z) (p : npart).

Definition mv (j : Z) (q : npart) : npart :=
  if wanted once p q && ((j <? nper)%Z && hmask (n_type q)) then
    n_move q (snd (fst (ApplyPeriodicDistanceCorrection ndim f (n_r q) (vsub (n_r q) (n_r p))))) else q.
Definition far (q : npart) : bool :=
  let d2 := dot ndim (vsub (n_r q) (n_r p)) (vsub (n_r q) (n_r p)) in rleb (n_hr2 p) d2 && rleb (n_hr2 q) d2.
(** 0 hydro, 1 smoothed gravity, 2 direct, 3 not interacting, 4 not recorded. *)
Definition class (j : Z) (q : npart) : nat :=
  if wanted once p q then
    if far (mv j q) then if keep then if gmask (n_type q) then 2%nat else 3%nat else 4%nat
    else if hmask (n_type q) then 0%nat else if keep then if gmask (n_type q) then 1%nat else 3%nat else 4%nat
  else 4%nat.
Definition opt (b : bool) (i : Z) : list Z := if b then [i] else [].
Lemma n_move_same : forall q, n_move q (n_r q) = q.
Proof. intros []; reflexivity. Qed.
Lemma trim_step_spec : forall j i s q, aget (t_data s) i = Ok q ->
  trim_step ndim f hmask gmask once keep nper p j i s =
    Ok {| t_data := upd (t_data s) (Z.to_nat i) (mv j q);
          t_culled := t_culled s ++ opt (class j q =? 0)%nat i; t_smooth := t_smooth s ++ opt (class j q =? 1)%nat i;
          t_direct := t_direct s ++ opt (class j q =? 2)%nat i;
          t_non := (t_non s + if (class j q =? 3)%nat then 1 else 0)%Z |}.
Proof.
  intros j i s q Hq. unfold trim_step. rewrite Hq. cbn [bind]. apply aget_Ok_inv in Hq. destruct Hq as (Hi & Hq).
  assert (UP : upd (t_data s) (Z.to_nat i) q = t_data s) by now apply upd_same.
  assert (EM : wanted once p q = false -> mv j q = q) by (intros W; unfold mv; now rewrite W).
  unfold class. destruct (wanted once p q) eqn:W; cbn [negb].
  2:{ rewrite EM, UP by easy. cbn. rewrite !app_nil_r, Z.add_0_r. now destruct s. }
  assert (K : exists dr, (if (j <? nper)%Z && hmask (n_type q) then
        let '(_, r, dr) := ApplyPeriodicDistanceCorrection ndim f (n_r q) (vsub (n_r q) (n_r p)) in
        let! d := aset (t_data s) i (n_move q r) in Ok (d, dr)
      else Ok (t_data s, vsub (n_r q) (n_r p))) = Ok (upd (t_data s) (Z.to_nat i) (mv j q), dr) /\
      forall k, dr k = vsub (n_r (mv j q)) (n_r p) k).
  { unfold mv. rewrite W. cbn [andb]. destruct ((j <? nper)%Z && hmask (n_type q)).
    - assert (A := apdc ndim f (n_r q) (vsub (n_r q) (n_r p))).
      destruct (ApplyPeriodicDistanceCorrection ndim f (n_r q) (vsub (n_r q) (n_r p))) as [[bd r] dr].
      destruct A as (_ & _ & A). exists dr. cbn [fst snd n_r n_move]. rewrite (aset_in _ i _ Hi). cbn [bind]. split; [reflexivity|].
      intros k. specialize (A k). unfold vsub in *. lra.
    - exists (vsub (n_r q) (n_r p)). rewrite UP. split; [reflexivity|]. reflexivity. }
  destruct K as (dr & -> & Hdr). cbn [bind].
  assert (ED : dot ndim dr dr = dot ndim (vsub (n_r (mv j q)) (n_r p)) (vsub (n_r (mv j q)) (n_r p))).
  { apply dot_ext; intros; apply Hdr. }
  assert (EH : n_hr2 (mv j q) = n_hr2 q) by (unfold mv; destruct (_ && _); reflexivity).
  rewrite ED. unfold far. rewrite EH.
  destruct (rleb (n_hr2 p) _ && rleb (n_hr2 q) _); destruct keep, (gmask (n_type q)), (hmask (n_type q));
    cbn [Nat.eqb opt]; rewrite ?app_nil_r, ?Z.add_0_r; reflexivity.
Qed.

Definition clz (data : list npart) (j i : Z) : nat :=
  match nth_error data (Z.to_nat i) with Some q => class j q | None => 4%nat end.
Lemma trim_loop_spec : forall l j s, NoDup l -> (forall i, In i l -> (0 <= i < zlen (t_data s))%Z) ->
  exists data', trim_loop ndim f hmask gmask once keep nper p l j s =
    Ok {| t_data := data'; t_culled := t_culled s ++ pick (clz (t_data s)) 0 j l;
          t_smooth := t_smooth s ++ pick (clz (t_data s)) 1 j l; t_direct := t_direct s ++ pick (clz (t_data s)) 2 j l;
          t_non := (t_non s + zlen (pick (clz (t_data s)) 3 j l))%Z |} /\
    zlen data' = zlen (t_data s) /\
    (forall i, ~ In i l -> (0 <= i)%Z -> aget data' i = aget (t_data s) i) /\
    (forall m i q, nth_error l m = Some i -> aget (t_data s) i = Ok q -> aget data' i = Ok (mv (j + Z.of_nat m) q)).
Proof.
  induction l as [|i l IH]; intros j s Hnd Hok.
  { exists (t_data s). cbn. rewrite !app_nil_r, Z.add_0_r. split; [now destruct s|]. split; [easy|]. split; [easy|]. intros []; discriminate. }
  inversion Hnd as [|x y Hni Hnd']; subst. destruct (aget_nth _ (t_data s) i) as (q & E1 & E2); [apply Hok; now left|].
  cbn [trim_loop]. rewrite (trim_step_spec j i s q E1). cbn [bind].
  assert (Hi : (0 <= i < zlen (t_data s))%Z) by (apply Hok; now left).
  match goal with |- context [trim_loop _ _ _ _ _ _ _ _ l (j + 1) ?s1] => set (s' := s1) end.
  destruct (IH (j + 1)%Z s' Hnd') as (data' & E & L & U & M).
  { intros x Hx. unfold s'. cbn [t_data]. rewrite zlen_upd. apply Hok. now right. }
  exists data'. rewrite E. unfold s' in *. clear s'. cbn [t_data t_culled t_smooth t_direct t_non] in *. rewrite zlen_upd in L.
  assert (NE : forall x, In x l -> Z.to_nat i <> Z.to_nat x).
  { intros x Hx Y. assert (0 <= x)%Z by (apply Hok; now right). assert (i = x) by lia. subst. easy. }
  assert (PX : forall c, pick (clz (upd (t_data s) (Z.to_nat i) (mv j q))) c (j + 1) l = pick (clz (t_data s)) c (j + 1) l).
  { intros c. apply pick_ext. intros j' x Hx. unfold clz. rewrite nth_error_upd_ne by now apply NE. reflexivity. }
  rewrite !PX. cbn [t_culled t_smooth t_direct t_non pick].
  assert (CL : clz (t_data s) j i = class j q) by (unfold clz; now rewrite E2). rewrite CL.
  split; [|split; [|split]].
  - unfold opt. rewrite <- !app_assoc. f_equal. f_equal. rewrite zlen_app. destruct (class j q =? 3)%nat; unfold zlen; cbn [length]; lia.
  - exact L.
  - intros x Hx Hx0. rewrite U; [|intros X; apply Hx; now right|easy].
    apply aget_upd_ne; try lia. intros ->. apply Hx. now left.
  - intros m x q' Hm Hq'. destruct m as [|m].
    + cbn in Hm. injection Hm as <-. rewrite U; [|easy|lia]. rewrite aget_upd_eq by easy. rewrite Z.add_0_r. congruence.
    + cbn in Hm. replace (j + Z.of_nat (S m))%Z with (j + 1 + Z.of_nat m)%Z by lia. apply (M m); [easy|].
      assert (Hx : In x l) by (eapply nth_error_In; eauto). assert (0 <= x)%Z by (apply Hok; now right).
      rewrite aget_upd_ne; try easy; try lia. intros ->. easy.
Qed.
End TRIM.

Lemma nodup_app3 : forall (a b c : list Z), NoDup a -> NoDup b -> NoDup c ->
  (forall x, In x a -> In x b -> False) -> (forall x, In x a -> In x c -> False) -> (forall x, In x b -> In x c -> False) -> NoDup (a ++ b ++ c).
Proof.
  assert (N2 : forall (l m : list Z), NoDup l -> NoDup m -> (forall x, In x l -> In x m -> False) -> NoDup (l ++ m)).
  { induction l; intros m Hl Hm H; [exact Hm|]. inversion Hl; subst. cbn. constructor.
    - rewrite in_app_iff. intros [X|X]; [easy|]. apply (H a); [now left|easy].
    - apply IHl; auto. intros x X Y. apply (H x); [now right|easy]. }
  intros. apply N2; auto. intros x X Y. apply in_app_iff in Y. destruct Y; eauto.
Qed.

(** The guarantee for one particle. *)
Theorem Trim_spec : forall n lo hi bl br' f hm gm once keep s nper ncd p,
  (n <= 3)%nat -> (forall k, (k < n)%nat -> lo k < hi k) -> mk_finder n (mkbox lo hi bl br') = Ok f ->
  NoDup (s_neib s) -> (forall i, In i (s_neib s) -> (0 <= i < zlen (s_data s))%Z) -> 
  exists t extra, TrimNeighbourLists n f hm gm once keep s nper ncd p = Ok t /\
    t_direct t = firstn (Z.to_nat ncd) (s_direct s) ++ extra /\
    NoDup (t_culled t ++ t_smooth t ++ extra) /\
    (forall i, In i (t_culled t ++ t_smooth t ++ extra) -> In i (s_neib s)) /\
    (once = false -> keep = true ->
       (zlen (t_culled t) + zlen (t_smooth t) + zlen extra + t_non t = zlen (s_neib s))%Z) /\
    (forall i, ~ In i (s_neib s) -> (0 <= i)%Z -> aget (t_data t) i = aget (s_data s) i) /\
    (forall j i q, nth_error (s_neib s) j = Some i -> aget (s_data s) i = Ok q ->
       exists q', aget (t_data t) i = Ok q' /\
        (wanted once p q = false -> q' = q /\ ~ In i (t_culled t ++ t_smooth t ++ extra)) /\
        (wanted once p q = true ->
          ((Z.of_nat j < nper)%Z -> hm (n_type q) = true -> moved_near n (mkbox lo hi bl br') p q q') /\
          ((nper <= Z.of_nat j)%Z \/ hm (n_type q) = false -> q' = q) /\
          (In i (t_culled t) <-> hm (n_type q) = true /\ within n p q') /\
          (In i (t_smooth t) <-> keep = true /\ hm (n_type q) = false /\ gm (n_type q) = true /\ within n p q') /\
          (In i extra <-> keep = true /\ gm (n_type q) = true /\ ~ within n p q'))).
Proof.
  intros n lo hi bl br' f hm gm once keep s nper ncd p Hn Hb Hf Hnd Hok.
  set (b := mkbox lo hi bl br') in *.
  unfold TrimNeighbourLists.
  destruct (trim_loop_spec n f hm gm once keep nper p (s_neib s) 0
    {| t_data := s_data s; t_culled := []; t_smooth := []; t_direct := firstn (Z.to_nat ncd) (s_direct s); t_non := 0 |} Hnd Hok)
    as (data' & E & L & U & M). cbn [t_data t_culled t_smooth t_direct t_non] in *.
  rewrite E. set (cl := clz n f hm gm once keep nper p (s_data s)) in *.
  exists {| t_data := data'; t_culled := [] ++ pick cl 0 0 (s_neib s); t_smooth := [] ++ pick cl 1 0 (s_neib s);
       t_direct := firstn (Z.to_nat ncd) (s_direct s) ++ pick cl 2 0 (s_neib s); t_non := (0 + zlen (pick cl 3 0 (s_neib s)))%Z |},
     (pick cl 2 0 (s_neib s)).
  cbn [t_data t_culled t_smooth t_direct t_non app]. split; [reflexivity|]. split; [reflexivity|].
  split. { apply nodup_app3; try (now apply pick_nodup); intros x; apply pick_disj; auto; lia. }
  split. { intros i Hi. rewrite !in_app_iff in Hi. destruct Hi as [Hi|[Hi|Hi]]; now apply pick_sub in Hi. }
  split.
  { intros Eo Ek. assert (C := fun A => pick_count cl (s_neib s) 0 A).
    assert (C4 : (forall j i, nth_error (s_data s) (Z.to_nat i) <> None -> (cl j i < 4)%nat)).
    { intros j i Hi. unfold cl, clz. destruct (nth_error (s_data s) (Z.to_nat i)); [|easy]. unfold class. rewrite Eo, Ek. cbn [wanted].
      repeat match goal with |- context [if ?c then _ else _] => destruct c end; lia. }
    set (cl' := fun j i => Nat.min (cl j i) 3).
    assert (X := pick_count cl' (s_neib s) 0 ltac:(intros; unfold cl'; lia)).
    assert (PE : forall c, pick cl' c 0 (s_neib s) = pick cl c 0 (s_neib s)).
    { intros c. apply pick_ext. intros j i Hi. unfold cl'. apply Nat.min_l.
      enough (cl j i < 4)%nat by lia. apply C4. apply Hok in Hi. intros Y. apply nth_error_None in Y. unfold zlen in Hi. lia. }
    rewrite !PE in X. unfold zlen. lia. }
  split; [exact U|].
  intros j i q Hj Hq. specialize (M j i q Hj Hq). cbn in M. 
  exists (mv n f hm once nper p (Z.of_nat j) q). split; [exact M|].
  assert (Hq' := proj2 (aget_Ok_inv _ _ _ Hq)).
  assert (CI : forall c, In i (pick cl c 0 (s_neib s)) <-> class n f hm gm once keep nper p (Z.of_nat j) q = c).
  { intros c. rewrite pick_in. split.
    - intros (m & A & B). assert (m = j) as ->.
      { eapply NoDup_nth_error; eauto; [apply nth_error_Some; congruence|congruence]. }
      cbn in B. unfold cl, clz in B. now rewrite Hq' in B.
    - intros H. exists j. split; [easy|]. cbn. unfold cl, clz. now rewrite Hq'. }
  split.
  { intros W. split; [unfold mv; now rewrite W|]. rewrite !in_app_iff, !CI. unfold class. rewrite W. lia. }
  intros W. split; [|split].
  - intros H1 H2. unfold mv. rewrite W, (proj2 (Z.ltb_lt _ _) H1), H2. cbn [andb].
    assert (A := apdc n f (n_r q) (vsub (n_r q) (n_r p))).
    destruct (ApplyPeriodicDistanceCorrection n f (n_r q) (vsub (n_r q) (n_r p))) as [[bd r] dr].
    destruct A as (_ & A1 & A2). cbn [fst snd]. unfold moved_near. cbn [n_move n_r].
    destruct (gf_npv' n lo hi bl br' Hn f Hf (vsub (n_r q) (n_r p))) as (G & _ & _).
    set (d := vsub (n_r q) (n_r p)) in *.
    assert (ER : forall k, vsub r (n_r p) k = dr k) by (intros k; specialize (A2 k); unfold d, vsub in *; lra).
    assert (ED : forall k, (k < n)%nat -> vsub r (n_r p) k = d k + near1 (perb b k) (dsize b k) (dhalf b k) (d k)).
    { intros k Hk. rewrite ER, A1. now apply G. }
    split; [reflexivity|]. split.
    + intros k Hk. destruct (perb b k) eqn:P.
      * left. split; [now apply perb_true|]. destruct (near1_int true (dsize b k) (dhalf b k) (d k)) as (z & Ez).
        exists z. rewrite <- Ez, <- P. now apply ED.
      * right. split; [now apply perb_false|]. rewrite ED, P by easy. unfold near1. lra.
    + intros Hd d'' Hi. apply norm_mono.
      destruct (near_all n lo hi bl br' Hb d (vsub r (n_r p))) as (_ & _ & X); [exact Hd|exact ED|]. now apply X.
  - intros H. unfold mv. rewrite W. destruct H as [H|H].
    + now rewrite (proj2 (Z.ltb_ge _ _) H).
    + now rewrite H, andb_false_r.
  - rewrite !CI. unfold class. rewrite W. set (q' := mv n f hm once nper p (Z.of_nat j) q).
    assert (EH : n_hr2 q' = n_hr2 q) by (unfold q', mv; destruct (_ && _); reflexivity).
    assert (FW : far n p q' = true <-> ~ within n p q').
    { unfold far, within. rewrite andb_true_iff, !rleb_true. split; [intros (X & Y) [Z|Z]; lra|]. intros X.
      split; apply Rnot_lt_le; intros Y; apply X; tauto. }
    assert (FW' : far n p q' = false <-> within n p q').
    { split; intros X.
      - destruct (Rlt_dec (dot n (vsub (n_r q') (n_r p)) (vsub (n_r q') (n_r p))) (n_hr2 p)) as [Y|Y]; [now left|].
        destruct (Rlt_dec (dot n (vsub (n_r q') (n_r p)) (vsub (n_r q') (n_r p))) (n_hr2 q')) as [Y'|Y']; [now right|].
        assert (far n p q' = true); [|congruence]. apply FW. intros [Z|Z]; tauto.
      - destruct (far n p q'); [|easy]. exfalso. now apply (proj1 FW). }
    destruct (far n p q') eqn:EF.
    + assert (NW := proj1 FW eq_refl). destruct keep, (gm (n_type q)), (hm (n_type q)); intuition (try discriminate).
    + assert (NW := proj1 FW' eq_refl). destruct keep, (gm (n_type q)), (hm (n_type q)); intuition (try discriminate).
Qed.

(** After a gravity search the assertion of GetParticleNeibGravity cannot fail, for any
    sequence of particles of the cell treated one after the other. *)
Lemma GravityLists_ok : forall n lo hi bl br' f hm gm s nper p,
  (n <= 3)%nat -> (forall k, (k < n)%nat -> lo k < hi k) -> mk_finder n (mkbox lo hi bl br') = Ok f ->
  NoDup (s_neib s) -> (forall i, In i (s_neib s) -> (0 <= i < zlen (s_data s))%Z) ->
  (zlen (s_idx s) = zlen (s_neib s) + zlen (s_direct s))%Z ->
  exists t, GetParticleNeibGravity n f hm gm s nper (zlen (s_direct s)) p = Ok t.
Proof.
  intros n lo hi bl br' f hm gm s nper p Hn Hb Hf Hnd Hok Hlen.
  destruct (Trim_spec n lo hi bl br' f hm gm false true s nper (zlen (s_direct s)) p Hn Hb Hf Hnd Hok)
    as (t & extra & E & Ed & _ & _ & C & _). exists t. unfold GetParticleNeibGravity. rewrite E. cbn [bind].
  specialize (C eq_refl eq_refl).
  replace (firstn (Z.to_nat (zlen (s_direct s))) (s_direct s)) with (s_direct s) in Ed.
  2:{ unfold zlen. rewrite Nat2Z.id. symmetry. apply firstn_all. }
  rewrite Ed, zlen_app, Hlen. replace (_ =? _)%Z with true; [reflexivity|]. symmetry. apply Z.eqb_eq. lia.
Qed.
Lemma EndSearch_wf : forall n images gm rc rmax hmax kr pd keep td tp tn,
  indices_ok pd td -> indices_ok pd tp -> indices_ok pd tn -> (keep = true -> tn = []) ->
  (keep = true -> forall i q, In i td -> nth_error pd (Z.to_nat i) = Some q -> n_dead q = false -> exists g, images q = [g] /\ n_type g = n_type q) ->
  exists s nper, EndSearch n images gm rc rmax hmax kr pd keep td tp tn = Ok (s, nper) /\
    NoDup (s_neib s) /\ (forall i, In i (s_neib s) -> (0 <= i < zlen (s_data s))%Z) /\
    NoDup (s_neib s ++ s_direct s) /\ (forall i, (0 <= i < zlen (s_data s))%Z <-> In i (s_neib s ++ s_direct s)) /\
    (zlen (s_idx s) = zlen (s_neib s) + zlen (s_direct s))%Z /\ zlen (s_idx s) = zlen (s_data s).
Proof.
  intros n images gm rc rmax hmax kr pd keep td tp tn H0 H1 H2 Hk Hd.
  destruct (EndSearch_spec n images gm rc rmax hmax kr pd keep td tp tn H0 H1 H2 Hk Hd) as (s & nper & L1 & E & P & D & I & N & Dr & _).
  set (near := in_range n rc rmax hmax kr) in *.
  set (L0 := if keep then _ else _) in *. set (L2 := filter _ (copies (fun q => [q]) pd tn)) in *.
  exists s, nper. split; [exact E|].
  assert (ZM : forall A B (g : A -> B) l, zlen (map g l) = zlen l) by (intros; unfold zlen; now rewrite map_length).
  assert (Z0 : (0 <= zlen L0)%Z) by (unfold zlen; lia).
  assert (LD : zlen (s_data s) = (zlen L0 + zlen (map snd (L1 ++ L2)))%Z) by (rewrite D, map_app, zlen_app, ZM; reflexivity).
  assert (PR : forall Q i, In i (places Q (zlen L0) (map snd (L1 ++ L2))) -> (zlen L0 <= i < zlen (s_data s))%Z).
  { intros Q i Hi. apply places_in in Hi. destruct Hi as (a & A & B & _). apply nth_error_Some_lt in B. rewrite LD. unfold zlen in *. lia. }
  assert (PT : forall i, In i (places (fun _ => true) 0 L0) <-> (0 <= i < zlen L0)%Z).
  { intros i. rewrite places_in. split.
    - intros (a & A & B & _). apply nth_error_Some_lt in B. unfold zlen in *. lia.
    - intros Hi. destruct (aget_nth _ L0 i Hi) as (a & _ & A). exists a. rewrite Z.sub_0_r. auto with zarith. }
  assert (NN : NoDup (s_neib s)) by (rewrite N; apply places_nodup).
  split; [exact NN|]. split; [intros i Hi; rewrite N in Hi; apply PR in Hi; lia|]. split.
  { rewrite Dr. apply nodup_app3; auto using places_nodup.
    - intros x A B. rewrite N in A. apply PR in A. apply PT in B. lia.
    - intros x A B. rewrite N in A. apply places_in in A. apply places_in in B. destruct A as (a & _ & A & A'), B as (b & _ & B & B').
      rewrite A in B. injection B as <-. rewrite A' in B'. discriminate.
    - intros x A B. apply PT in A. apply PR in B. lia. }
  split.
  { intros i. rewrite in_app_iff, Dr, in_app_iff, PT, N. split.
    - intros Hi. destruct (Z_lt_le_dec i (zlen L0)); [right; left; lia|].
      destruct (aget_nth _ (map snd (L1 ++ L2)) (i - zlen L0)) as (q & _ & A); [rewrite LD in Hi; lia|].
      destruct (near q) eqn:En; [left|right; right]; apply places_in; exists q; rewrite ?En; auto.
    - intros [A|[A|A]]; [apply PR in A; lia| |apply PR in A; lia].
      assert (0 <= zlen (map snd (L1 ++ L2)))%Z by (unfold zlen; lia). lia. }
  assert (ZI : zlen (s_idx s) = zlen (s_data s)) by (rewrite I, D, !ZM; reflexivity).
  split; [|exact ZI]. rewrite ZI, LD, N, Dr, zlen_app, places_true_len.
  assert (X := places_split _ near (map snd (L1 ++ L2)) (zlen L0)). lia.
Qed.
