From Verif Require Import Prelude L_Prelude Vec M_Box S_Box L_Box M_Util M_Periodic S_Periodic L_Periodic L_Periodic2 M_Neib S_Neib.
From Coq Require Import Reals Lra NArith Permutation.
Local Open Scope R_scope.

(** ** Pairs once *)
Lemma first_one : forall p q, n_mirror p = false -> n_mirror q = false -> n_iorig p <> n_iorig q ->
  xorb (first_appearance p q) (first_appearance q p) = true.
Proof.
  intros p q Hp Hq Hne. unfold first_appearance. rewrite Hp, Hq. cbn [orb].
  destruct (Z.ltb_spec (n_level q) (n_level p)), (Z.ltb_spec (n_level p) (n_level q)), (Z.eqb_spec (n_level p) (n_level q)),
    (Z.eqb_spec (n_level q) (n_level p)), (Z.ltb_spec (n_iorig p) (n_iorig q)), (Z.ltb_spec (n_iorig q) (n_iorig p)); try lia; reflexivity.
Qed.
Lemma first_mirror : forall p q, n_mirror q = true -> first_appearance p q = true.
Proof. intros p q H. unfold first_appearance. now rewrite H. Qed.
Lemma first_self : forall p, n_mirror p = false -> first_appearance p p = false.
Proof. intros p H. unfold first_appearance. rewrite H, Z.ltb_irrefl, Z.ltb_irrefl, andb_false_r. reflexivity. Qed.
Lemma sweep_in : forall sched all p q, In (p, q) (sweep sched all) <-> In p sched /\ In q all /\ first_appearance p q = true.
Proof.
  intros. unfold sweep. rewrite in_flat_map. split.
  - intros (x & Hx & H). apply in_map_iff in H. destruct H as (y & E & Hy). injection E as -> ->. apply filter_In in Hy. tauto.
  - intros (H1 & H2 & H3). exists p. split; [easy|]. apply in_map. apply filter_In. tauto.
Qed.
Lemma sweep_nodup : forall sched all, NoDup sched -> NoDup all -> NoDup (sweep sched all).
Proof.
  intros sched all Hs Ha. unfold sweep. induction Hs as [|p sched Hp Hs IH]; [constructor|]. cbn.
  assert (N1 : NoDup (map (pair p) (filter (first_appearance p) all))).
  { apply FinFun.Injective_map_NoDup; [intros x y E; now injection E|]. now apply NoDup_filter. }

  assert (D : forall x, In x (map (pair p) (filter (first_appearance p) all)) ->
     In x (flat_map (fun p => map (pair p) (filter (first_appearance p) all)) sched) -> False).
  { intros x H1 H2. apply in_map_iff in H1. destruct H1 as (y & <- & _). apply in_flat_map in H2. destruct H2 as (z & Hz & H2).
    apply in_map_iff in H2. destruct H2 as (w & E & _). injection E as -> _. easy. }
  revert D N1. generalize (map (pair p) (filter (first_appearance p) all)) as m.
  induction m as [|x m IHm]; intros D N1; [exact IH|]. inversion N1; subst. cbn. constructor.
  - rewrite in_app_iff. intros [X|X]; [easy|]. apply (D x); [now left|easy].
  - apply IHm; [|easy]. intros y X Y. apply (D y); [now right|easy].
Qed.

(** The active set: closed towards smaller steps (higher levels). *)
Lemma sweep_once : forall all sched, NoDup all -> NoDup sched -> (forall p, In p sched -> In p all) ->
  (forall p, In p all -> n_mirror p = false) ->
  (forall p q, In p all -> In q all -> n_iorig p = n_iorig q -> p = q) ->
  (forall p q, In p sched -> In q all -> (n_level p <= n_level q)%Z -> In q sched) ->
  NoDup (sweep sched all) /\
  forall p q, In p all -> In q all -> p <> q ->
   ((In p sched \/ In q sched) ->
     (In (p, q) (sweep sched all) /\ ~ In (q, p) (sweep sched all)) \/
     (In (q, p) (sweep sched all) /\ ~ In (p, q) (sweep sched all))) /\
   (~ In p sched -> ~ In q sched -> ~ In (p, q) (sweep sched all) /\ ~ In (q, p) (sweep sched all)) /\
   ~ In (p, p) (sweep sched all).
Proof.
  intros all sched Na Ns Hsub Hm Hid Hup. split; [now apply sweep_nodup|].
  intros p q Hp Hq Hne. rewrite !sweep_in.
  assert (Hio : n_iorig p <> n_iorig q) by (intros E; apply Hne; now apply Hid).
  assert (X := first_one p q (Hm p Hp) (Hm q Hq) Hio). split; [|split].
  - intros Hact. destruct (first_appearance p q) eqn:E1, (first_appearance q p) eqn:E2; try discriminate.
    + left. split; [|intros (_ & _ & Z); discriminate]. split; [|tauto]. destruct Hact as [H|H]; [easy|].
      apply (Hup q p); auto. unfold first_appearance in E1. rewrite (Hm q Hq) in E1. cbn [orb] in E1.
      apply orb_true_iff in E1. rewrite andb_true_iff, Z.ltb_lt, Z.eqb_eq in E1. lia.
    + right. split; [|intros (_ & _ & Z); discriminate]. split; [|tauto]. destruct Hact as [H|H]; [|easy].
      apply (Hup p q); auto. unfold first_appearance in E2. rewrite (Hm p Hp) in E2. cbn [orb] in E2.
      apply orb_true_iff in E2. rewrite andb_true_iff, Z.ltb_lt, Z.eqb_eq in E2. lia.
  - tauto.
  - rewrite (first_self p (Hm p Hp)). intros (_ & _ & Z). discriminate.
Qed.

(** ** Building the candidate list *)
Lemma places_app : forall A (P : A -> bool) l m k, places P k (l ++ m) = places P k l ++ places P (k + zlen l) m.
Proof.
  induction l; intros m k; cbn [places app].
  - unfold zlen. cbn. now rewrite Z.add_0_r.
  - replace (k + zlen (a :: l))%Z with (k + 1 + zlen l)%Z by (unfold zlen; cbn [length]; lia).
    destruct (P a); cbn [app]; now rewrite IHl.
Qed.
Lemma places_length : forall A (P : A -> bool) l k, length (places P k l) = length (filter P l).
Proof. induction l; intros k; cbn; [easy|]. destruct (P a); cbn [length]; now rewrite IHl. Qed.
Lemma places_len : forall A (P : A -> bool) l k, zlen (places P k l) = zlen (filter P l).
Proof. intros. unfold zlen. now rewrite places_length. Qed.
Lemma places_split : forall A (P : A -> bool) l k, (zlen (places P k l) + zlen (places (fun x => negb (P x)) k l) = zlen l)%Z.
Proof.
  intros. unfold zlen. rewrite !places_length. rewrite <- Nat2Z.inj_add. f_equal.
  induction l; cbn; [easy|]. destruct (P a); cbn [negb length]; lia.
Qed.
Lemma places_in : forall A (P : A -> bool) l k x, In x (places P k l) <->
  exists a, (k <= x)%Z /\ nth_error l (Z.to_nat (x - k)) = Some a /\ P a = true.
Proof.
  induction l; intros k x; cbn [places].
  - split; [easy|]. intros (a & _ & H & _). destruct (Z.to_nat (x - k)); discriminate.
  - assert (S0 : (exists b, (k <= x)%Z /\ nth_error (a :: l) (Z.to_nat (x - k)) = Some b /\ P b = true) <->
       (x = k /\ P a = true) \/ (exists b, (k + 1 <= x)%Z /\ nth_error l (Z.to_nat (x - (k + 1))) = Some b /\ P b = true)).
    { split.
      - intros (b & H1 & H2 & H3). destruct (Z.eq_dec x k) as [ -> |N].
        + left. rewrite Z.sub_diag in H2. injection H2 as ->. tauto.
        + right. exists b. split; [lia|]. replace (Z.to_nat (x - k)) with (S (Z.to_nat (x - (k + 1)))) in H2 by lia. tauto.
      - intros [( -> & H)|(b & H1 & H2 & H3)].
        + exists a. rewrite Z.sub_diag. split; [lia|]. split; [reflexivity|easy].
        + exists b. split; [lia|]. replace (Z.to_nat (x - k)) with (S (Z.to_nat (x - (k + 1)))) by lia. tauto. }
    rewrite S0, <- IHl. destruct (P a) eqn:E; cbn [In]; split; intros H; intuition (try congruence).
Qed.
Lemma places_nodup : forall A (P : A -> bool) l k, NoDup (places P k l).
Proof.
  induction l; intros k; cbn; [constructor|]. destruct (P a); [|apply IHl]. constructor; [|apply IHl].
  rewrite places_in. intros (b & H & _). lia.
Qed.

Section ENDSEARCH.
Variables (ndim : nat) (images : npart -> list npart) (gmask : nat -> bool) (rc : vec) (rmax hmax kernrange : R).
Let near := in_range ndim rc rmax hmax kernrange.
Let kept (keep : bool) (q : npart) := near q || (keep && gmask (n_type q)).

Lemma zlen_app : forall A (l m : list A), zlen (l ++ m) = (zlen l + zlen m)%Z.
Proof. intros. unfold zlen. rewrite app_length. lia. Qed.
Lemma es_cull_spec : forall fuel keep i A G nb dr ix, (length G < fuel)%nat ->
  exists G', es_cull ndim gmask rc rmax hmax kernrange fuel keep i {| s_data := A ++ G; s_neib := nb; s_direct := dr; s_idx := ix |} (zlen A) =
    Ok ({| s_data := A ++ G'; s_neib := nb ++ places near (zlen A) G'; s_direct := dr ++ places (fun q => negb (near q)) (zlen A) G';
           s_idx := ix ++ map (fun _ => i) G' |}, zlen (A ++ G')) /\ Permutation G' (filter (kept keep) G).
Proof.
  induction fuel; intros keep i A G nb dr ix Hf; [lia|]. cbn [es_cull s_data].
  destruct G as [|q G].
  { rewrite app_nil_r, Z.ltb_irrefl. exists []. rewrite !app_nil_r. split; [reflexivity|constructor]. }
  assert ((zlen A <? zlen (A ++ q :: G))%Z = true) as ->. { apply Z.ltb_lt. rewrite zlen_app. unfold zlen. cbn [length]. lia. }
  rewrite (aget_app_mid A G q (zlen A)) by reflexivity. cbn [bind s_neib s_direct s_idx].
  change (in_range ndim rc rmax hmax kernrange q) with (near q).
  assert (EA : A ++ q :: G = (A ++ [q]) ++ G) by now rewrite <- app_assoc.
  assert (EZ : (zlen A + 1)%Z = zlen (A ++ [q])) by (rewrite zlen_app; reflexivity).
  destruct (near q) eqn:En.
  - rewrite EZ, EA. destruct (IHfuel keep i (A ++ [q]) G (nb ++ [zlen A]) dr (ix ++ [i])) as (G' & E & P); [cbn in Hf; lia|].
    exists (q :: G'). rewrite E. split.
    + rewrite <- !app_assoc. cbn [app places map]. rewrite En. cbn [negb]. rewrite EZ. reflexivity.
    + cbn [filter]. unfold kept at 1. rewrite En. cbn [orb]. now constructor.
  - destruct (keep && gmask (n_type q)) eqn:Ek.
    + rewrite EZ, EA. destruct (IHfuel keep i (A ++ [q]) G nb (dr ++ [zlen A]) (ix ++ [i])) as (G' & E & P); [cbn in Hf; lia|].
      exists (q :: G'). rewrite E. split.
      * rewrite <- !app_assoc. cbn [app places map]. rewrite En. cbn [negb]. rewrite EZ. reflexivity.
      * cbn [filter]. unfold kept at 1. rewrite Ek, orb_true_r. now constructor.
    + assert (EK : kept keep q = false) by (unfold kept; now rewrite En, Ek).
      destruct G as [|x0 G0].
      * assert ((zlen A <? zlen (A ++ [q]) - 1)%Z = false) as -> by (apply Z.ltb_ge; rewrite zlen_app; unfold zlen; cbn; lia).
        cbn [bind]. rewrite removelast_last.
        destruct (IHfuel keep i A [] nb dr ix) as (G' & E & P); [cbn in Hf; cbn; lia|]. rewrite app_nil_r in E.
        exists G'. rewrite E. split; [reflexivity|]. cbn [filter]. rewrite EK. exact P.
      * destruct (exists_last (l := x0 :: G0)) as (G1 & x & Ex); [discriminate|]. rewrite Ex in *. clear x0 G0 Ex.
        assert ((zlen A <? zlen (A ++ q :: G1 ++ [x]) - 1)%Z = true) as ->.
        { apply Z.ltb_lt. rewrite zlen_app. unfold zlen. cbn [length]. rewrite app_length. cbn. lia. }
        assert (aget (A ++ q :: G1 ++ [x]) (zlen (A ++ q :: G1 ++ [x]) - 1) = Ok x) as ->.
        { replace (A ++ q :: G1 ++ [x]) with ((A ++ q :: G1) ++ [x]) by (rewrite <- app_assoc; reflexivity).
          apply aget_app_mid. rewrite zlen_app. unfold zlen. cbn. lia. }
        cbn [bind]. rewrite (aset_app_mid A (G1 ++ [x]) q x (zlen A)) by reflexivity. cbn [bind].
        replace (removelast (A ++ x :: G1 ++ [x])) with (A ++ x :: G1).
        2:{ replace (A ++ x :: G1 ++ [x]) with ((A ++ x :: G1) ++ [x]) by (rewrite <- app_assoc; reflexivity). now rewrite removelast_last. }
        destruct (IHfuel keep i A (x :: G1) nb dr ix) as (G' & E & P).
        { cbn [length] in *. rewrite app_length in Hf. cbn in Hf. lia. }
        exists G'. rewrite E. split; [reflexivity|]. rewrite P. cbn [filter]. rewrite EK. rewrite filter_app. cbn [filter].
        destruct (kept keep x); [apply Permutation_cons_append|now rewrite app_nil_r].
Qed.

Lemma copies_cons : forall im pd i l, copies im pd (i :: l) =
  match nth_error pd (Z.to_nat i) with Some q => if n_dead q then [] else map (pair i) (im q) | None => [] end ++ copies im pd l.
Proof. reflexivity. Qed.
Lemma map_snd_pair : forall (i : Z) (l : list npart), map snd (map (pair i) l) = l.
Proof. induction l; cbn; congruence. Qed.
Lemma map_fst_pair : forall (i : Z) (l : list npart), map fst (map (pair i) l) = map (fun _ => i) l.
Proof. induction l; cbn; congruence. Qed.
Lemma filter_pair : forall (i : Z) (P : npart -> bool) l, filter (fun x => P (snd x)) (map (pair i) l) = map (pair i) (filter P l).
Proof. induction l; cbn; [easy|]. destruct (P a); cbn; now rewrite IHl. Qed.
Lemma aget_nth : forall A (l : list A) i, (0 <= i < zlen l)%Z -> exists x, aget l i = Ok x /\ nth_error l (Z.to_nat i) = Some x.
Proof. intros A l i H. destruct (aget_in l i H) as (x & E). exists x. split; [easy|]. unfold aget in E. destruct (i <? 0)%Z; [discriminate|]. destruct (nth_error l (Z.to_nat i)); congruence. Qed.

Lemma es_per_spec : forall pd keep l A nb dr ix, indices_ok pd l -> 
  exists L, es_per ndim images gmask rc rmax hmax kernrange pd keep l {| s_data := A; s_neib := nb; s_direct := dr; s_idx := ix |} (zlen A) =
    Ok ({| s_data := A ++ map snd L; s_neib := nb ++ places near (zlen A) (map snd L);
           s_direct := dr ++ places (fun q => negb (near q)) (zlen A) (map snd L);
           s_idx := ix ++ map fst L |}, zlen (A ++ map snd L)) /\
    Permutation L (filter (fun x => kept keep (snd x)) (copies images pd l)).
Proof.
  induction l as [|i l IH]; intros A nb dr ix Hok.
  { exists []. cbn. rewrite !app_nil_r. split; [reflexivity|constructor]. }
  cbn [es_per]. destruct (aget_nth _ pd i) as (q & E1 & E2); [apply Hok; now left|]. rewrite E1. cbn [bind].
  assert (Hok' : indices_ok pd l) by (intros x Hx; apply Hok; now right).
  rewrite copies_cons, E2, filter_app. destruct (n_dead q).
  { destruct (IH A nb dr ix Hok') as (L & E & P). exists L. split; [exact E|exact P]. }
  cbn [s_data s_neib s_direct s_idx].
  destruct (es_cull_spec (S (length (A ++ images q))) keep i A (images q) nb dr ix) as (G' & EG & PG).
  { rewrite app_length. lia. }
  rewrite EG. cbn [bind]. 
  destruct (IH (A ++ G') (nb ++ places near (zlen A) G') (dr ++ places (fun q => negb (near q)) (zlen A) G') (ix ++ map (fun _ => i) G') Hok') as (L & E & P).
  exists (map (pair i) G' ++ L). rewrite E. rewrite !map_app, map_snd_pair, map_fst_pair, !places_app, zlen_app, <- !app_assoc. split; [reflexivity|].
  rewrite filter_pair. apply Permutation_app; [now apply Permutation_map|exact P].
Qed.

Lemma es_plain_spec : forall pd l A nb dr ix, indices_ok pd l ->
  let L := filter (fun x => near (snd x)) (copies (fun q => [q]) pd l) in
  es_plain ndim gmask rc rmax hmax kernrange pd false l {| s_data := A; s_neib := nb; s_direct := dr; s_idx := ix |} (zlen A) =
    Ok ({| s_data := A ++ map snd L; s_neib := nb ++ places near (zlen A) (map snd L); s_direct := dr; s_idx := ix ++ map fst L |}, zlen (A ++ map snd L)).
Proof.
  induction l as [|i l IH]; intros A nb dr ix Hok L; subst L.
  { cbn. now rewrite !app_nil_r. }
  cbn [es_plain]. destruct (aget_nth _ pd i) as (q & E1 & E2); [apply Hok; now left|]. rewrite E1. cbn [bind].
  assert (Hok' : indices_ok pd l) by (intros x Hx; apply Hok; now right).
  rewrite copies_cons, E2, filter_app. destruct (n_dead q); [apply (IH A nb dr ix Hok')|].
  cbn [map filter snd]. change (in_range ndim rc rmax hmax kernrange q) with (near q).
  destruct (near q) eqn:En; [|cbn [bind app]; apply (IH A nb dr ix Hok')].
  cbn [s_data s_neib s_direct s_idx app map snd fst].
  replace (zlen A + 1)%Z with (zlen (A ++ [q])) by (rewrite zlen_app; reflexivity).
  rewrite (IH (A ++ [q]) _ _ _ Hok'). rewrite <- !app_assoc. cbn [app places]. rewrite En.
  replace (zlen A + 1)%Z with (zlen (A ++ [q])) by (rewrite zlen_app; reflexivity). reflexivity.
Qed.

Lemma es_direct_spec : forall pd l D, indices_ok pd l ->
  (forall i q, In i l -> nth_error pd (Z.to_nat i) = Some q -> n_dead q = false -> exists g, images q = [g] /\ n_type g = n_type q) ->
  let L := filter (fun x => gmask (n_type (snd x))) (copies images pd l) in
  es_direct images gmask pd l {| s_data := map snd D; s_neib := []; s_direct := places (fun _ => true) 0 D; s_idx := map fst D |} =
    Ok {| s_data := map snd (D ++ L); s_neib := []; s_direct := places (fun _ => true) 0 (D ++ L); s_idx := map fst (D ++ L) |}.
Proof.
  induction l as [|i l IH]; intros D Hok H1 L; subst L.
  { cbn. now rewrite !app_nil_r. }
  cbn [es_direct]. destruct (aget_nth _ pd i) as (q & E1 & E2); [apply Hok; now left|]. rewrite E1. cbn [bind].
  assert (Hok' : indices_ok pd l) by (intros x Hx; apply Hok; now right).
  assert (H1' : forall i q, In i l -> nth_error pd (Z.to_nat i) = Some q -> n_dead q = false -> exists g, images q = [g] /\ n_type g = n_type q) by (intros i' q' Hi; apply H1; now right).
  rewrite copies_cons, E2, filter_app. destruct (n_dead q) eqn:Ed; [apply (IH D Hok' H1')|].
  destruct (H1 i q (or_introl eq_refl) E2 Ed) as (g & Eg & Et). rewrite Eg. cbn [map filter snd]. rewrite Et.
  destruct (gmask (n_type q)); cbn [negb]; [|apply (IH D Hok' H1')].
  cbn [s_data s_neib s_direct s_idx].
  assert (IH' := IH (D ++ [(i, g)]) Hok' H1'). cbv zeta in IH'. rewrite <- app_assoc in IH'. rewrite <- IH'. cbn [app].
  f_equal. f_equal.
  - rewrite map_app. reflexivity.
  - rewrite places_app. f_equal. cbn [places]. f_equal. rewrite zlen_app. unfold zlen. rewrite map_length. cbn. lia.
  - rewrite map_app. reflexivity.
Qed.

Lemma places_true_len : forall A (l : list A) k, zlen (places (fun _ => true) k l) = zlen l.
Proof. intros. rewrite places_len. unfold zlen. f_equal. induction l; cbn; congruence. Qed.
Lemma places_none : forall A (P : A -> bool) l k, (forall x, In x l -> P x = false) -> places P k l = [].
Proof. induction l; intros k H; cbn; [easy|]. rewrite (H a) by now left. apply IHl. intros; apply H; now right. Qed.

Theorem EndSearch_spec : forall pd keep tdirect tper tplain,
  indices_ok pd tdirect -> indices_ok pd tper -> indices_ok pd tplain ->
  (keep = true -> tplain = []) ->
  (keep = true -> forall i q, In i tdirect -> nth_error pd (Z.to_nat i) = Some q -> n_dead q = false -> exists g, images q = [g] /\ n_type g = n_type q) ->
  exists s nper L1,
    let L0 := if keep then filter (fun x => gmask (n_type (snd x))) (copies images pd tdirect) else [] in
    let L2 := filter (fun x => near (snd x)) (copies (fun q => [q]) pd tplain) in
    EndSearch ndim images gmask rc rmax hmax kernrange pd keep tdirect tper tplain = Ok (s, nper) /\
    Permutation L1 (filter (fun x => near (snd x) || (keep && gmask (n_type (snd x)))) (copies images pd tper)) /\
    s_data s = map snd (L0 ++ L1 ++ L2) /\ s_idx s = map fst (L0 ++ L1 ++ L2) /\
    s_neib s = places near (zlen L0) (map snd (L1 ++ L2)) /\
    s_direct s = places (fun _ => true) 0 L0 ++ places (fun q => negb (near q)) (zlen L0) (map snd (L1 ++ L2)) /\
    nper = zlen (places near (zlen L0) (map snd L1)).
Proof.
  intros pd keep tdirect tper tplain H0 H1 H2 Hk Hd.
  unfold EndSearch.
  set (L0 := if keep then filter (fun x => gmask (n_type (snd x))) (copies images pd tdirect) else []).
  assert (E0 : (if keep then es_direct images gmask pd tdirect {| s_data := []; s_neib := []; s_direct := []; s_idx := [] |} else Ok {| s_data := []; s_neib := []; s_direct := []; s_idx := [] |}) =
     Ok {| s_data := map snd L0; s_neib := []; s_direct := places (fun _ => true) 0 L0; s_idx := map fst L0 |}).
  { unfold L0. destruct keep; [|reflexivity]. apply (es_direct_spec pd tdirect [] H0 (Hd eq_refl)). }
  rewrite E0. cbn [bind s_data s_direct s_idx].
  assert (ZM : forall A B (g : A -> B) l, zlen (map g l) = zlen l) by (intros; unfold zlen; now rewrite map_length).
  rewrite places_true_len, !ZM, Z.eqb_refl. cbn [andb negb].
  destruct (es_per_spec pd keep tper (map snd L0) [] (places (fun _ => true) 0 L0) (map fst L0) H1) as (L1 & E & P).
  rewrite !ZM in E. rewrite E. cbn [bind s_neib].
  set (L2 := filter (fun x => near (snd x)) (copies (fun q => [q]) pd tplain)).
  assert (N2 : forall x, In x (map snd L2) -> negb (near x) = false).
  { intros x Hx. apply in_map_iff in Hx. destruct Hx as (y & <- & Hy). apply filter_In in Hy. now rewrite (proj2 Hy). }
  assert (E2 : es_plain ndim gmask rc rmax hmax kernrange pd keep tplain
     {| s_data := map snd L0 ++ map snd L1; s_neib := [] ++ places near (zlen L0) (map snd L1);
        s_direct := places (fun _ => true) 0 L0 ++ places (fun q => negb (near q)) (zlen L0) (map snd L1);
        s_idx := map fst L0 ++ map fst L1 |} (zlen (map snd L0 ++ map snd L1)) =
     Ok ({| s_data := map snd (L0 ++ L1 ++ L2); s_neib := places near (zlen L0) (map snd (L1 ++ L2));
        s_direct := places (fun _ => true) 0 L0 ++ places (fun q => negb (near q)) (zlen L0) (map snd (L1 ++ L2));
        s_idx := map fst (L0 ++ L1 ++ L2) |}, zlen (map snd (L0 ++ L1 ++ L2)))).
  { destruct keep eqn:K.
    - unfold L2. rewrite (Hk eq_refl). cbn. rewrite !app_nil_r, !map_app. reflexivity.
    - rewrite es_plain_spec by easy. fold L2. rewrite !map_app, !places_app, !zlen_app, !ZM, <- !app_assoc. cbn [app].
      rewrite (places_none _ (fun q => negb (near q)) (map snd L2)) by exact N2. rewrite app_nil_r. reflexivity. }
  rewrite E2. cbn [bind]. cbn [s_data s_neib s_direct].
  exists {| s_data := map snd (L0 ++ L1 ++ L2); s_neib := places near (zlen L0) (map snd (L1 ++ L2));
        s_direct := places (fun _ => true) 0 L0 ++ places (fun q => negb (near q)) (zlen L0) (map snd (L1 ++ L2));
        s_idx := map fst (L0 ++ L1 ++ L2) |}, (zlen (places near (zlen L0) (map snd L1))), L1. cbv zeta.
  split; [|split; [exact P|repeat split]].
  match goal with |- context [(?a =? ?b)%Z] => replace (a =? b)%Z with true; [reflexivity|] end.
  symmetry. apply Z.eqb_eq. rewrite !zlen_app, places_true_len, ZM, zlen_app.
  assert (X := places_split _ near (map snd (L1 ++ L2)) (zlen L0)). rewrite ZM in X. lia.
Qed.

(** Line 463 with a candidate out of range. *)
Lemma EndSearch_oob : forall pd i q, aget pd i = Ok q -> n_dead q = false -> near q = false ->
  EndSearch ndim images gmask rc rmax hmax kernrange pd true [] [] [i] = UB.
Proof.
  intros pd i q H1 H2 H3. unfold EndSearch. cbn. rewrite H1. cbn. rewrite H2.
  change (in_range ndim rc rmax hmax kernrange q) with (near q). rewrite H3. reflexivity.
Qed.

(** Everything that interacts with a particle of the cell is in range. *)
Lemma in_range_complete : forall p q, 0 <= kernrange -> 0 <= n_h p <= hmax -> 0 <= n_h q -> 0 <= rmax ->
  n_hr2 p = (kernrange * n_h p) ^ 2 -> n_hr2 q = (kernrange * n_h q) ^ 2 ->
  norm ndim (vsub (n_r p) rc) <= rmax -> within ndim p q -> near q = true.
Proof.
  intros p q Hk Hp Hq Hr Ep Eq Hc Hw. unfold near, in_range.
  assert (T := norm_triangle_sub ndim (n_r q) (n_r p) rc).
  assert (Nq := norm_sqr ndim (vsub (n_r q) rc)). assert (Nd := norm_sqr ndim (vsub (n_r q) (n_r p))).
  assert (P1 := norm_nonneg ndim (vsub (n_r q) rc)). assert (P2 := norm_nonneg ndim (vsub (n_r q) (n_r p))).
  unfold within in Hw. rewrite <- Nd in Hw. rewrite <- Nq.
  set (a := norm ndim (vsub (n_r q) rc)) in *. set (c := norm ndim (vsub (n_r q) (n_r p))) in *.
  assert (SQ : forall x, 0 <= x -> c * c < x ^ 2 -> c < x) by (intros; nra).
  assert (SQ2 : forall x y, 0 <= y -> x < y -> 0 <= x -> x * x < y * y) by (intros; nra).
  apply orb_true_iff. destruct Hw as [Hw|Hw].
  - left. apply rltb_true. rewrite Ep in Hw. apply SQ in Hw; [|nra].
    replace ((rmax + kernrange * hmax) ^ 2) with ((rmax + kernrange * hmax) * (rmax + kernrange * hmax)) by ring.
    assert (kernrange * n_h p <= kernrange * hmax) by nra. apply SQ2; [nra|lra|lra].
  - right. apply rltb_true. rewrite Eq in Hw. apply SQ in Hw; [|nra]. apply SQ2; [nra|lra|lra].
Qed.
End ENDSEARCH.
