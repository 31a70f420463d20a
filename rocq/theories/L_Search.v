From Verif Require Import Prelude L_Prelude S_Tree M_Walk L_Tree M_Search L_KDBuild.
From Coq Require Import Permutation.
Local Open Scope Z_scope.

Scheme ctree_ind2 := Minimality for ctree Sort Prop
  with ctrees_ind2 := Minimality for ctrees Sort Prop.
Combined Scheme ctree_mutind from ctree_ind2, ctrees_ind2.

Lemma ctree_impl : forall (P L P' L' : Z -> list Z -> Prop),
  (forall c ps, P c ps -> P' c ps) -> (forall c ps, L c ps -> L' c ps) ->
  (forall t ps, ctree P L t ps -> ctree P' L' t ps) /\
  (forall ks pss, ctrees P L ks pss -> ctrees P' L' ks pss).
Proof.
  intros P L P' L' HP HL. apply ctree_mutind; intros; constructor; auto.
Qed.

Lemma ctree_root : forall P L t ps, ctree P L t ps -> P (root t) ps.
Proof. intros P L t ps H. inversion H; auto. Qed.

Lemma perm6 : forall (a b c a' b' c' : list Z),
  Permutation ((a ++ b ++ c) ++ a' ++ b' ++ c') ((a ++ a') ++ (b ++ b') ++ c ++ c').
Proof.
  intros. rewrite <- !app_assoc. apply Permutation_app_head.
  transitivity (a' ++ b ++ c ++ b' ++ c').
  - rewrite (app_assoc b), (app_assoc b c (b' ++ c')). apply Permutation_app_swap_app.
  - apply Permutation_app_head. apply Permutation_app_head. apply Permutation_app_swap_app.
Qed.

(** ** Reading a linked list *)
Lemma read_list_spec : forall rest inext i fuel,
  (length rest < fuel)%nat -> i <> -1 -> ~ In (-1) rest -> NoDup (i :: rest) -> links inext (i :: rest) ->
  read_list fuel (aget inext) i (last (i :: rest) (-1)) = Ok (i :: rest).
Proof.
  induction rest as [|j rest IH]; intros inext i fuel Hf Hi Hr ND HL.
  - destruct fuel; [simpl in Hf; lia|]. cbn [read_list last].
    destruct (Z.eqb_spec i (-1)); [lia|]. now rewrite Z.eqb_refl.
  - destruct fuel; [simpl in Hf; lia|]. cbn [read_list]. cbn [length] in Hf.
    destruct (Z.eqb_spec i (-1)); [lia|].
    change (last (i :: j :: rest) (-1)) with (last (j :: rest) (-1)).
    destruct HL as [A B]. inversion ND; subst.
    destruct (Z.eqb_spec i (last (j :: rest) (-1))) as [E|].
    + exfalso. apply H1. destruct (exists_last' _ (j :: rest)) as (X & y & EX); [easy|].
      rewrite EX, last_app1 in *. subst. apply in_or_app; right; now left.
    + rewrite A. cbn [bind]. rewrite IH; auto; try lia.
      * intros ->; apply Hr; now left.
      * intros X; apply Hr; now right.
Qed.
Lemma read_list_chain : forall fuel inext f l ps,
  chain inext f l ps -> NoDup ps -> (forall p, In p ps -> 0 <= p) -> (length ps < fuel)%nat ->
  read_list fuel (aget inext) f l = Ok ps.
Proof.
  intros fuel inext f l [|p t] HC ND HB HF.
  - destruct HC as [-> ->]. destruct fuel; [simpl in HF; lia|]. reflexivity.
  - destruct HC as (-> & -> & HL). apply read_list_spec; auto.
    + simpl in HF; lia.
    + specialize (HB p (or_introl eq_refl)). lia.
    + intros X. specialize (HB (-1) (or_intror X)). lia.
Qed.

(** ** What the searches need to know about a leaf and about an inner cell *)
Section Searches.
Variables (fuel : nat) (v : tview) (Nleafmax : Z).

(** Count of every cell. *)
Definition count_ok (c : Z) (ps : list Z) : Prop := vN v c = Ok (zlen ps).
(** Leaf: the linked list is readable and not too long. *)
Definition leaf_ok (c : Z) (ps : list Z) : Prop :=
  cell_list fuel v c = Ok ps /\ zlen ps <= Nleafmax /\
  (forall p, ps = [p] -> vfirst v c = Ok p).

Definition kept (keep : Z -> res bool) (p : Z) : bool := match keep p with Ok b => b | _ => false end.

Lemma push_all_spec : forall cap keep l neib,
  (forall p, In p l -> exists b, keep p = Ok b) -> zlen neib + zlen l <= cap ->
  push_all cap keep l neib = Ok (neib ++ filter (kept keep) l).
Proof.
  induction l as [|p l IH]; intros neib Hk Hc; cbn [push_all filter].
  - now rewrite app_nil_r.
  - unfold zlen in *. cbn [length] in Hc.
    destruct (Hk p (or_introl eq_refl)) as [b Hb]. unfold kept at 1. rewrite Hb. cbn [bind].
    destruct b.
    + replace (Z.of_nat (length neib) <? cap) with true by lia.
      rewrite IH; [| |rewrite app_length; cbn [length]; lia].
      * now rewrite <- app_assoc.
      * intros; apply Hk; now right.
    + apply IH; [|lia]. intros; apply Hk; now right.
Qed.

(** *** Gather walks *)
Section Gather.
Variables (opn keep : Z -> res bool) (Nneibmax : Z).
Let visit := gather_visit fuel v opn keep Nleafmax Nneibmax.

(** A cell is tested without error and, if it is not opened, none of its particles
    passes the particle test. *)
Definition opn_ok (c : Z) (ps : list Z) : Prop :=
  exists b, opn c = Ok b /\ (b = false -> forall p, In p ps -> keep p = Ok false).
Definition keep_ok (ps : list Z) : Prop := forall p, In p ps -> exists b, keep p = Ok b.

Lemma filter_none : forall ps, (forall p, In p ps -> keep p = Ok false) -> filter (kept keep) ps = [].
Proof.
  induction ps; intros H; [reflexivity|]. cbn [filter]. unfold kept at 1. rewrite H by now left.
  apply IHps. intros; apply H; now right.
Qed.

(** Outcome of the walk of a (list of) subtree(s) with particles [ps]: everything kept, or
    stopped with a nearly full buffer holding a part of it. *)
Definition gout (neib ps : list Z) (x : res (list Z * bool)) : Prop :=
  (exists neib', x = Ok (neib', false) /\ neib' = neib ++ filter (kept keep) ps /\ zlen neib' <= Nneibmax) \/
  (exists neib' rest, x = Ok (neib', true) /\ neib ++ filter (kept keep) ps = neib' ++ rest /\
      zlen neib' <= Nneibmax /\ Nneibmax <= zlen neib' + Nleafmax).

Lemma gather_twalks : forall Nc cn,
  (forall t ps, ctree (fun c ps => count_ok c ps /\ opn_ok c ps /\ keep_ok ps) leaf_ok t ps ->
     forall nx, linked Nc (vopen v) cn t nx -> (forall c, In c (preorder t) -> 0 <= c) ->
     forall neib, zlen neib <= Nneibmax -> gout neib ps (twalk visit t neib)) /\
  (forall ks pss, ctrees (fun c ps => count_ok c ps /\ opn_ok c ps /\ keep_ok ps) leaf_ok ks pss ->
     forall nx, linked_list Nc (vopen v) cn ks nx -> (forall c, In c (flat_map preorder ks) -> 0 <= c) ->
     forall neib, zlen neib <= Nneibmax -> gout neib (concat pss) (twalks visit ks neib)).
Proof.
  intros Nc cn. apply ctree_mutind.
  - intros c ps (HC & (b & Hb & Hbf) & HK) (HL & HN & _) nx LK NN neib Hcap. rewrite linked_unfold in LK. destruct LK as (_ & LO & _).
    rewrite twalk_unfold. unfold visit, gather_visit. rewrite Hb. cbn [bind].
    destruct b.
    + rewrite LO. cbn [bind]. cbn [negb Z.eqb]. rewrite HC. cbn [bind].
      destruct (Z.eqb_spec (zlen ps) 0) as [E0|E0].
      * left. exists neib. assert (ps = []) as -> by (destruct ps; [easy|unfold zlen in E0; simpl in E0; lia]).
        cbn [bind]. rewrite app_nil_r. auto.
      * destruct (Z.ltb_spec (zlen neib + Nleafmax) Nneibmax) as [Hlt|Hge].
        -- rewrite HL. cbn [bind]. rewrite push_all_spec by (auto; lia). cbn [bind].
           left. eexists. split; [reflexivity|]. split; [reflexivity|].
           unfold zlen in *. rewrite app_length.
           assert (length (filter (kept keep) ps) <= length ps)%nat.
           { clear. induction ps; simpl; [lia|]. destruct (kept keep a); simpl; lia. }
           lia.
        -- cbn [bind]. right. exists neib, (filter (kept keep) ps). auto.
    + cbn [bind]. left. exists neib. rewrite filter_none by auto. rewrite app_nil_r. auto.
  - intros c ks pss Hne Hks IHks (HC & (b & Hb & Hbf) & HK) nx LK NN neib Hcap. rewrite linked_unfold in LK. destruct LK as (_ & LO & LL).
    rewrite twalk_unfold. unfold visit at 1, gather_visit. rewrite Hb. cbn [bind].
    destruct b.
    + rewrite LO. cbn [bind]. destruct ks as [|k ks]; [easy|].
      assert (0 <= root k).
      { apply NN. right. destruct k; simpl. now left. }
      destruct (Z.eqb_spec (root k) (-1)); [lia|]. cbn [negb bind].
      apply (IHks nx LL); auto. intros; apply NN; now right.
    + cbn [bind]. left. exists neib. rewrite filter_none by auto. rewrite app_nil_r. auto.
  - intros. left. exists neib. simpl. rewrite app_nil_r. auto.
  - intros k ks ps pss Hk IHk Hks IHks nx [LA LB] NN neib Hcap. cbn [twalks concat].
    destruct (IHk _ LA (fun c Hc => NN c (in_or_app _ _ _ (or_introl Hc))) neib Hcap)
      as [(n1 & E1 & E2 & E3)|(n1 & rest & E1 & E2 & E3 & E4)]; rewrite E1; cbn [bind].
    + destruct (IHks _ LB (fun c Hc => NN c (in_or_app _ _ _ (or_intror Hc))) n1 E3)
        as [(n2 & F1 & F2 & F3)|(n2 & rest & F1 & F2 & F3 & F4)]; rewrite F1.
      * left. exists n2. split; [reflexivity|]. split; [|easy]. rewrite F2, E2, filter_app, app_assoc. reflexivity.
      * right. exists n2, rest. split; [reflexivity|]. split; [|easy]. rewrite filter_app, app_assoc, <- E2. exact F2.
    + right. exists n1, (rest ++ filter (kept keep) (concat pss)). split; [reflexivity|]. split; [|easy].
      rewrite filter_app, app_assoc, E2, <- app_assoc. reflexivity.
Qed.

Theorem gather_walk : forall Ncell t ps next,
  ctree (fun c ps => count_ok c ps /\ opn_ok c ps /\ keep_ok ps) leaf_ok t ps ->
  linked Ncell (vopen v) (vnext v) t next -> Ncell <= next ->
  (forall c, In c (preorder t) -> 0 <= c < Ncell) ->
  forall neib, zlen neib <= Nneibmax ->
  gout neib ps (walk (vopen v) (vnext v) Ncell visit (msize t) (root t) neib).
Proof.
  intros Ncell t ps next HC HL Hn HB neib Hcap.
  assert (G := proj1 (gather_twalks Ncell (vnext v)) t ps HC next HL (fun c Hc => proj1 (HB c Hc)) neib Hcap).
  assert (NO : forall c s s', visit c s = Ok (s', Down) -> vopen v c <> Ok (-1)).
  { intros c s s'. unfold visit, gather_visit. destruct (opn c) as [[|]| | |]; cbn [bind]; try discriminate.
    destruct (vopen v c) as [co| | |]; cbn [bind]; try discriminate.
    destruct (Z.eqb_spec co (-1)); cbn [negb]; [|congruence].
    destruct (vN v c) as [n| | |]; cbn [bind]; try discriminate.
    destruct (n =? 0); try discriminate. destruct (zlen s + Nleafmax <? Nneibmax); try discriminate.
    destruct (cell_list fuel v c); cbn [bind]; try discriminate.
    destruct (push_all Nneibmax keep a s); discriminate. }
  destruct G as [(n1 & E1 & E2 & E3)|(n1 & rest & E1 & E2 & E3 & E4)].
  - left. exists n1. split; [|auto]. eapply walk_correct; eauto. intros c Hc. now apply HB.
  - right. exists n1, rest. split; [|auto]. eapply walk_correct; eauto. intros c Hc. now apply HB.
Qed.
End Gather.

(** *** The gravity walk *)
Section Grav.
Variables (near opn : Z -> res bool).
Let visit := grav_visit fuel v near opn.
Definition dec_ok (c : Z) : Prop := exists b o, near c = Ok b /\ opn c = Ok o.

(** [gadd P L ps s s']: the walk goes from state [s] to [s'] by adding neighbours [dn],
    direct-sum particles [dd] and accepted cells [dc] whose particles together are [ps]. *)
Definition gadd (P L : Z -> list Z -> Prop) (ps : list Z) (s s' : list Z * list Z * list Z) : Prop :=
  exists dn dd dc dps,
    s' = (fst (fst s) ++ dn, snd (fst s) ++ dd, snd s ++ dc) /\
    Forall2 P dc dps /\ Permutation ps (dn ++ dd ++ concat dps) /\
    Forall (fun c => near c = Ok false /\ opn c = Ok false) dc /\
    Forall (fun p => exists c qs, P c qs /\ L c qs /\ In p qs /\ near c = Ok true) dn /\
    Forall (fun p => exists c qs, P c qs /\ L c qs /\ In p qs /\ near c = Ok false) dd.

Lemma gadd_nil : forall P L s, gadd P L [] s s.
Proof.
  intros P L [[a b] c]. exists [], [], [], []. cbn. rewrite !app_nil_r. repeat split; constructor.
Qed.
Lemma gadd_app : forall P L p1 p2 s1 s2 s3, gadd P L p1 s1 s2 -> gadd P L p2 s2 s3 -> gadd P L (p1 ++ p2) s1 s3.
Proof.
  intros P L p1 p2 [[a b] c] s2 s3 (n1 & d1 & c1 & q1 & E1 & F1 & P1 & G1 & H1 & I1)
    (n2 & d2 & c2 & q2 & E2 & F2 & P2 & G2 & H2 & I2).
  cbn in E1. subst s2. cbn in E2. subst s3.
  exists (n1 ++ n2), (d1 ++ d2), (c1 ++ c2), (q1 ++ q2).
  split; [cbn; now rewrite !app_assoc|]. split; [now apply Forall2_app|].
  split; [rewrite P1, P2, concat_app; apply perm6|].
  repeat split; apply Forall_app; auto.
Qed.

Variables (P L : Z -> list Z -> Prop).
Hypothesis HP : forall c ps, P c ps -> count_ok c ps /\ dec_ok c.
Hypothesis HL : forall c ps, L c ps -> leaf_ok c ps.

Lemma grav_twalks : forall Nc cn,
  (forall t ps, ctree P L t ps ->
     forall nx, linked Nc (vopen v) cn t nx -> (forall c, In c (preorder t) -> 0 <= c) ->
     forall s, exists s', twalk visit t s = Ok (s', false) /\ gadd P L ps s s') /\
  (forall ks pss, ctrees P L ks pss ->
     forall nx, linked_list Nc (vopen v) cn ks nx -> (forall c, In c (flat_map preorder ks) -> 0 <= c) ->
     forall s, exists s', twalks visit ks s = Ok (s', false) /\ gadd P L (concat pss) s s').
Proof.
  intros Nc cn. apply ctree_mutind.
  - intros c ps p l nx LK NN [[neib direct] gc].
    destruct (HP _ _ p) as (HC & b & o & Hb & Ho). destruct (HL _ _ l) as (HLL & HN & H1).
    rewrite linked_unfold in LK. destruct LK as (_ & LO & _). cbn in LO.
    rewrite twalk_unfold. unfold visit, grav_visit. rewrite Hb, HC, LO. cbn [bind negb Z.eqb].
    replace (Z.eqb (-1) (-1)) with true by reflexivity. cbn [negb andb].
    destruct b.
    + destruct (Z.eqb_spec (zlen ps) 0) as [E0|E0]; cbn [bind].
      * assert (ps = []) as -> by (destruct ps; [easy|unfold zlen in E0; simpl in E0; lia]).
        eexists; split; [reflexivity|apply gadd_nil].
      * rewrite HLL. cbn [bind]. eexists; split; [reflexivity|].
        exists ps, [], [], []. cbn. rewrite !app_nil_r. repeat split; try constructor; auto.
        apply Forall_forall. intros x Hx. exists c, ps. auto.
    + destruct (Z.eqb_spec (zlen ps) 0) as [E0|E0]; cbn [bind].
      * assert (ps = []) as -> by (destruct ps; [easy|unfold zlen in E0; simpl in E0; lia]).
        eexists; split; [reflexivity|apply gadd_nil].
      * rewrite Ho. cbn [bind]. destruct o; cbn [negb].
        -- rewrite HLL. cbn [bind]. eexists; split; [reflexivity|].
           exists [], ps, [], []. cbn. rewrite !app_nil_r. repeat split; try constructor; auto.
           apply Forall_forall. intros x Hx. exists c, ps. auto.
        -- destruct (Z.eqb_spec (zlen ps) 1) as [E1|E1].
           ++ destruct ps as [|q [|q' ps]]; [easy| |unfold zlen in E1; simpl in E1; lia].
              rewrite (H1 q eq_refl). cbn [bind]. eexists; split; [reflexivity|].
              exists [], [q], [], []. cbn. rewrite !app_nil_r. repeat split; try constructor; auto.
              exists c, [q]. repeat split; auto. now left.
           ++ cbn [bind]. eexists; split; [reflexivity|].
              exists [], [], [c], [ps]. cbn. rewrite !app_nil_r. repeat split; try constructor; auto.
  - intros c ks pss Hne Hks IHks p nx LK NN [[neib direct] gc].
    destruct (HP _ _ p) as (HC & b & o & Hb & Ho).
    rewrite linked_unfold in LK. destruct LK as (_ & LO & LL).
    rewrite twalk_unfold. unfold visit at 1, grav_visit. rewrite Hb, HC, LO. cbn [bind].
    destruct ks as [|k ks]; [easy|].
    assert (0 <= root k) by (apply NN; right; destruct k; simpl; now left).
    destruct (Z.eqb_spec (root k) (-1)); [lia|]. cbn [negb bind andb].
    specialize (IHks nx LL (fun c Hc => NN c (or_intror Hc)) (neib, direct, gc)).
    destruct b.
    + exact IHks.
    + destruct (Z.eqb_spec (zlen (concat pss)) 0) as [E0|E0]; cbn [bind].
      * assert (concat pss = []) as ->
          by (destruct (concat pss); [easy|unfold zlen in E0; simpl in E0; lia]).
        eexists; split; [reflexivity|apply gadd_nil].
      * rewrite Ho. cbn [bind]. destruct o; cbn [negb bind].
        -- exact IHks.
        -- eexists; split; [reflexivity|].
           exists [], [], [c], [concat pss]. cbn. rewrite !app_nil_r. repeat split; try constructor; auto.
  - intros. exists s. split; [reflexivity|apply gadd_nil].
  - intros k ks ps pss Hk IHk Hks IHks nx [LA LB] NN s. cbn [twalks concat].
    destruct (IHk _ LA (fun c Hc => NN c (in_or_app _ _ _ (or_introl Hc))) s) as (s1 & E1 & G1).
    destruct (IHks _ LB (fun c Hc => NN c (in_or_app _ _ _ (or_intror Hc))) s1) as (s2 & E2 & G2).
    exists s2. rewrite E1. cbn [bind]. split; [exact E2|]. eapply gadd_app; eauto.
Qed.

Theorem grav_walk : forall Ncell t ps next s,
  ctree P L t ps ->
  linked Ncell (vopen v) (vnext v) t next -> Ncell <= next ->
  (forall c, In c (preorder t) -> 0 <= c < Ncell) ->
  exists s', walk (vopen v) (vnext v) Ncell visit (msize t) (root t) s = Ok (s', false) /\ gadd P L ps s s'.
Proof.
  intros Ncell t ps next s HC HLK Hn HB.
  destruct (proj1 (grav_twalks Ncell (vnext v)) t ps HC next HLK (fun c Hc => proj1 (HB c Hc)) s) as (s' & E & G).
  exists s'. split; [|exact G]. eapply walk_correct; eauto; [|intros c Hc; now apply HB].
  intros c [[a b] d] s''. unfold visit, grav_visit. destruct (near c) as [b0| | |]; cbn [bind]; try discriminate.
  destruct (vN v c) as [n| | |]; cbn [bind]; try discriminate.
  destruct (vopen v c) as [co| | |]; cbn [bind]; try discriminate.
  destruct (Z.eqb_spec co (-1)); cbn [negb andb]; [|congruence].
  destruct b0; destruct (n =? 0); try discriminate;
    try (destruct (cell_list fuel v c); cbn [bind]; discriminate).
  destruct (opn c) as [[|]| | |]; cbn [bind negb]; try discriminate;
    try (destruct (cell_list fuel v c); cbn [bind]; discriminate).
  destruct (n =? 1); [destruct (vfirst v c); cbn [bind]|]; discriminate.
Qed.
End Grav.

(** *** Walks through the neighbour manager (no buffer limit) *)
Section Manager.
Variables (opn : Z -> res bool) (want : Z -> Prop).
Let visit := manager_visit fuel v opn.
(** An unopened cell holds no wanted particle. *)
Definition mopn_ok (c : Z) (ps : list Z) : Prop :=
  exists b, opn c = Ok b /\ (b = false -> forall p, In p ps -> ~ want p).
(** The list returned: a part of [ps] in the same order that has all the wanted ones. *)
Lemma subseq_refl : forall l, subseq l l.
Proof. induction l; [constructor|now apply sub_take]. Qed.
Lemma subseq_none : forall l, subseq [] l.
Proof. induction l; constructor; auto. Qed.
Lemma subseq_app : forall a b c d, subseq a b -> subseq c d -> subseq (a ++ c) (b ++ d).
Proof. intros a b c d H. induction H; intros; cbn; [easy|apply sub_skip|apply sub_take]; auto. Qed.
Lemma subseq_trans : forall b c, subseq b c -> forall a, subseq a b -> subseq a c.
Proof.
  intros b c H. induction H; intros a' H'; auto.
  - apply sub_skip. auto.
  - inversion H'; subst; [apply sub_skip|apply sub_take]; auto.
Qed.

Definition mout (neib ps neib' : list Z) : Prop :=
  exists l, neib' = neib ++ l /\ subseq l ps /\ (forall p, In p ps -> want p -> In p l).

Lemma manager_twalks : forall Nc cn,
  (forall t ps, ctree (fun c ps => count_ok c ps /\ mopn_ok c ps) leaf_ok t ps ->
     forall nx, linked Nc (vopen v) cn t nx -> (forall c, In c (preorder t) -> 0 <= c) ->
     forall s, exists s', twalk visit t s = Ok (s', false) /\ mout s ps s') /\
  (forall ks pss, ctrees (fun c ps => count_ok c ps /\ mopn_ok c ps) leaf_ok ks pss ->
     forall nx, linked_list Nc (vopen v) cn ks nx -> (forall c, In c (flat_map preorder ks) -> 0 <= c) ->
     forall s, exists s', twalks visit ks s = Ok (s', false) /\ mout s (concat pss) s').
Proof.
  intros Nc cn. apply ctree_mutind.
  - intros c ps (HC & b & Hb & Hbf) (HLL & HN & _) nx LK NN s.
    rewrite linked_unfold in LK. destruct LK as (_ & LO & _). cbn in LO.
    rewrite twalk_unfold. unfold visit, manager_visit. rewrite Hb. cbn [bind].
    destruct b.
    + rewrite LO, HC. cbn [bind]. replace (Z.eqb (-1) (-1)) with true by reflexivity. cbn [negb].
      destruct (Z.eqb_spec (zlen ps) 0) as [E0|E0]; cbn [bind].
      * assert (ps = []) as -> by (destruct ps; [easy|unfold zlen in E0; simpl in E0; lia]).
        eexists; split; [reflexivity|]. exists []. rewrite app_nil_r. repeat split; try constructor. easy.
      * rewrite HLL. cbn [bind]. eexists; split; [reflexivity|]. exists ps. repeat split; auto using subseq_refl.
    + cbn [bind]. eexists; split; [reflexivity|]. exists []. rewrite app_nil_r. repeat split; auto using subseq_none.
      intros p Hp W. exfalso. exact (Hbf eq_refl p Hp W).
  - intros c ks pss Hne Hks IHks (HC & b & Hb & Hbf) nx LK NN s.
    rewrite linked_unfold in LK. destruct LK as (_ & LO & LL).
    rewrite twalk_unfold. unfold visit at 1, manager_visit. rewrite Hb. cbn [bind].
    destruct ks as [|k ks]; [easy|].
    assert (0 <= root k) by (apply NN; right; destruct k; simpl; now left).
    destruct b.
    + rewrite LO. cbn [bind]. destruct (Z.eqb_spec (root k) (-1)); [lia|]. cbn [negb bind].
      exact (IHks nx LL (fun c Hc => NN c (or_intror Hc)) s).
    + cbn [bind]. eexists; split; [reflexivity|]. exists []. rewrite app_nil_r. repeat split; auto using subseq_none.
      intros p Hp W. exfalso. exact (Hbf eq_refl p Hp W).
  - intros. exists s. split; [reflexivity|]. exists []. rewrite app_nil_r. repeat split; auto; constructor.
  - intros k ks ps pss Hk IHk Hks IHks nx [LA LB] NN s. cbn [twalks concat].
    destruct (IHk _ LA (fun c Hc => NN c (in_or_app _ _ _ (or_introl Hc))) s) as (s1 & E1 & l1 & F1 & G1 & H1).
    destruct (IHks _ LB (fun c Hc => NN c (in_or_app _ _ _ (or_intror Hc))) s1) as (s2 & E2 & l2 & F2 & G2 & H2).
    exists s2. rewrite E1. cbn [bind]. split; [exact E2|].
    exists (l1 ++ l2). subst. rewrite app_assoc. repeat split; [now apply subseq_app|].
    intros p Hp W. apply in_app_or in Hp. apply in_or_app. destruct Hp; auto.
Qed.

Theorem manager_walk : forall Ncell t ps next s,
  ctree (fun c ps => count_ok c ps /\ mopn_ok c ps) leaf_ok t ps ->
  linked Ncell (vopen v) (vnext v) t next -> Ncell <= next ->
  (forall c, In c (preorder t) -> 0 <= c < Ncell) ->
  exists s', walk (vopen v) (vnext v) Ncell visit (msize t) (root t) s = Ok (s', false) /\ mout s ps s'.
Proof.
  intros Ncell t ps next s HC HLK Hn HB.
  destruct (proj1 (manager_twalks Ncell (vnext v)) t ps HC next HLK (fun c Hc => proj1 (HB c Hc)) s) as (s' & E & G).
  exists s'. split; [|exact G]. eapply walk_correct; eauto; [|intros c Hc; now apply HB].
  intros c s0 s''. unfold visit, manager_visit. destruct (opn c) as [[|]| | |]; cbn [bind]; try discriminate.
  destruct (vopen v c) as [co| | |]; cbn [bind]; try discriminate.
  destruct (Z.eqb_spec co (-1)); cbn [negb]; [|congruence].
  destruct (vN v c) as [n| | |]; cbn [bind]; try discriminate.
  destruct (n =? 0); try discriminate.
  destruct (cell_list fuel v c); cbn [bind]; discriminate.
Qed.
End Manager.
End Searches.
