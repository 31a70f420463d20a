From Verif Require Import Prelude L_Prelude Vec M_Box S_Tree L_Tree L_KDBuild L_KDDivide L_KDTop M_Oct.
From Coq Require Import Reals Permutation.
Local Open Scope Z_scope.

Lemma chain_snoc : forall n f l q i n', chain n f l q -> NoDup (q ++ [i]) -> q <> [] -> aset n l i = Ok n' ->
  chain n' f i (q ++ [i]).
Proof.
  intros n f l q i n' C ND Q E.
  destruct (exists_last' _ q Q) as (q' & a & ->).
  destruct q' as [|b q'].
  - cbn [app chain] in *. destruct C as (-> & C & _). cbn [List.last] in C. subst l.
    apply aset_Ok_inv in E as [B ->].
    cbn [List.last links]. split; [easy|]. split; [easy|]. split; [now apply aget_upd_eq|easy].
  - cbn [app chain] in *. destruct C as (-> & -> & L).
    assert (EL : List.last ((b :: q') ++ [a]) (-1) = a) by apply last_app1.
    cbn [app] in EL. rewrite EL in E. apply aset_Ok_inv in E as [B ->].
    split; [easy|]. split; [symmetry; apply (last_app1 (b :: q' ++ [a]))|].
    change (b :: (q' ++ [a]) ++ [i]) with ((b :: q' ++ [a]) ++ [i]).
    replace ((b :: q' ++ [a]) ++ [i]) with ((b :: q') ++ [a; i]) by (cbn; now rewrite <- app_assoc).
    apply links_snoc; [|now apply aget_upd_eq].
    eapply links_ext; [|exact L]. intros p Hp. apply aget_upd_ne; [lia|].
    intros ->.
    assert (Hr : In p (b :: q')).
    { change (b :: q' ++ [p]) with ((b :: q') ++ [p]) in Hp. rewrite removelast_last in Hp. exact Hp. }
    change (b :: (q' ++ [p]) ++ [i]) with (((b :: q') ++ [p]) ++ [i]) in ND.
    rewrite <- app_assoc in ND. apply NoDup_remove_2 in ND. apply ND, in_or_app. now left.
Qed.
Lemma chain_other : forall n f l q j x n', chain n f l q -> ~ In j q -> aset n j x = Ok n' -> chain n' f l q.
Proof.
  intros n f l q j x n' C NI E. apply aset_Ok_inv in E as [B ->].
  eapply chain_ext; [|exact C]. intros p Hp. apply aget_upd_ne; [lia|]. intros ->. apply in_removelast in Hp. easy.
Qed.
Lemma chain_last_in : forall n f l q, chain n f l q -> q <> [] -> In l q /\ In f q.
Proof.
  intros n f l [|a q] C Q; [easy|]. cbn [chain] in C. destruct C as (-> & -> & _). split; [|now left].
  destruct (exists_last' _ (a :: q) Q) as (q' & b & E). rewrite E, last_app1. apply in_or_app. right. now left.
Qed.

Section Div.
Variables (ndim : nat) (ps : list opart).

(** The child of particle [p] in a cell with centre [rc]. *)
Definition kid_of (rc : vec) (p : Z) : Z :=
  match aget ps p with Ok x => child_of ndim rc (op_r x) | _ => 0 end.
Definition is_kid (rc : vec) (k p : Z) : bool := kid_of rc p =? k.
Definition kids_of (rc : vec) (k : Z) (q : list Z) : list Z := filter (is_kid rc k) q.

Lemma child_range : forall rc r, 0 <= child_of ndim rc r < 8.
Proof.
  intros. unfold child_of. destruct (rltb _ _), (1 <? ndim)%nat, (ndim =? 3)%nat; repeat destruct (rltb _ _); lia.
Qed.
Lemma kid_range : forall rc p, 0 <= kid_of rc p < 8.
Proof. intros. unfold kid_of. destruct (aget ps p); try lia. apply child_range. Qed.

Lemma kids_snoc : forall rc k q i, kids_of rc k (q ++ [i]) = kids_of rc k q ++ (if is_kid rc k i then [i] else []).
Proof. intros. unfold kids_of. rewrite filter_app. cbn [filter]. reflexivity. Qed.
Lemma kids_in : forall rc k q p, In p (kids_of rc k q) <-> In p q /\ kid_of rc p = k.
Proof. intros. unfold kids_of. rewrite filter_In. unfold is_kid. rewrite Z.eqb_eq. easy. Qed.

(** The child [k] at [base+k] holds its part of [q]; [geo] is what is not changed. *)
Definition geo (c : ocell) := (o_copen c, o_cnext c, o_level c, (o_rc c, o_min c, o_max c)).
Definition kid_state (rc : vec) (base : Z) (g : Z -> ocell) (cells : list ocell) (inext : list Z) (q : list Z) : Prop :=
  forall k, 0 <= k < 8 -> exists ch, aget cells (base + k) = Ok ch /\ geo ch = geo (g k) /\
    chain inext (o_ifirst ch) (o_ilast ch) (kids_of rc k q) /\ o_N ch = zlen (kids_of rc k q).

Definition okp (inext : list Z) (p : Z) : Prop := 0 <= p < zlen ps /\ 0 <= p < zlen inext.

Lemma NoDup_kids : forall rc k q, NoDup q -> NoDup (kids_of rc k q).
Proof. intros. now apply NoDup_filter. Qed.

Lemma distribute_ok : forall rs i dn cells inext fuel base g rc ilast,
  (length rs < fuel)%nat -> NoDup (dn ++ i :: rs) -> links inext (i :: rs) -> ilast = List.last (i :: rs) (-1) ->
  (forall p, In p (dn ++ i :: rs) -> okp inext p) ->
  kid_state rc base g cells inext dn ->
  exists cells' inext',
    distribute ndim ps fuel base ilast rc i cells inext = Ok (cells', inext') /\
    zlen cells' = zlen cells /\ zlen inext' = zlen inext /\
    kid_state rc base g cells' inext' (dn ++ i :: rs) /\
    (forall d, ~ (base <= d < base + 8) -> aget cells' d = aget cells d) /\
    (forall p, ~ In p (dn ++ i :: rs) -> aget inext' p = aget inext p).
Proof.
  induction rs as [|j rs IH]; intros i dn cells inext fuel base g rc ilast F ND L EL OKP K;
  (destruct fuel as [|fuel]; [cbn [length] in F; lia|]); cbn [distribute].
  all: assert (OKi : okp inext i) by (apply OKP, in_or_app; right; now left).
  all: destruct (Z.eqb_spec i (-1)) as [?|_]; [unfold okp in OKi; lia|].
  all: destruct (aget_in ps i) as [p Ep]; [apply OKi|]; rewrite Ep; cbn [bind].
  all: assert (EK : child_of ndim rc (op_r p) = kid_of rc i) by (unfold kid_of; now rewrite Ep).
  all: rewrite EK; pose proof (kid_range rc i) as KR.
  all: destruct (K (kid_of rc i) KR) as (ch & Ech & Gch & Cch & Nch); rewrite Ech; cbn [bind].
  all: assert (Ndn : ~ In i dn) by (apply NoDup_remove_2 in ND; intros X; apply ND, in_or_app; now left).
  all: assert (NDdn : NoDup (dn ++ [i])) by
    (eapply NoDup_app_l; rewrite <- app_assoc; exact ND).
  (* the new state after this particle *)
  all: set (q := kids_of rc (kid_of rc i) dn) in *.
  all: assert (NDq : NoDup (q ++ [i])) by
    (unfold q; replace [i] with (if is_kid rc (kid_of rc i) i then [i] else []) by (unfold is_kid; now rewrite Z.eqb_refl);
     rewrite <- kids_snoc; now apply NoDup_kids).
  all: assert (INq : forall a, In a q -> In a dn) by (intros a Ha; eapply kids_in; exact Ha).
  all: assert (STEP : exists ch1 inext1,
    (let! (ch0, inext0) := (if o_ifirst ch =? -1 then Ok (set_ifirst i ch, inext)
           else let! inext0 := aset inext (o_ilast ch) i in Ok (ch, inext0)) in Ok (ch0, inext0)) = Ok (ch1, inext1) /\
    zlen inext1 = zlen inext /\ geo ch1 = geo ch /\ o_N ch1 = o_N ch /\
    chain inext1 (o_ifirst ch1) i (q ++ [i]) /\
    (forall p, ~ In p dn -> aget inext1 p = aget inext p) /\
    (forall k, 0 <= k < 8 -> k <> kid_of rc i -> forall f l, chain inext f l (kids_of rc k dn) -> chain inext1 f l (kids_of rc k dn))).
  1, 3: (destruct (Z.eqb_spec (o_ifirst ch) (-1)) as [E1|E1];
    [ destruct q as [|a q0];
      [ eexists; eexists; cbn [bind]; split; [reflexivity|]; split; [easy|]; split; [easy|]; split; [easy|];
        split; [cbn; auto|]; split; [easy|]; auto
      | exfalso; cbn [chain] in Cch; destruct Cch as (Ca & _);
        assert (In a dn) by (apply INq; now left);
        assert (okp inext a) by (apply OKP, in_or_app; now left); unfold okp in *; lia ]
    | assert (Qne : q <> []) by (intros Q; rewrite Q in Cch; cbn in Cch; lia);
      destruct (chain_last_in _ _ _ _ Cch Qne) as [Il _];
      assert (Id : In (o_ilast ch) dn) by (eapply kids_in; exact Il);
      assert (Ol : okp inext (o_ilast ch)) by (apply OKP, in_or_app; now left);
      destruct (aset_spec inext (o_ilast ch) i) as (inext1 & Es & Zl & _ & Oth); [apply Ol|];
      rewrite Es; cbn [bind]; eexists; eexists; split; [reflexivity|]; split; [easy|]; split; [easy|]; split; [easy|];
      split; [eapply chain_snoc; eauto|]; split; [intros p' Hp'; apply Oth; intros ->; easy|];
      intros k Kk Kn f l Cf; eapply chain_other; [exact Cf| |exact Es]; rewrite kids_in; intros [_ X];
      assert (kid_of rc (o_ilast ch) = kid_of rc i) by (eapply kids_in; exact Il); congruence ]).
  all: destruct STEP as (ch1 & inext1 & Es & Zl & Gc & Nc & Cc & Oth & Ck).
  all: assert (Es' : (if o_ifirst ch =? -1 then Ok (set_ifirst i ch, inext)
           else let! inext0 := aset inext (o_ilast ch) i in Ok (ch, inext0)) = Ok (ch1, inext1)) by
    (destruct (o_ifirst ch =? -1); [exact Es|]; destruct (aset inext (o_ilast ch) i); cbn [bind] in *; congruence).
  all: rewrite Es'; cbn [bind]; clear Es Es'.
  all: pose proof (aget_Ok_inv _ _ _ Ech) as [Bc _].
  all: destruct (aset_spec cells (base + kid_of rc i) (set_N (o_N ch1 + 1) (set_ilast i ch1))) as (cells1 & Ec & Zc & Gnew & Gold); [exact Bc|].
  all: rewrite Ec; cbn [bind].
  all: assert (K1 : kid_state rc base g cells1 inext1 (dn ++ [i])).
  1, 3: (intros k Hk; rewrite kids_snoc; unfold is_kid; destruct (Z.eqb_spec (kid_of rc i) k) as [<-|Kn];
    [ exists (set_N (o_N ch1 + 1) (set_ilast i ch1)); split; [exact Gnew|]; split; [rewrite <- Gch, <- Gc; reflexivity|];
      split; [exact Cc|]; cbn [o_N set_N]; fold q; rewrite Nc, Nch; unfold zlen; rewrite app_length; cbn [length]; lia
    | destruct (K k Hk) as (ch' & E' & G' & C' & N'); exists ch'; rewrite app_nil_r; split;
      [rewrite Gold by lia; exact E'|]; split; [exact G'|]; split; [apply Ck; auto|exact N'] ]).
  - (* last *)
    cbn [List.last] in EL. subst ilast. rewrite Z.eqb_refl.
    exists cells1, inext1. split; [reflexivity|]. split; [exact Zc|]. split; [exact Zl|]. split; [exact K1|].
    split; [intros d Hd; apply Gold; lia|]. intros p' Hp'. apply Oth. intros X. apply Hp', in_or_app. now left.
  - destruct L as [L1 L2].
    assert (INl : In ilast (j :: rs)).
    { subst ilast. change (List.last (i :: j :: rs) (-1)) with (List.last (j :: rs) (-1)).
      destruct (exists_last' _ (j :: rs)) as (q' & b & Eq); [easy|]. rewrite Eq, last_app1. apply in_or_app. right. now left. }
    destruct (Z.eqb_spec i ilast) as [->|_].
    { exfalso. apply NoDup_remove_2 in ND. apply ND, in_or_app. now right. }
    rewrite (Oth i Ndn), L1. cbn [bind].
    assert (EA : (dn ++ [i]) ++ j :: rs = dn ++ i :: j :: rs) by (now rewrite <- app_assoc).
    destruct (IH j (dn ++ [i]) cells1 inext1 fuel base g rc ilast) as (cells' & inext' & R1 & R2 & R3 & R4 & R5 & R6).
    + cbn [length] in F; lia.
    + now rewrite EA.
    + eapply links_ext; [|exact L2]. intros x Hx. apply Oth. apply in_removelast in Hx. intros X.
      clear - ND Hx X. induction dn as [|a dn IHd]; [easy|]. cbn [app] in ND. inversion ND; subst.
      destruct X as [->|X]; [|auto]. apply H1, in_or_app. right. now right.
    + subst ilast. reflexivity.
    + rewrite EA. intros x Hx. unfold okp. rewrite Zl. apply (OKP x Hx).
    + exact K1.
    + rewrite EA in *. exists cells', inext'. split; [exact R1|]. split; [lia|]. split; [lia|]. split; [exact R4|].
      split.
      * intros d Hd. rewrite R5 by easy. apply Gold. lia.
      * intros x Hx. rewrite R6 by easy. apply Oth. intros X. apply Hx, in_or_app. now left.
Qed.

Lemma make_children_ok : forall n k base sz lv cell cells, 0 <= k -> 0 <= base -> base + k + Z.of_nat n <= zlen cells ->
  exists cells', make_children ndim n k base sz lv cell cells = Ok cells' /\ zlen cells' = zlen cells /\
    (forall j, k <= j < k + Z.of_nat n -> exists old, aget cells (base + j) = Ok old /\ aget cells' (base + j) = Ok (new_child ndim sz lv cell j old)) /\
    (forall d, ~ (base + k <= d < base + k + Z.of_nat n) -> aget cells' d = aget cells d).
Proof.
  induction n; intros k base sz lv cell cells K B Z.
  - exists cells. cbn. split; [easy|]. split; [easy|]. split; [intros; lia|easy].
  - cbn [make_children]. destruct (aget_in cells (base + k)) as [old Eo]; [lia|]. rewrite Eo. cbn [bind].
    destruct (aset_spec cells (base + k) (new_child ndim sz lv cell k old)) as (c1 & E1 & Z1 & G1 & O1); [lia|].
    rewrite E1. cbn [bind].
    destruct (IHn (k + 1) base sz lv cell c1) as (c2 & E2 & Z2 & G2 & O2); [lia|lia|lia|].
    exists c2. split; [exact E2|]. split; [lia|]. split.
    + intros j Hj. destruct (Z.eq_dec j k) as [->|].
      * exists old. split; [exact Eo|]. rewrite O2 by lia. exact G1.
      * destruct (G2 j) as (o2 & Ea & Eb); [lia|]. exists o2. split; [|exact Eb]. rewrite O1 in Ea by lia. exact Ea.
    + intros d Hd. rewrite O2 by lia. apply O1. lia.
Qed.
Lemma link_children_ok : forall n b cells, 0 <= b -> b + Z.of_nat n <= zlen cells ->
  exists cells', link_children n b cells = Ok cells' /\ zlen cells' = zlen cells /\
    (forall j, b <= j < b + Z.of_nat n -> exists old, aget cells j = Ok old /\ aget cells' j = Ok (set_cnext (j + 1) old)) /\
    (forall d, ~ (b <= d < b + Z.of_nat n) -> aget cells' d = aget cells d).
Proof.
  induction n; intros b cells B Z.
  - exists cells. cbn. split; [easy|]. split; [easy|]. split; [intros; lia|easy].
  - cbn [link_children]. destruct (aget_in cells b) as [old Eo]; [lia|]. rewrite Eo. cbn [bind].
    destruct (aset_spec cells b (set_cnext (b + 1) old)) as (c1 & E1 & Z1 & G1 & O1); [lia|].
    rewrite E1. cbn [bind].
    destruct (IHn (b + 1) c1) as (c2 & E2 & Z2 & G2 & O2); [lia|lia|].
    exists c2. split; [exact E2|]. split; [lia|]. split.
    + intros j Hj. destruct (Z.eq_dec j b) as [->|].
      * exists old. split; [exact Eo|]. rewrite O2 by lia. exact G1.
      * destruct (G2 j) as (o2 & Ea & Eb); [lia|]. exists o2. split; [|exact Eb]. rewrite O1 in Ea by lia. exact Ea.
    + intros d Hd. rewrite O2 by lia. apply O1. lia.
Qed.

(** A cell that has not been used yet. *)
Definition pristine (c : ocell) : Prop := o_N c = 0 /\ o_ifirst c = -1 /\ o_ilast c = -1 /\ o_copen c = -1.

(** The result of dividing cell [c] whose particles are [q]. *)
Definition divided (sz : R) (lv base c : Z) (cell : ocell) (q : list Z) (cells : list ocell) (inext : list Z)
  (cells' : list ocell) (inext' : list Z) : Prop :=
  zlen cells' = zlen cells /\ zlen inext' = zlen inext /\
  aget cells' c = Ok (set_copen base cell) /\
  (forall k, 0 <= k < 8 -> exists old ch, aget cells (base + k) = Ok old /\ aget cells' (base + k) = Ok ch /\
     chain inext' (o_ifirst ch) (o_ilast ch) (kids_of (o_rc cell) k q) /\ o_N ch = zlen (kids_of (o_rc cell) k q) /\
     geo ch = geo (set_cnext (if k =? 7 then o_cnext cell else base + k + 1) (new_child ndim sz lv cell k old)) /\ o_copen ch = -1) /\
  (forall d, d <> c -> ~ (base <= d < base + 8) -> aget cells' d = aget cells d) /\
  (forall p, ~ In p q -> aget inext' p = aget inext p).

Lemma geo_copen : forall a b, geo a = geo b -> o_copen a = o_copen b.
Proof. intros a b H. unfold geo in H. congruence. Qed.

Lemma divide_ok : forall sz lv base c cell q cells inext,
  aget cells c = Ok cell -> c < base -> base + 8 <= zlen cells ->
  (forall k, 0 <= k < 8 -> exists old, aget cells (base + k) = Ok old /\ pristine old) ->
  NoDup q -> (forall p, In p q -> okp inext p) -> chain inext (o_ifirst cell) (o_ilast cell) q ->
  exists cells' inext', divide ndim ps sz lv base c cells inext = Ok (cells', inext') /\
    divided sz lv base c cell q cells inext cells' inext'.
Proof.
  intros sz lv base c cell q cells inext Ec Lt B Pr ND OKQ Ch.
  destruct (aget_Ok_inv _ _ _ Ec) as [Bc _].
  unfold divide. rewrite Ec. cbn [bind].
  destruct (make_children_ok (Z.to_nat Noctchild) 0 base sz lv cell cells) as (c1 & E1 & Z1 & G1 & O1); [lia|lia|unfold Noctchild; lia|].
  rewrite E1. cbn [bind]. replace (Z.of_nat (Z.to_nat Noctchild)) with 8 in * by reflexivity.
  rewrite O1 by lia. rewrite Ec. cbn [bind].
  (* the children before the distribution *)
  assert (W1 : forall k, 0 <= k < 8 -> exists old, aget cells (base + k) = Ok old /\ aget c1 (base + k) = Ok (new_child ndim sz lv cell k old) /\ pristine old).
  { intros k Hk. destruct (G1 k) as (old & Ea & Eb); [lia|]. exists old. split; [easy|]. split; [easy|].
    destruct (Pr k Hk) as (o2 & Eo & Po). congruence. }
  set (g := fun k => match aget c1 (base + k) with Ok x => x | _ => cell end).
  assert (DIST : exists c2 i2, distribute ndim ps (S (length inext)) base (o_ilast cell) (o_rc cell) (o_ifirst cell) c1 inext = Ok (c2, i2) /\
    zlen c2 = zlen c1 /\ zlen i2 = zlen inext /\ kid_state (o_rc cell) base g c2 i2 q /\
    (forall d, ~ (base <= d < base + 8) -> aget c2 d = aget c1 d) /\
    (forall p, ~ In p q -> aget i2 p = aget inext p)).
  { assert (K0 : kid_state (o_rc cell) base g c1 inext []).
    { intros k Hk. destruct (W1 k Hk) as (old & Ea & Eb & (P1 & P2 & P3 & P4)). eexists. split; [exact Eb|].
      split; [unfold g; now rewrite Eb|]. cbn. auto. }
    destruct q as [|i rs].
    - cbn [chain] in Ch. destruct Ch as [-> ->]. cbn [distribute Z.eqb Pos.eqb].
      exists c1, inext. split; [reflexivity|]. split; [easy|]. split; [easy|]. split; [exact K0|]. split; easy.
    - cbn [chain] in Ch. destruct Ch as (-> & -> & L).
      destruct (distribute_ok rs i [] c1 inext (S (length inext)) base g (o_rc cell) (List.last (i :: rs) (-1))) as (c2 & i2 & R); auto.
      + assert (length (i :: rs) <= length inext)%nat.
        { apply nodup_bound; [exact ND|]. intros p Hp. destruct (OKQ p Hp) as [_ X]. unfold zlen in X. lia. }
        cbn [length] in *. lia.
      + exists c2, i2. exact R. }
  destruct DIST as (c2 & i2 & E2 & Z2 & Zi2 & K2 & O2 & I2). rewrite E2. cbn [bind].
  rewrite O2 by lia. rewrite O1 by lia. rewrite Ec. cbn [bind].
  destruct (aset_spec c2 c (set_copen base cell)) as (c3 & E3 & Z3 & G3 & O3); [lia|]. rewrite E3. cbn [bind].
  destruct (link_children_ok (Z.to_nat Noctchild) base c3) as (c4 & E4 & Z4 & G4 & O4); [lia|unfold Noctchild; lia|].
  rewrite E4. cbn [bind]. replace (Z.of_nat (Z.to_nat Noctchild)) with 8 in * by reflexivity.
  replace (base + (Noctchild - 1)) with (base + 7) by (unfold Noctchild; lia).
  destruct (G4 (base + 7)) as (o7 & Eo7 & En7); [lia|]. rewrite En7. cbn [bind].
  rewrite O4 by lia. rewrite G3. cbn [bind].
  destruct (aset_spec c4 (base + 7) (set_cnext (o_cnext (set_copen base cell)) (set_cnext (base + 7 + 1) o7))) as (c5 & E5 & Z5 & G5 & O5); [lia|].
  rewrite E5. cbn [bind]. exists c5, i2. split; [reflexivity|].
  split; [lia|]. split; [lia|]. split; [rewrite O5 by lia; rewrite O4 by lia; exact G3|]. split; [|split].
  - intros k Hk. destruct (W1 k Hk) as (old & Ea & Eb & Po).
    destruct (K2 k Hk) as (ch & Ech & Gch & Cch & Nch).
    assert (Gg : g k = new_child ndim sz lv cell k old) by (unfold g; now rewrite Eb). rewrite Gg in Gch.
    destruct (G4 (base + k)) as (o4 & Eo4 & En4); [lia|].
    rewrite O3 in Eo4 by lia. assert (o4 = ch) by congruence. subst o4.
    destruct (Z.eqb_spec k 7) as [->|K7].
    + assert (o7 = ch) by (rewrite O3 in Eo7 by lia; congruence). subst o7.
      exists old. eexists. split; [exact Ea|]. split; [exact G5|]. cbn [o_ifirst o_ilast o_N set_cnext set_copen o_cnext].
      split; [exact Cch|]. split; [exact Nch|]. split.
      * clear - Gch. unfold geo in *. cbn in *. congruence.
      * cbn. rewrite (geo_copen _ _ Gch). apply Po.
    + exists old. eexists. split; [exact Ea|]. split; [rewrite O5 by lia; exact En4|].
      cbn [o_ifirst o_ilast o_N set_cnext set_copen o_cnext].
      split; [exact Cch|]. split; [exact Nch|]. split.
      * clear - Gch. unfold geo in *. cbn in *. congruence.
      * cbn. rewrite (geo_copen _ _ Gch). apply Po.
  - intros d Hd Hn. rewrite O5 by lia. rewrite O4 by lia. rewrite O3 by easy. rewrite O2 by lia. apply O1. lia.
  - exact I2.
Qed.
End Div.
