From Verif Require Import Prelude L_Prelude Vec S_Tree L_Tree M_Walk S_Box M_Box L_Box M_Periodic S_Periodic M_Prune S_Prune L_Prune L_Prune4 M_Export S_Export L_Export L_Export2.
From Coq Require Import Reals.
Local Open Scope Z_scope.

(** ** The loops over processes *)

Lemma aget_lt : forall A (l : list A) i, 0 <= i < zlen l -> exists x, aget l i = Ok x.
Proof. intros. now apply aget_in. Qed.
Lemma aget_app_r : forall A (l m : list A) i, zlen l <= i -> aget (l ++ m) i = aget m (i - zlen l).
Proof.
  intros A l m i H. unfold aget, zlen in *.
  destruct (Z.ltb_spec i 0); [lia|]. destruct (Z.ltb_spec (i - Z.of_nat (length l)) 0); [lia|].
  rewrite nth_error_app2 by lia. now replace (Z.to_nat i - length l)%nat with (Z.to_nat (i - Z.of_nat (length l))) by lia.
Qed.

Section Loops.
Variables (ndim : nat) (simbox : dombox) (kernrange : R) (mac : MAC_Type) (macerror : R) (cm : Z -> R) (rank : Z).

(** [e'] is [e] with [x] appended to entry [i] when [g i]. *)
Definition grown {A} (n : Z) (plus : A -> A) (g : Z -> bool) (e e' : list A) : Prop :=
  zlen e' = zlen e /\ forall i x, 0 <= i < n -> aget e i = Ok x -> aget e' i = Ok (if g i then plus x else x).

Section Grav.
Variable a : acell.
(** One answer of the walk of process [j]. *)
Variable Q : Z -> option (list pcell) -> Prop.
Definition walk_ok (j : Z) (tr : list pcell * Z) : Prop :=
  j <> rank -> forall gl, exists ks r, ComputeDistantGravityInteractionList ndim simbox kernrange mac macerror cm (fst tr) (snd tr) (a_cell a) (a_amin a) (a_macf a) gl = Ok (gl ++ ks, r) /\
    ((r = 0 /\ Q j (Some ks)) \/ (r = -1 /\ Q j None)).
Definition ans_ok (j : Z) (o : option (list pcell)) : Prop := if j =? rank then o = Some [] else Q j o.

Lemma grav_procs_ok : forall todo j gl exps np n,
  0 <= j -> j + zlen todo = n -> zlen exps = n -> zlen np = n ->
  (forall i tr, aget todo i = Ok tr -> walk_ok (j + i) tr) ->
  exists row exps' np',
    grav_procs ndim simbox kernrange mac macerror cm rank todo j a (gl, exps, np) = Ok (gl ++ concat (map kept_cells row), exps', np') /\
    zlen row = zlen todo /\ (forall i o, aget row i = Ok o -> ans_ok (j + i) o) /\
    grown n (fun e => e ++ [a_id a]) (fun i => match aget row (i - j) with Ok o => is_none o | _ => false end) exps exps' /\
    grown n (fun x => x + a_Nactive a) (fun i => match aget row (i - j) with Ok o => is_none o | _ => false end) np np'.
Proof.
  induction todo as [|[cells Nc] todo IH]; intros j gl exps np n Hj Hn He Hp HW.
  - exists [], exps, np. cbn [grav_procs map concat]. rewrite app_nil_r. split; [reflexivity|]. split; [reflexivity|].
    split. { intros i o H. apply aget_Ok_inv in H. cbn in H. lia. }
    assert (F : forall i, aget (@nil (option (list pcell))) i = UB). { intros i. unfold aget. destruct (i <? 0); [reflexivity|]. destruct (Z.to_nat i); reflexivity. }
    split; (split; [reflexivity|]; intros i x _ E; now rewrite F).
  - assert (L : zlen ((cells, Nc) :: todo) = 1 + zlen todo) by (unfold zlen; cbn [length]; lia).
    assert (HW' : forall i tr, aget todo i = Ok tr -> walk_ok (j + 1 + i) tr).
    { intros i tr E. replace (j + 1 + i) with (j + (i + 1)) by lia. apply HW. pose proof (aget_Ok_inv _ _ _ E).
      change ((cells, Nc) :: todo) with ([(cells, Nc)] ++ todo). rewrite aget_app_r by (cbn; lia). change (zlen [(cells, Nc)]) with 1. now replace (i + 1 - 1) with i by lia. }
    assert (ROW : forall (o : option (list pcell)) row i, j <= i -> aget (o :: row) (i - j) = if i =? j then Ok o else aget row (i - (j + 1))).
    { intros o row i Hi. destruct (Z.eqb_spec i j) as [->|].
      - now replace (j - j) with 0 by lia.
      - change (o :: row) with ([o] ++ row). rewrite aget_app_r by (cbn; lia). change (zlen [o]) with 1. f_equal. lia. }
    assert (NEG : forall (row : list (option (list pcell))) i, i < 0 -> aget row i = UB) by (intros row i Hi; unfold aget; destruct (Z.ltb_spec i 0); [reflexivity|lia]).
    assert (DONE : forall o row gl1 exps' np' e0 p0 ,
      grown n (fun e => e ++ [a_id a]) (fun i => match aget row (i - (j + 1)) with Ok o => is_none o | _ => false end) e0 exps' ->
      grown n (fun x => x + a_Nactive a) (fun i => match aget row (i - (j + 1)) with Ok o => is_none o | _ => false end) p0 np' ->
      grown n (fun e => e ++ [a_id a]) (fun i => (i =? j) && is_none o)%bool exps e0 ->
      grown n (fun x => x + a_Nactive a) (fun i => (i =? j) && is_none o)%bool np p0 ->
      zlen row = zlen todo -> (forall i o, aget row i = Ok o -> ans_ok (j + 1 + i) o) -> ans_ok j o ->
      gl1 = gl ++ kept_cells o ->
      exists row' exps'0 np'0,
        Ok (gl1 ++ concat (map kept_cells row), exps', np') = Ok (gl ++ concat (map kept_cells row'), exps'0, np'0) /\
        zlen row' = zlen ((cells, Nc) :: todo) /\ (forall i o, aget row' i = Ok o -> ans_ok (j + i) o) /\
        grown n (fun e => e ++ [a_id a]) (fun i => match aget row' (i - j) with Ok o => is_none o | _ => false end) exps exps'0 /\
        grown n (fun x => x + a_Nactive a) (fun i => match aget row' (i - j) with Ok o => is_none o | _ => false end) np np'0).
    { intros o row gl1 exps' np' e0 p0 [G1 G1'] [G2 G2'] [G3 G3'] [G4 G4'] R1 R2 R3 ->.
      exists (o :: row), exps', np'. split; [cbn [map concat]; now rewrite app_assoc|]. split; [unfold zlen in *; cbn [length]; lia|].
      split.
      { intros i x E. pose proof (aget_Ok_inv _ _ _ E) as B. replace i with (i + j - j) in E by lia. rewrite ROW in E by lia.
        destruct (Z.eqb_spec (i + j) j).
        - replace (j + i) with j by lia. congruence.
        - replace (j + i) with (j + 1 + (i - 1)) by lia. apply R2. replace (i - 1) with (i + j - (j + 1)) by lia. exact E. }
      assert (C : forall (B : Type) (plus : B -> B) x i, (if match aget (o :: row) (i - j) with Ok o => is_none o | _ => false end then plus x else x) =
        (if match aget row (i - (j + 1)) with Ok o => is_none o | _ => false end then plus (if ((i =? j) && is_none o)%bool then plus x else x) else if ((i =? j) && is_none o)%bool then plus x else x)).
      { intros B plus x i. destruct (Z_lt_ge_dec i j).
        - rewrite !NEG by lia. destruct (Z.eqb_spec i j); [lia|]. reflexivity.
        - rewrite ROW by lia. destruct (Z.eqb_spec i j); [|reflexivity]. subst i. rewrite (NEG row) by lia. reflexivity. }
      split; (split; [congruence|]).
      - intros i x Hi E. etransitivity; [exact (G1' i _ Hi (G3' i x Hi E))|]. f_equal. symmetry. apply (C _ (fun e => e ++ [a_id a])).
      - intros i x Hi E. etransitivity; [exact (G2' i _ Hi (G4' i x Hi E))|]. f_equal. symmetry. apply (C _ (fun x => x + a_Nactive a)). }
    assert (GSAME : forall (B : Type) (plus : B -> B) (g : Z -> bool) (e : list B), (forall i, g i = false) -> grown n plus g e e).
    { intros B plus g e Hg. split; [reflexivity|]. intros i x _ E. now rewrite Hg. }
    cbn [grav_procs]. destruct (Z.eqb_spec j rank) as [Er|Er].
    + destruct (IH (j + 1) gl exps np n) as (row & exps' & np' & E & R1 & R2 & R3 & R4); try lia; auto. rewrite E.
      eapply (DONE (Some [])); eauto.
      * apply GSAME. intros i. now rewrite andb_false_r.
      * apply GSAME. intros i. now rewrite andb_false_r.
      * unfold ans_ok. rewrite (proj2 (Z.eqb_eq j rank) Er). reflexivity.
      * cbn. now rewrite app_nil_r.
    + specialize (HW 0 (cells, Nc) eq_refl). rewrite Z.add_0_r in HW. destruct (HW Er gl) as (ks & r & E & Hr). cbn [fst snd] in E. rewrite E. cbn [bind].
      destruct Hr as [[-> HQ]|[-> HQ]].
      * change (0 =? -1) with false. cbn iota. destruct (IH (j + 1) (gl ++ ks) exps np n) as (row & exps' & np' & E' & R1 & R2 & R3 & R4); try lia; auto. rewrite E'.
        eapply (DONE (Some ks)); eauto.
        -- apply GSAME. intros i. now rewrite andb_false_r.
        -- apply GSAME. intros i. now rewrite andb_false_r.
        -- unfold ans_ok. now rewrite (proj2 (Z.eqb_neq j rank) Er).
      * change (-1 =? -1) with true. cbn iota.
        assert (zlen todo >= 0) by (unfold zlen; lia).
        destruct (aget_lt _ exps j) as (e & Ee); [lia|]. destruct (aget_lt _ np j) as (x & Ex); [lia|].
        rewrite Ee. cbn [bind]. rewrite (aset_in exps) by lia. cbn [bind]. rewrite Ex. cbn [bind]. rewrite (aset_in np) by lia. cbn [bind].
        rewrite firstn_app, Nat.sub_diag, firstn_O, firstn_all, app_nil_r.
        destruct (IH (j + 1) gl (upd exps (Z.to_nat j) (e ++ [a_id a])) (upd np (Z.to_nat j) (x + a_Nactive a)) n) as (row & exps' & np' & E' & R1 & R2 & R3 & R4); try lia; auto.
        { now rewrite zlen_upd. } { now rewrite zlen_upd. }
        rewrite E'. eapply (DONE None); eauto.
        -- split; [apply zlen_upd|]. intros i y Hi Hy. cbn [is_none]. rewrite andb_true_r. destruct (Z.eqb_spec i j) as [->|].
           ++ rewrite aget_upd_eq by lia. congruence.
           ++ rewrite aget_upd_ne by lia. exact Hy.
        -- split; [apply zlen_upd|]. intros i y Hi Hy. cbn [is_none]. rewrite andb_true_r. destruct (Z.eqb_spec i j) as [->|].
           ++ rewrite aget_upd_eq by lia. congruence.
           ++ rewrite aget_upd_ne by lia. exact Hy.
        -- unfold ans_ok. now rewrite (proj2 (Z.eqb_neq j rank) Er).
        -- cbn. now rewrite app_nil_r.
Qed.
End Grav.

Section Hydro.
Variable a : acell.
Variable Q : Z -> bool -> Prop.
Definition hwalk_ok (j : Z) (tr : list pcell * Z) : Prop :=
  j <> rank -> exists r, ComputeHydroTreeCellOverlap ndim simbox kernrange (fst tr) (snd tr) (a_cell a) = Ok r /\ Q j r.
Definition hans_ok (j : Z) (o : bool) : Prop := if j =? rank then o = false else Q j o.

Lemma hydro_procs_ok : forall todo j exps np n,
  0 <= j -> j + zlen todo = n -> zlen exps = n -> zlen np = n ->
  (forall i tr, aget todo i = Ok tr -> hwalk_ok (j + i) tr) ->
  exists row exps' np',
    hydro_procs ndim simbox kernrange rank todo j a (exps, np) = Ok (exps', np') /\
    zlen row = zlen todo /\ (forall i o, aget row i = Ok o -> hans_ok (j + i) o) /\
    grown n (fun e => e ++ [a_id a]) (fun i => match aget row (i - j) with Ok o => o | _ => false end) exps exps' /\
    grown n (fun x => x + a_Nactive a) (fun i => match aget row (i - j) with Ok o => o | _ => false end) np np'.
Proof.
  induction todo as [|[cells Nc] todo IH]; intros j exps np n Hj Hn He Hp HW.
  - exists [], exps, np. cbn [hydro_procs]. split; [reflexivity|]. split; [reflexivity|].
    split. { intros i o H. apply aget_Ok_inv in H. cbn in H. lia. }
    assert (F : forall i, aget (@nil bool) i = UB). { intros i. unfold aget. destruct (i <? 0); [reflexivity|]. destruct (Z.to_nat i); reflexivity. }
    split; (split; [reflexivity|]; intros i x _ E; now rewrite F).
  - assert (L : zlen ((cells, Nc) :: todo) = 1 + zlen todo) by (unfold zlen; cbn [length]; lia).
    assert (HW' : forall i tr, aget todo i = Ok tr -> hwalk_ok (j + 1 + i) tr).
    { intros i tr E. replace (j + 1 + i) with (j + (i + 1)) by lia. apply HW. pose proof (aget_Ok_inv _ _ _ E).
      change ((cells, Nc) :: todo) with ([(cells, Nc)] ++ todo). rewrite aget_app_r by (cbn; lia). change (zlen [(cells, Nc)]) with 1. now replace (i + 1 - 1) with i by lia. }
    assert (ROW : forall (o : bool) row i, j <= i -> aget (o :: row) (i - j) = if i =? j then Ok o else aget row (i - (j + 1))).
    { intros o row i Hi. destruct (Z.eqb_spec i j) as [->|].
      - now replace (j - j) with 0 by lia.
      - change (o :: row) with ([o] ++ row). rewrite aget_app_r by (cbn; lia). change (zlen [o]) with 1. f_equal. lia. }
    assert (NEG : forall (row : list bool) i, i < 0 -> aget row i = UB) by (intros row i Hi; unfold aget; destruct (Z.ltb_spec i 0); [reflexivity|lia]).
    assert (DONE : forall o row exps' np' e0 p0 ,
      grown n (fun e => e ++ [a_id a]) (fun i => match aget row (i - (j + 1)) with Ok o => o | _ => false end) e0 exps' ->
      grown n (fun x => x + a_Nactive a) (fun i => match aget row (i - (j + 1)) with Ok o => o | _ => false end) p0 np' ->
      grown n (fun e => e ++ [a_id a]) (fun i => (i =? j) && o)%bool exps e0 ->
      grown n (fun x => x + a_Nactive a) (fun i => (i =? j) && o)%bool np p0 ->
      zlen row = zlen todo -> (forall i o, aget row i = Ok o -> hans_ok (j + 1 + i) o) -> hans_ok j o ->
      exists row' exps'0 np'0,
        Ok (exps', np') = Ok (exps'0, np'0) /\
        zlen row' = zlen ((cells, Nc) :: todo) /\ (forall i o, aget row' i = Ok o -> hans_ok (j + i) o) /\
        grown n (fun e => e ++ [a_id a]) (fun i => match aget row' (i - j) with Ok o => o | _ => false end) exps exps'0 /\
        grown n (fun x => x + a_Nactive a) (fun i => match aget row' (i - j) with Ok o => o | _ => false end) np np'0).
    { intros o row exps' np' e0 p0 [G1 G1'] [G2 G2'] [G3 G3'] [G4 G4'] R1 R2 R3.
      exists (o :: row), exps', np'. split; [reflexivity|]. split; [unfold zlen in *; cbn [length]; lia|].
      split.
      { intros i x E. pose proof (aget_Ok_inv _ _ _ E) as B. replace i with (i + j - j) in E by lia. rewrite ROW in E by lia.
        destruct (Z.eqb_spec (i + j) j).
        - replace (j + i) with j by lia. congruence.
        - replace (j + i) with (j + 1 + (i - 1)) by lia. apply R2. replace (i - 1) with (i + j - (j + 1)) by lia. exact E. }
      assert (C : forall (B : Type) (plus : B -> B) x i, (if match aget (o :: row) (i - j) with Ok o => o | _ => false end then plus x else x) =
        (if match aget row (i - (j + 1)) with Ok o => o | _ => false end then plus (if ((i =? j) && o)%bool then plus x else x) else if ((i =? j) && o)%bool then plus x else x)).
      { intros B plus x i. destruct (Z_lt_ge_dec i j).
        - rewrite !NEG by lia. destruct (Z.eqb_spec i j); [lia|]. reflexivity.
        - rewrite ROW by lia. destruct (Z.eqb_spec i j); [|reflexivity]. subst i. rewrite (NEG row) by lia. reflexivity. }
      split; (split; [congruence|]).
      - intros i x Hi E. etransitivity; [exact (G1' i _ Hi (G3' i x Hi E))|]. f_equal. symmetry. apply (C _ (fun e => e ++ [a_id a])).
      - intros i x Hi E. etransitivity; [exact (G2' i _ Hi (G4' i x Hi E))|]. f_equal. symmetry. apply (C _ (fun x => x + a_Nactive a)). }
    assert (GSAME : forall (B : Type) (plus : B -> B) (g : Z -> bool) (e : list B), (forall i, g i = false) -> grown n plus g e e).
    { intros B plus g e Hg. split; [reflexivity|]. intros i x _ E. now rewrite Hg. }
    cbn [hydro_procs]. destruct (Z.eqb_spec j rank) as [Er|Er].
    + destruct (IH (j + 1) exps np n) as (row & exps' & np' & E & R1 & R2 & R3 & R4); try lia; auto. rewrite E.
      eapply (DONE false); eauto.
      * apply GSAME. intros i. now rewrite andb_false_r.
      * apply GSAME. intros i. now rewrite andb_false_r.
      * unfold hans_ok. now rewrite (proj2 (Z.eqb_eq j rank) Er).
    + specialize (HW 0 (cells, Nc) eq_refl). rewrite Z.add_0_r in HW. destruct (HW Er) as (r & E & HQ). cbn [fst snd] in E. rewrite E. cbn [bind].
      destruct r.
      * assert (zlen todo >= 0) by (unfold zlen; lia).
        destruct (aget_lt _ exps j) as (e & Ee); [lia|]. destruct (aget_lt _ np j) as (x & Ex); [lia|].
        rewrite Ee. cbn [bind]. rewrite (aset_in exps) by lia. cbn [bind]. rewrite Ex. cbn [bind]. rewrite (aset_in np) by lia. cbn [bind].
        destruct (IH (j + 1) (upd exps (Z.to_nat j) (e ++ [a_id a])) (upd np (Z.to_nat j) (x + a_Nactive a)) n) as (row & exps' & np' & E' & R1 & R2 & R3 & R4); try lia; auto.
        { now rewrite zlen_upd. } { now rewrite zlen_upd. }
        rewrite E'. eapply (DONE true); eauto.
        -- split; [apply zlen_upd|]. intros i y Hi Hy. rewrite andb_true_r. destruct (Z.eqb_spec i j) as [->|].
           ++ rewrite aget_upd_eq by lia. congruence.
           ++ rewrite aget_upd_ne by lia. exact Hy.
        -- split; [apply zlen_upd|]. intros i y Hi Hy. rewrite andb_true_r. destruct (Z.eqb_spec i j) as [->|].
           ++ rewrite aget_upd_eq by lia. congruence.
           ++ rewrite aget_upd_ne by lia. exact Hy.
        -- unfold hans_ok. now rewrite (proj2 (Z.eqb_neq j rank) Er).
      * destruct (IH (j + 1) exps np n) as (row & exps' & np' & E' & R1 & R2 & R3 & R4); try lia; auto. rewrite E'.
        eapply (DONE false); eauto.
        -- apply GSAME. intros i. now rewrite andb_false_r.
        -- apply GSAME. intros i. now rewrite andb_false_r.
        -- unfold hans_ok. now rewrite (proj2 (Z.eqb_neq j rank) Er).
Qed.
End Hydro.

(** ** All active cells *)

Lemma grav_cells_ok : forall (Q : acell -> Z -> option (list pcell) -> Prop) trees cells exps np n,
  zlen trees = n -> zlen exps = n -> zlen np = n ->
  (forall a i tr, In a cells -> aget trees i = Ok tr -> walk_ok a (Q a) i tr) ->
  exists M exps' np',
    grav_cells ndim simbox kernrange mac macerror cm trees rank cells (exps, np) =
      Ok (map (fun row => concat (map kept_cells row)) M, exps', np') /\
    Forall2 (fun a row => zlen row = n /\ forall i o, aget row i = Ok o -> ans_ok (Q a) i o) cells M /\
    zlen exps' = n /\ zlen np' = n /\
    (forall i e x, 0 <= i < n -> aget exps i = Ok e -> aget np i = Ok x ->
       let sent := marked (fun row => match aget row i with Ok o => is_none o | _ => false end) cells M in
       aget exps' i = Ok (e ++ map a_id sent) /\ aget np' i = Ok (x + total (map a_Nactive sent))).
Proof.
  intros Q trees. induction cells as [|a cells IH]; intros exps np n HT He Hp HW.
  - exists [], exps, np. cbn [grav_cells map]. split; [reflexivity|]. split; [constructor|]. split; [exact He|]. split; [exact Hp|].
    intros i e x Hi E1 E2. cbn. rewrite app_nil_r, Z.add_0_r. auto.
  - cbn [grav_cells fst snd].
    destruct (grav_procs_ok a (Q a) trees 0 [] exps np n) as (row & e1 & p1 & E & R1 & R2 & [R3 R3'] & [R4 R4']); try lia.
    { intros i tr E. apply HW; [now left|exact E]. }
    rewrite E. cbn [bind].
    destruct (IH e1 p1 n) as (M & e2 & p2 & E' & S1 & S2 & S3 & S4); try congruence.
    { intros; apply HW; [now right|easy]. }
    rewrite E'. cbn [bind]. exists (row :: M), e2, p2. split; [reflexivity|]. split; [constructor; [split; [congruence|exact R2]|exact S1]|].
    split; [exact S2|]. split; [exact S3|]. intros i e x Hi E1 E2. try (intros sent; unfold sent; clear sent).
    specialize (R3' i e Hi E1). specialize (R4' i x Hi E2). rewrite Z.sub_0_r in R3', R4'.
    destruct (S4 i _ _ Hi R3' R4') as [T1 T2]. cbn [marked].
    destruct (match aget row i with Ok o => is_none o | _ => false end); [|now split].
    rewrite T1, T2. cbn [map total fold_right]. rewrite <- app_assoc. split; [reflexivity|]. f_equal. unfold total. lia.
Qed.
Lemma hydro_cells_ok : forall (Q : acell -> Z -> bool -> Prop) trees cells exps np n,
  zlen trees = n -> zlen exps = n -> zlen np = n ->
  (forall a i tr, In a cells -> aget trees i = Ok tr -> hwalk_ok a (Q a) i tr) ->
  exists M exps' np',
    hydro_cells ndim simbox kernrange trees rank cells (exps, np) = Ok (exps', np') /\
    Forall2 (fun a row => zlen row = n /\ forall i o, aget row i = Ok o -> hans_ok (Q a) i o) cells M /\
    zlen exps' = n /\ zlen np' = n /\
    (forall i e x, 0 <= i < n -> aget exps i = Ok e -> aget np i = Ok x ->
       let sent := marked (fun row => match aget row i with Ok o => o | _ => false end) cells M in
       aget exps' i = Ok (e ++ map a_id sent) /\ aget np' i = Ok (x + total (map a_Nactive sent))).
Proof.
  intros Q trees. induction cells as [|a cells IH]; intros exps np n HT He Hp HW.
  - exists [], exps, np. cbn [hydro_cells]. split; [reflexivity|]. split; [constructor|]. split; [exact He|]. split; [exact Hp|].
    intros i e x Hi E1 E2. cbn. rewrite app_nil_r, Z.add_0_r. auto.
  - cbn [hydro_cells].
    destruct (hydro_procs_ok a (Q a) trees 0 exps np n) as (row & e1 & p1 & E & R1 & R2 & [R3 R3'] & [R4 R4']); try lia.
    { intros i tr E. apply HW; [now left|exact E]. }
    rewrite E. cbn [bind].
    destruct (IH e1 p1 n) as (M & e2 & p2 & E' & S1 & S2 & S3 & S4); try congruence.
    { intros; apply HW; [now right|easy]. }
    rewrite E'. exists (row :: M), e2, p2. split; [reflexivity|]. split; [constructor; [split; [congruence|exact R2]|exact S1]|].
    split; [exact S2|]. split; [exact S3|]. intros i e x Hi E1 E2. try (intros sent; unfold sent; clear sent).
    specialize (R3' i e Hi E1). specialize (R4' i x Hi E2). rewrite Z.sub_0_r in R3', R4'.
    destruct (S4 i _ _ Hi R3' R4') as [T1 T2]. cbn [marked].
    destruct (match aget row i with Ok o => o | _ => false end); [|now split].
    rewrite T1, T2. cbn [map total fold_right]. rewrite <- app_assoc. split; [reflexivity|]. f_equal. unfold total. lia.
Qed.
End Loops.

(** ** A pruned copy describes the same particles *)
Lemma contents_prune : forall content op t, contents content t -> contents content (prune op t).
Proof.
  intros content op. induction t as [c ks IH] using rtree_ind2. intros H. inversion H as [? ? H1 H2]; subst. cbn [prune].
  destruct (op c); [|constructor; [easy|constructor]]. constructor.
  - intros NE. rewrite H1; [|intros ->; now apply NE]. rewrite fm_map. apply fm_ext. apply Forall_forall. intros k _. now rewrite prune_root.
  - rewrite Forall_forall in *. intros k Hk. apply in_map_iff in Hk as (q & <- & Hq). apply IH; auto.
Qed.
Lemma contents_relabel : forall content f t, contents content (relabel f t) -> contents (fun i => content (f i)) t.
Proof.
  intros content f. induction t as [c ks IH] using rtree_ind2. cbn [relabel]. intros H. inversion H as [? ? H1 H2]; subst. constructor.
  - intros NE. rewrite H1; [|intros E; apply map_eq_nil in E; auto]. rewrite fm_map. apply fm_ext. apply Forall_forall. intros k _. now rewrite relabel_root.
  - rewrite Forall_forall in *. intros k Hk. apply IH; [easy|]. apply H2. now apply in_map.
Qed.
Lemma preorder_range : forall t n, preorder t = zseq 0 n -> forall c, In c (preorder t) -> 0 <= c < Z.of_nat n.
Proof. intros t n E c Hc. rewrite E in Hc. apply zseq_in in Hc. lia. Qed.
Lemma zseq_nodup' : forall n a, NoDup (zseq a n).
Proof. induction n; intros a; cbn; constructor; [|apply IHn]. intros H. apply zseq_in in H. lia. Qed.

Lemma pruned_described : forall ndim pos hsm celldata p cells lf ll n op t content,
  pruned_copy celldata p cells lf ll n -> p = prune op t -> contents content t -> 
  (forall c k, In c (preorder t) -> aget celldata c = Ok k -> k_N k = zlen (content c) /\ encloses ndim pos hsm (content c) k) ->
  let content' i := content (nth (Z.to_nat i) (preorder p) 0) in
  exists t', described ndim pos hsm cells n t' content' /\ content' 0 = content (root t) /\ leaves t' = lf.
Proof.
  intros ndim pos hsm celldata p cells lf ll n op t content (Pn & (t' & T1 & T2 & T3 & T4) & _ & P4) -> CT HC content'.
  assert (Hn : 0 <= n) by (rewrite Pn; unfold zlen; lia).
  assert (NE : 0 < n). { rewrite Pn. destruct (prune op t). unfold zlen. cbn [preorder length]. lia. }
  assert (R : root t' = 0).
  { destruct t' as [c ks]. cbn [preorder] in T2. destruct (Z.to_nat n) as [|m] eqn:E; [lia|]. cbn [zseq] in T2. now injection T2. }
  exists t'. split; [|split; [|now symmetry]].
  - constructor.
    + exact R.
    + rewrite T2. apply zseq_nodup'.
    + intros c Hc. pose proof (preorder_range _ _ T2 c Hc). lia.
    + exists n. split; [lia|exact T3].
    + apply (contents_relabel content (fun i => nth (Z.to_nat i) (preorder (prune op t)) 0)). rewrite T1. now apply contents_prune.
    + intros c Hc. pose proof (preorder_range _ _ T2 c Hc) as B. destruct (P4 c) as (k & k' & E1 & E2 & SD & _); [lia|]. exists k'. split; [exact E2|].
      destruct (HC (nth (Z.to_nat c) (preorder (prune op t)) 0) k) as [N EN].
      * eapply prune_incl. apply nth_In. unfold zlen in Pn. lia.
      * exact E1.
      * destruct SD as (_ & S2 & S3 & S4 & S5 & _). split; [now rewrite S2|]. destruct EN as (A & B' & D). split; [now rewrite S4|]. split; [now rewrite S5|].
        intros i Hi. rewrite S3, S4, S5. now apply D.
  - unfold content'. destruct t as [c ks]. reflexivity.
Qed.
