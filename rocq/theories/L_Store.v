From Verif Require Import Prelude L_Prelude M_Store.
From Coq Require Import Permutation.
Local Open Scope Z_scope.

Section Store.
Context {P : Type} (default : P).
Notation store := (@store P).

Lemma zlen_app : forall (a b : list P), zlen (a ++ b) = zlen a + zlen b.
Proof. intros. unfold zlen. rewrite app_length. lia. Qed.

(** Storage and counters agree. *)
Definition good (s : store) : Prop :=
  zlen (data s) = Nhydromax s /\ 0 <= Nhydro s /\ 0 <= Nghost s /\ Nhydro s + Nghost s <= Nhydromax s.

Lemma Allocate_spec : forall N s, zlen (data s) = Nhydromax s -> 0 <= Nhydro s <= Nhydromax s ->
  exists s', AllocateMemory default N s = Ok s' /\ Nhydromax s' = Z.max N (Nhydromax s) /\
    Nhydro s' = Nhydro s /\ Nghost s' = Nghost s /\ zlen (data s') = Nhydromax s' /\
    firstn (Z.to_nat (Nhydromax s)) (data s') = data s.
Proof.
  intros N s HL HN. unfold AllocateMemory. destruct (Z.ltb_spec (Nhydromax s) N) as [L|L].
  - unfold copy_into.
    assert (RL : zlen (repeat default (Z.to_nat N)) = N) by (unfold zlen; rewrite repeat_length; lia).
    rewrite RL. destruct ((0 <=? Nhydromax s) && (Nhydromax s <=? zlen (data s)) && (Nhydromax s <=? N)) eqn:E; [|lia].
    cbn [bind Nhydro Nhydromax]. destruct (Z.leb_spec (Nhydro s) N); [|lia].
    eexists. split; [reflexivity|]. cbn. split; [lia|]. split; [reflexivity|]. split; [reflexivity|].
    assert (FA : firstn (Z.to_nat (Nhydromax s)) (data s) = data s) by (apply firstn_all2; unfold zlen in HL; lia).
    rewrite FA. split.
    + rewrite zlen_app. unfold zlen at 2. rewrite skipn_length, repeat_length. lia.
    + rewrite firstn_app. replace (_ - length (data s))%nat with 0%nat by (unfold zlen in HL; lia).
      rewrite firstn_O, app_nil_r. exact FA.
  - cbn [bind]. destruct (Z.leb_spec (Nhydro s) (Nhydromax s)); [|lia].
    exists s. split; [reflexivity|]. split; [lia|]. split; [reflexivity|]. split; [reflexivity|]. split; [exact HL|].
    apply firstn_all2. unfold zlen in HL. lia.
Qed.

Lemma firstn_upd_lt : forall (l : list P) n m x, (n <= m)%nat -> firstn n (upd l m x) = firstn n l.
Proof. induction l; intros [|n] [|m] x H; cbn; try lia; auto. f_equal. apply IHl. lia. Qed.
Lemma firstn_upd_S : forall (l : list P) n x, (n < length l)%nat -> firstn (S n) (upd l n x) = firstn n l ++ [x].
Proof. induction l; intros [|n] x H; cbn in *; try lia; auto. f_equal. apply IHl. lia. Qed.

(** A new particle is stored behind the existing ones, which are kept (storage of at least
    five particles). *)
Lemma Create_one : forall p s, zlen (data s) = Nhydromax s -> 0 <= Nhydro s <= Nhydromax s -> 5 <= Nhydromax s ->
  exists s', CreateNewParticle default p s = Ok s' /\
    zlen (data s') = Nhydromax s' /\ Nhydro s' = Nhydro s + 1 /\ Nhydro s' <= Nhydromax s' /\ 5 <= Nhydromax s' /\
    firstn (Z.to_nat (Nhydro s')) (data s') = firstn (Z.to_nat (Nhydro s)) (data s) ++ [p].
Proof.
  intros p s HL HN H5. unfold CreateNewParticle.
  assert (A : exists s1, (if Nhydromax s <=? Nhydro s then AllocateMemory default (6 * Nhydromax s / 5) s else Ok s) = Ok s1 /\
     zlen (data s1) = Nhydromax s1 /\ Nhydro s1 = Nhydro s /\ Nhydro s < Nhydromax s1 /\ 5 <= Nhydromax s1 /\
     firstn (Z.to_nat (Nhydro s)) (data s1) = firstn (Z.to_nat (Nhydro s)) (data s)).
  { destruct (Z.leb_spec (Nhydromax s) (Nhydro s)) as [L|L].
    - destruct (Allocate_spec (6 * Nhydromax s / 5) s HL HN) as (s1 & E & M & N1 & _ & L1 & F1).
      exists s1. split; [exact E|]. split; [exact L1|]. split; [exact N1|].
      assert (Nhydromax s + 1 <= 6 * Nhydromax s / 5) by (apply Z.div_le_lower_bound; lia).
      split; [lia|]. split; [lia|]. replace (Nhydro s) with (Nhydromax s) by lia. rewrite F1.
      symmetry. apply firstn_all2. unfold zlen in HL. lia.
    - exists s. split; [reflexivity|]. split; [exact HL|]. split; [reflexivity|]. split; [lia|]. split; [lia|reflexivity]. }
  destruct A as (s1 & E1 & L1 & N1 & M1 & M5 & F1). rewrite E1. cbn [bind]. rewrite N1.
  rewrite aset_in by lia. cbn [bind]. eexists. split; [reflexivity|]. cbn.
  split; [rewrite zlen_upd; exact L1|]. split; [lia|]. split; [lia|]. split; [lia|].
  replace (Z.to_nat (Nhydro s + 1)) with (S (Z.to_nat (Nhydro s))) by lia.
  rewrite firstn_upd_S by (unfold zlen in L1; lia). now rewrite F1.
Qed.
Fixpoint create_all (ps : list P) (s : store) : res store :=
  match ps with [] => Ok s | p :: t => let! s := CreateNewParticle default p s in create_all t s end.
Theorem create_history : forall ps s, zlen (data s) = Nhydromax s -> 0 <= Nhydro s <= Nhydromax s -> 5 <= Nhydromax s ->
  exists s', create_all ps s = Ok s' /\ zlen (data s') = Nhydromax s' /\ Nhydro s' <= Nhydromax s' /\
    Nhydro s' = Nhydro s + zlen ps /\
    firstn (Z.to_nat (Nhydro s')) (data s') = firstn (Z.to_nat (Nhydro s)) (data s) ++ ps.
Proof.
  induction ps as [|p ps IH]; intros s HL HN H5.
  - exists s. split; [reflexivity|]. split; [exact HL|]. split; [lia|]. split; [unfold zlen; cbn; lia|now rewrite app_nil_r].
  - cbn [create_all]. destruct (Create_one p s HL HN H5) as (s1 & E & L1 & N1 & M1 & K5 & F1). rewrite E. cbn [bind].
    destruct (IH s1 L1 ltac:(lia) K5) as (s2 & E2 & L2 & M2 & N2 & F2). exists s2. split; [exact E2|]. split; [exact L2|].
    split; [exact M2|]. split; [rewrite N2, N1; unfold zlen; cbn [length]; lia|]. rewrite F2, F1, <- app_assoc. reflexivity.
Qed.
(** With storage for one to four particles, all used, the next one is written past the end. *)
Theorem create_small_refuted : forall p s, zlen (data s) = Nhydromax s -> 1 <= Nhydromax s <= 4 -> Nhydro s = Nhydromax s ->
  CreateNewParticle default p s = UB.
Proof.
  intros p s HL HM HN. unfold CreateNewParticle. rewrite HN. destruct (Z.leb_spec (Nhydromax s) (Nhydromax s)); [|lia].
  unfold AllocateMemory. destruct (Z.ltb_spec (Nhydromax s) (6 * Nhydromax s / 5)) as [X|X].
  - exfalso. assert (6 * Nhydromax s / 5 < Nhydromax s + 1) by (apply Z.div_lt_upper_bound; lia). lia.
  - cbn [bind]. rewrite HN. destruct (Z.leb_spec (Nhydromax s) (Nhydromax s)); [|lia]. cbn [bind]. rewrite HN.
    unfold aset. fold (zlen (data s)). rewrite HL. destruct (Z.leb_spec (Nhydromax s) (Nhydromax s)); [|lia].
    rewrite orb_true_r. reflexivity.
Qed.

(** Ghosts. *)
Definition live (s : store) : list P := firstn (Z.to_nat (Nhydro s + Nghost s)) (data s).
Lemma aget_firstn : forall (l : list P) n i, 0 <= i < Z.of_nat n -> aget (firstn n l) i = aget l i.
Proof.
  intros l n i H. unfold aget. destruct (Z.ltb_spec i 0); [lia|].
  assert (E : nth_error (firstn n l) (Z.to_nat i) = nth_error l (Z.to_nat i)).
  { assert (G : forall (l : list P) n i, (i < n)%nat -> nth_error (firstn n l) i = nth_error l i).
    { clear. induction l; intros [|n] [|i] H; cbn; try lia; auto. apply IHl. lia. }
    apply G. lia. }
  now rewrite E.
Qed.
Lemma ghost_one : forall i f s, good s -> 0 <= i < Nhydro s + Nghost s ->
  exists s' o, CreateBoundaryGhostParticle default i f s = Ok s' /\ good s' /\ aget (live s) i = Ok o /\
    Nhydro s' = Nhydro s /\ live s' = live s ++ [f o].
Proof.
  intros i f s (HL & H0 & H1 & H2) Hi. unfold CreateBoundaryGhostParticle.
  set (n := Nhydro s + Nghost s) in *.
  assert (A : exists s1, (if Nhydromax s <=? n then AllocateMemory default ((11 * Nhydromax s + 10) / 10) s else Ok s) = Ok s1 /\
     zlen (data s1) = Nhydromax s1 /\ Nhydro s1 = Nhydro s /\ Nghost s1 = Nghost s /\ n < Nhydromax s1 /\
     firstn (Z.to_nat n) (data s1) = firstn (Z.to_nat n) (data s)).
  { destruct (Z.leb_spec (Nhydromax s) n) as [L|L].
    - destruct (Allocate_spec ((11 * Nhydromax s + 10) / 10) s HL ltac:(lia)) as (s1 & E & M & N1 & G1 & L1 & F1).
      exists s1. split; [exact E|]. split; [exact L1|]. split; [exact N1|]. split; [exact G1|].
      assert (Nhydromax s + 1 <= (11 * Nhydromax s + 10) / 10) by (apply Z.div_le_lower_bound; lia).
      split; [lia|]. replace n with (Nhydromax s) by lia. rewrite F1.
      symmetry. apply firstn_all2. unfold zlen in HL. lia.
    - exists s. split; [reflexivity|]. split; [exact HL|]. split; [reflexivity|]. split; [reflexivity|]. split; [lia|reflexivity]. }
  destruct A as (s1 & E1 & L1 & N1 & G1 & M1 & F1). rewrite E1. cbn [bind].
  destruct (aget_in (data s1) i) as [o Ho]; [lia|]. rewrite Ho. cbn [bind]. rewrite N1, G1. fold n.
  rewrite aset_in by lia. cbn [bind]. eexists. exists o. split; [reflexivity|].
  split. { unfold good. cbn. rewrite zlen_upd. lia. }
  split. { unfold live. fold n. rewrite <- F1, aget_firstn by lia. exact Ho. }
  split; [reflexivity|]. unfold live. cbn. fold n. replace (Z.to_nat (Nhydro s + (Nghost s + 1))) with (S (Z.to_nat n)) by lia.
  rewrite firstn_upd_S by (unfold zlen in L1; lia). now rewrite F1.
Qed.
Fixpoint ghost_all (gs : list (Z * (P -> P))) (s : store) : res store :=
  match gs with [] => Ok s | (i, f) :: t => let! s := CreateBoundaryGhostParticle default i f s in ghost_all t s end.
(** Expected array: each request appends the transformed copy of an existing entry. *)
Inductive ghosts_of : list (Z * (P -> P)) -> list P -> list P -> Prop :=
| go_nil : forall l, ghosts_of [] l l
| go_cons : forall i f t l o l', aget l i = Ok o -> ghosts_of t (l ++ [f o]) l' -> ghosts_of ((i, f) :: t) l l'.
Theorem ghost_history : forall gs s, good s ->
  (forall k i f, nth_error gs k = Some (i, f) -> 0 <= i < Nhydro s + Nghost s + Z.of_nat k) ->
  exists s', ghost_all gs s = Ok s' /\ good s' /\ Nhydro s' = Nhydro s /\ ghosts_of gs (live s) (live s').
Proof.
  induction gs as [|[i f] gs IH]; intros s G H.
  - exists s. split; [reflexivity|]. split; [exact G|]. split; [reflexivity|constructor].
  - cbn [ghost_all]. destruct (ghost_one i f s G) as (s1 & o & E & G1 & Ho & N1 & L1).
    { specialize (H 0%nat i f eq_refl). lia. }
    rewrite E. cbn [bind]. destruct (IH s1 G1) as (s2 & E2 & G2 & N2 & R).
    { intros k j g Hk. specialize (H (S k) j g Hk).
      assert (zlen (live s1) = zlen (live s) + 1) by (rewrite L1, zlen_app; reflexivity).
      assert (Ls : forall t, good t -> zlen (live t) = Nhydro t + Nghost t).
      { intros t (T1 & T2 & T3 & T4). unfold live, zlen. rewrite firstn_length. unfold zlen in T1. lia. }
      rewrite (Ls s G), (Ls s1 G1) in *. lia. }
    exists s2. split; [exact E2|]. split; [exact G2|]. split; [lia|]. econstructor; [exact Ho|]. rewrite <- L1. exact R.
Qed.

End Store.

(** Removal of dead particles. *)
Section Delete.
Context {P : Type}.
Variable isdead : P -> bool.
Variable kill : P -> P.
Definition alive := fun p => negb (isdead p).

Lemma fill_spec : forall fuel B A x C Nd, (length B < fuel)%nat ->
  exists x' B' K Nd',
    fill_slot isdead kill fuel (zlen A) (zlen A + 1 + zlen B) Nd (A ++ x :: B ++ C) =
      Ok (A ++ x' :: B' ++ K ++ C, zlen A + (if isdead x' then 0 else 1) + zlen B', Nd') /\
    (isdead x' = true -> B' = []) /\
    Permutation (filter alive (x :: B)) (filter alive (x' :: B')) /\
    Nd' = Nd + (1 + zlen B) - ((if isdead x' then 0 else 1) + zlen B') /\
    zlen B' + zlen K = zlen B.
Proof.
  induction fuel; intros B A x C Nd HB; [lia|]. cbn [fill_slot].
  rewrite aget_app_mid by reflexivity. cbn [bind]. destruct (isdead x) eqn:Dx.
  - destruct (Z.ltb_spec (zlen A) (zlen A + 1 + zlen B - 1)) as [L|L].
    + assert (BN : B <> []) by (intros ->; unfold zlen in L; cbn in L; lia).
      destruct (exists_last BN) as (B1 & y & ->). rewrite zlen_app in *. change (zlen [y]) with 1 in *.
      replace (zlen A + 1 + (zlen B1 + 1) - 1) with (zlen (A ++ x :: B1)) by (unfold zlen; rewrite app_length; cbn [length]; lia).
      replace (A ++ x :: (B1 ++ [y]) ++ C) with ((A ++ x :: B1) ++ y :: C) by (rewrite <- !app_assoc; reflexivity).
      rewrite aget_app_mid by reflexivity. cbn [bind].
      replace ((A ++ x :: B1) ++ y :: C) with (A ++ x :: (B1 ++ y :: C)) by (rewrite <- app_assoc; reflexivity).
      rewrite aset_app_mid by reflexivity. cbn [bind].
      replace (A ++ y :: B1 ++ y :: C) with ((A ++ y :: B1) ++ y :: C) by (rewrite <- app_assoc; reflexivity).
      assert (LE : zlen (A ++ x :: B1) = Z.of_nat (length (A ++ y :: B1))) by (unfold zlen; rewrite !app_length; reflexivity).
      rewrite LE, aget_app_mid by reflexivity. cbn [bind]. rewrite aset_app_mid by reflexivity. cbn [bind].
      destruct (IHfuel B1 A y (kill y :: C) (Nd + 1)) as (x' & B' & K & Nd' & E & X & Pm & Cn & Ln).
      { rewrite app_length in HB. cbn in HB. lia. }
      replace (Z.of_nat (length (A ++ y :: B1))) with (zlen A + 1 + zlen B1) by (unfold zlen; rewrite app_length; cbn [length]; lia).
      replace ((A ++ y :: B1) ++ kill y :: C) with (A ++ y :: B1 ++ kill y :: C) by (rewrite <- app_assoc; reflexivity).
      rewrite E. exists x', B', (K ++ [kill y]), Nd'. split; [|split; [exact X|split; [|split]]].
      * rewrite <- (app_assoc K). reflexivity.
      * rewrite <- Pm. cbn [filter]. unfold alive at 1. rewrite Dx. cbn [negb]. rewrite filter_app. cbn [filter].
        destruct (alive y); [|now rewrite app_nil_r]. symmetry. apply Permutation_cons_append.
      * rewrite Cn. lia.
      * rewrite zlen_app. change (zlen [kill y]) with 1. lia.
    + assert (B = []) as -> by (destruct B; [reflexivity|unfold zlen in L; cbn [length] in L; lia]).
      exists x, [], [], (Nd + 1). rewrite Dx. split; [f_equal; f_equal; f_equal; unfold zlen; cbn [length]; lia|].
      split; [reflexivity|]. split; [reflexivity|]. split; [unfold zlen; cbn; lia|reflexivity].
  - exists x, B, [], Nd. rewrite Dx. split; [reflexivity|]. split; [discriminate|]. split; [reflexivity|].
    split; [lia|]. unfold zlen; cbn; lia.
Qed.

Lemma compact_spec : forall fuel B A C Nd n, (length B < fuel)%nat -> n = zlen A + zlen B + Nd -> 0 <= Nd ->
  (B = [] -> Nd = 0) -> Forall (fun p => isdead p = false) A ->
  exists B' C' Nd', compact isdead kill fuel (zlen A) n (zlen A + zlen B) Nd (A ++ B ++ C) = Ok (A ++ B' ++ C' ++ C, Nd') /\
    n = zlen A + zlen B' + Nd' /\ zlen B' + zlen C' = zlen B /\
    Permutation (filter alive B) B' /\ Forall (fun p => isdead p = false) B'.
Proof.
  induction fuel; intros B A C Nd n HB Hn Hd HE HA; [lia|]. cbn [compact].
  destruct (Z.leb_spec n (zlen A)) as [L|L].
  - assert (B = []) as -> by (destruct B; [reflexivity|unfold zlen in *; cbn [length] in *; lia]).
    exists [], [], Nd. split; [reflexivity|]. unfold zlen in *; cbn in *. split; [lia|]. split; [lia|]. split; constructor.
  - destruct B as [|x B]; [specialize (HE eq_refl); unfold zlen in *; cbn in *; lia|].
    destruct (fill_spec (S (Z.to_nat n)) B A x C Nd) as (x' & B' & K & Nd' & E & X & Pm & Cn & Ln).
    { unfold zlen in Hn. cbn [length] in Hn. lia. }
    replace (zlen A + zlen (x :: B)) with (zlen A + 1 + zlen B) by (unfold zlen; cbn [length]; lia).
    cbn [app]. rewrite E. cbn [bind]. clear E.
    change (filter alive (x' :: B')) with (if alive x' then x' :: filter alive B' else filter alive B') in Pm.
    destruct (isdead x') eqn:Dx; [assert (Ax : alive x' = false) by (unfold alive; now rewrite Dx)|assert (Ax : alive x' = true) by (unfold alive; now rewrite Dx)]; rewrite Ax in Pm.
    + specialize (X eq_refl). subst B'. change (zlen (@nil P)) with 0 in *.
      destruct (Z.leb_spec (zlen A + 0 + 0 - 1) (zlen A)); [|lia].
      exists [], (x' :: K), Nd'. split; [reflexivity|]. change (zlen (@nil P)) with 0.
      unfold zlen in *; cbn [length] in *. split; [lia|]. split; [lia|].
      split; [exact Pm|constructor].
    + destruct (Z.leb_spec (zlen A + 1 + zlen B' - 1) (zlen A)) as [S1|S1].
      * assert (B' = []) as -> by (destruct B'; [reflexivity|unfold zlen in S1; cbn [length] in S1; lia]).
        change (zlen (@nil P)) with 0 in *.
        exists [x'], K, Nd'. split; [reflexivity|]. unfold zlen in *; cbn [length] in *. split; [lia|]. split; [lia|].
        split; [exact Pm|]. constructor; [exact Dx|constructor].
      * destruct (IHfuel B' (A ++ [x']) (K ++ C) Nd' n) as (B2 & C2 & Nd2 & E2 & N2 & L2 & P2 & F2).
        { unfold zlen in *. cbn [length] in *. lia. }
        { rewrite zlen_app. unfold zlen in *. cbn [length] in *. lia. }
        { unfold zlen in *. cbn [length] in *. lia. }
        { intros ->. unfold zlen in S1. cbn in S1. lia. }
        { apply Forall_app. split; [exact HA|]. constructor; [exact Dx|constructor]. }
        rewrite zlen_app in E2. change (zlen [x']) with 1 in E2. rewrite <- app_assoc in E2. cbn [app] in E2. rewrite E2.
        exists (x' :: B2), (C2 ++ K), Nd2. split; [rewrite <- !app_assoc; reflexivity|].
        rewrite zlen_app in N2. rewrite zlen_app. change (zlen [x']) with 1 in N2. unfold zlen in *. cbn [length] in *.
        split; [lia|]. split; [lia|]. split; [rewrite Pm; now apply perm_skip|]. constructor; [exact Dx|exact F2].
Qed.
Lemma no_dead_spec : forall B A C, Forall (fun p => isdead p = false) B ->
  no_dead isdead (length B) (zlen A) (A ++ B ++ C) = Ok tt.
Proof.
  induction B as [|x B IH]; intros A C F; [reflexivity|]. inversion F; subst. cbn [length no_dead app].
  rewrite aget_app_mid by reflexivity. cbn [bind]. rewrite H1.
  specialize (IH (A ++ [x]) C H2). rewrite zlen_app in IH. change (zlen [x]) with 1 in IH. rewrite <- app_assoc in IH. exact IH.
Qed.
Theorem DeleteDead_correct : forall n d, 0 <= n <= zlen d ->
  exists d' n' Ndead, DoDeleteDeadParticles isdead kill n d = Ok (d', n', Ndead) /\
    n' + Ndead = n /\ zlen d' = zlen d /\
    Permutation (firstn (Z.to_nat n') d') (filter alive (firstn (Z.to_nat n) d)) /\
    n' = zlen (filter alive (firstn (Z.to_nat n) d)) /\
    skipn (Z.to_nat n) d' = skipn (Z.to_nat n) d.
Proof.
  intros n d Hn. set (B := firstn (Z.to_nat n) d). set (C := skipn (Z.to_nat n) d).
  assert (D : d = B ++ C) by (symmetry; apply firstn_skipn).
  assert (LB : zlen B = n) by (unfold B, zlen in *; rewrite firstn_length; lia).
  destruct (compact_spec (S (Z.to_nat n)) B [] C 0 n) as (B' & C' & Nd & E & N1 & L1 & P1 & F1).
  { unfold zlen in LB. lia. } { change (zlen (@nil P)) with 0. lia. } { lia. } { reflexivity. } { constructor. }
  change (zlen (@nil P)) with 0 in *. cbn [app] in E. rewrite LB in E. cbn [Z.add] in E.
  unfold DoDeleteDeadParticles. rewrite D, E. cbn [bind].
  assert (R : (if Nd =? 0 then Ok (B' ++ C' ++ C, n, Nd)
               else let! _ := no_dead isdead (Z.to_nat (n - Nd)) 0 (B' ++ C' ++ C) in Ok (B' ++ C' ++ C, n - Nd, Nd))
              = Ok (B' ++ C' ++ C, n - Nd, Nd)).
  { destruct (Z.eqb_spec Nd 0) as [ -> |]; [do 3 f_equal; lia|].
    replace (Z.to_nat (n - Nd)) with (length B') by (unfold zlen in N1; lia).
    change 0 with (zlen (@nil P)). change (B' ++ C' ++ C) with ([] ++ B' ++ (C' ++ C)). rewrite no_dead_spec by exact F1. reflexivity. }
  rewrite R. exists (B' ++ C' ++ C), (n - Nd), Nd. split; [reflexivity|]. split; [lia|]. split; [rewrite !zlen_app; lia|].
  assert (PL : zlen (filter alive B) = zlen B') by (unfold zlen; now rewrite (Permutation_length P1)).
  split; [|split].
  - replace (Z.to_nat (n - Nd)) with (length B') by (unfold zlen in N1; lia).
    rewrite firstn_app, firstn_all, Nat.sub_diag, firstn_O, app_nil_r. symmetry. exact P1.
  - lia.
  - replace (Z.to_nat n) with (length (B' ++ C')) at 1 by (rewrite app_length; unfold zlen in *; lia).
    rewrite app_assoc, skipn_app, skipn_all, Nat.sub_diag, skipn_O. reflexivity.
Qed.
End Delete.
