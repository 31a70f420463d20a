From Verif Require Import Prelude L_Prelude Vec M_Box S_Box L_Box M_Util M_Periodic S_Periodic L_Periodic L_Periodic2 M_Ghost S_Ghost.
From Coq Require Import Reals Lra NArith.
Local Open Scope R_scope.

(** ** Lists of images and of choices *)
Definition gleft (lo : vec) (k : nat) (g : gpart) : gpart := set_flag (reflect g k (lo k)) (mirflag k 0).
Definition gright (hi : vec) (k : nat) (g : gpart) : gpart := set_flag (reflect g k (hi k)) (mirflag k 1).
Definition gext (lo hi : vec) (L Rt : nat -> bool) (k : nat) (G : list gpart) : list gpart :=
  G ++ (if L k then map (gleft lo k) G else []) ++ (if Rt k then map (gright hi k) G else []).
Definition cext (L Rt : nat -> bool) (k : nat) (C : list choice) : list choice :=
  map (fun c => c ++ [No]) C ++ (if L k then map (fun c => c ++ [Left]) C else []) ++ (if Rt k then map (fun c => c ++ [Right]) C else []).
Definition ghosts (n : nat) (lo hi : vec) (L Rt : nat -> bool) (p : gpart) := loopk n (gext lo hi L Rt) [p].
Definition choices (n : nat) (L Rt : nat -> bool) := loopk n (cext L Rt) [[]].

Lemma ghosts_S : forall n lo hi L Rt p, ghosts (S n) lo hi L Rt p = gext lo hi L Rt n (ghosts n lo hi L Rt p).
Proof. intros. unfold ghosts. apply loopk_S. Qed.
Lemma choices_S : forall n L Rt, choices (S n) L Rt = cext L Rt n (choices n L Rt).
Proof. intros. unfold choices. apply loopk_S. Qed.

Lemma choices_in : forall n L Rt c, In c (choices n L Rt) <-> allowed n L Rt c.
Proof.
  induction n; intros L Rt c.
  - unfold choices, allowed. cbn. split.
    + intros [<-|[]]. split; [reflexivity|]. intros; lia.
    + intros (Hl & _). left. destruct c; [reflexivity|discriminate].
  - rewrite choices_S. unfold cext.
    assert (E : In c (map (fun c => c ++ [No]) (choices n L Rt) ++
      (if L n then map (fun c => c ++ [Left]) (choices n L Rt) else []) ++
      (if Rt n then map (fun c => c ++ [Right]) (choices n L Rt) else [])) <->
      exists c' s, c = c' ++ [s] /\ In c' (choices n L Rt) /\ (s = Left -> L n = true) /\ (s = Right -> Rt n = true)).
    { rewrite !in_app_iff, in_map_iff. split.
      - intros [(c' & <- & H)|[H|H]].
        + exists c', No. repeat split; auto; discriminate.
        + destruct (L n) eqn:E; [|easy]. apply in_map_iff in H. destruct H as (c' & <- & H).
          exists c', Left. repeat split; auto; discriminate.
        + destruct (Rt n) eqn:E; [|easy]. apply in_map_iff in H. destruct H as (c' & <- & H).
          exists c', Right. repeat split; auto; discriminate.
      - intros (c' & s & -> & H & Hl & Hr). destruct s.
        + left. eauto.
        + right. left. rewrite Hl by easy. apply in_map_iff. eauto.
        + right. right. rewrite Hr by easy. apply in_map_iff. eauto. }
    rewrite E. clear E. split.
    + intros (c' & s & -> & H & Hl & Hr). apply IHn in H. destruct H as (Hlen & H). split; [rewrite app_length; cbn; lia|].
      intros k Hk. destruct (Nat.eq_dec k n) as [-> |Hne].
      * rewrite app_nth2, Hlen, Nat.sub_diag by lia. cbn. auto.
      * rewrite app_nth1 by lia. apply H. lia.
    + intros (Hlen & H). destruct (exists_last (l := c)) as (c' & s & ->); [intros ->; discriminate|].
      rewrite app_length in Hlen. cbn in Hlen. exists c', s. split; [reflexivity|]. split.
      * apply IHn. split; [lia|]. intros k Hk. specialize (H k ltac:(lia)). rewrite app_nth1 in H by lia. exact H.
      * specialize (H n ltac:(lia)). rewrite app_nth2 in H by lia. replace (n - length c')%nat with 0%nat in H by lia. cbn in H. tauto.
Qed.
Lemma nodup_app : forall A (l m : list A), NoDup l -> NoDup m -> (forall x, In x l -> In x m -> False) -> NoDup (l ++ m).
Proof.
  induction l; intros m Hl Hm H; [exact Hm|]. inversion Hl; subst. cbn. constructor.
  - rewrite in_app_iff. intros [X|X]; [easy|]. apply (H a); [now left|easy].
  - apply IHl; auto. intros x X Y. apply (H x); [now right|easy].
Qed.
Lemma choices_nodup : forall n L Rt, NoDup (choices n L Rt).
Proof.
  induction n; intros L Rt; [constructor; [easy|constructor]|]. rewrite choices_S. unfold cext.
  assert (M : forall s, NoDup (map (fun c => c ++ [s]) (choices n L Rt))).
  { intros s. apply FinFun.Injective_map_NoDup; [|apply IHn]. intros x y H. now apply app_inj_tail in H. }
  assert (D : forall s s' c, s <> s' -> In c (map (fun c => c ++ [s]) (choices n L Rt)) ->
    In c (map (fun c => c ++ [s']) (choices n L Rt)) -> False).
  { intros s s' c Hne H H'. apply in_map_iff in H, H'. destruct H as (x & <- & _), H' as (y & E & _).
    apply app_inj_tail in E. destruct E as (_ & E). congruence. }
  apply nodup_app; [apply M| |].
  - apply nodup_app; [destruct (L n); [apply M|constructor]|destruct (Rt n); [apply M|constructor]|].
    intros c H H'. destruct (L n), (Rt n); try easy. eapply D; [|exact H|exact H']. discriminate.
  - intros c H H'. apply in_app_iff in H'. destruct H' as [H'|H'].
    + destruct (L n); [|easy]. eapply D; [|exact H|exact H']. discriminate.
    + destruct (Rt n); [|easy]. eapply D; [|exact H|exact H']. discriminate.
Qed.

Lemma mirflag_bit : forall k s i, (k < 3)%nat -> (s < 2)%nat ->
  N.testbit (mirflag k s) i = N.eqb i (N.of_nat (13 + 3 * s + k)).
Proof.
  intros k s i Hk Hs.
  assert (mirflag k s = N.shiftl 1 (N.of_nat (13 + 3 * s + k))) as ->.
  { assert (k = 0 \/ k = 1 \/ k = 2)%nat as X by lia. assert (s = 0 \/ s = 1)%nat as Y by lia.
    destruct X as [-> |[-> | -> ]], Y as [-> | -> ]; reflexivity. }
  rewrite N.shiftl_1_l. rewrite N.pow2_bits_eqb. apply N.eqb_sym.
Qed.
Lemma nth_snoc_lt : forall (c : choice) s k, (k < length c)%nat -> nth k (c ++ [s]) No = nth k c No.
Proof. intros. now apply app_nth1. Qed.
Lemma nth_snoc_eq : forall (c : choice) s, nth (length c) (c ++ [s]) No = s.
Proof. intros. rewrite app_nth2 by lia. now rewrite Nat.sub_diag. Qed.
Lemma nth_snoc_gt : forall (c : choice) s k, (length c < k)%nat -> nth k (c ++ [s]) No = nth k c No.
Proof. intros. rewrite !nth_overflow; auto; [|rewrite app_length; cbn]; lia. Qed.
Lemma nth_len : forall (c : choice), nth (length c) c No = No.
Proof. intros. apply nth_overflow. lia. Qed.
Lemma nth_snoc_no : forall (c : choice) k, nth k (c ++ [No]) No = nth k c No.
Proof.
  intros c k. destruct (lt_eq_lt_dec k (length c)) as [[H| -> ]|H]; [now apply nth_snoc_lt|now rewrite nth_snoc_eq, nth_len|now apply nth_snoc_gt].
Qed.
Lemma image_refl : forall lo hi p, is_image lo hi p [] p.
Proof.
  intros. unfold is_image.
  assert (E : forall k, nth k ([] : choice) No = No) by (intros []; reflexivity).
  repeat split; intros; rewrite ?E; auto. destruct H as [H|(k & _ & [(H & _)|(H & _)])]; auto; rewrite E in H; discriminate.
Qed.
Lemma image_no : forall lo hi p c q, is_image lo hi p c q -> is_image lo hi p (c ++ [No]) q.
Proof.
  intros lo hi p c q (A & B & C & D & E & F). unfold is_image.
  split; [easy|]. split; [easy|]. split; [intros; rewrite nth_snoc_no; apply C|]. split; [intros; rewrite nth_snoc_no; apply D|].
  split; [intros; rewrite nth_snoc_no; apply E|]. intros i. rewrite F. split; (intros [H|(k & Hk & H)]; [now left|right; exists k; rewrite nth_snoc_no in *; auto]).
Qed.
Lemma image_step : forall lo hi p c q s, is_image lo hi p c q -> (length c < 3)%nat -> s <> No ->
  is_image lo hi p (c ++ [s]) (match s with Left => gleft lo (length c) q | _ => gright hi (length c) q end).
Proof.
  intros lo hi p c q s (A & B & C & D & E & F) Hl Hs.
  assert (CASE : forall k (P : side -> Prop), (k = length c -> P s) -> (k <> length c -> P (nth k c No)) -> P (nth k (c ++ [s]) No)).
  { intros k P H1 H2. destruct (lt_eq_lt_dec k (length c)) as [[H| -> ]|H].
    - rewrite nth_snoc_lt by easy. apply H2. lia.
    - rewrite nth_snoc_eq. now apply H1.
    - rewrite nth_snoc_gt by easy. apply H2. lia. }
  assert (V : forall (v : vec) x y, (forall k, k <> length c -> v k = x k) ->
     forall k, vset v (length c) y k = if Nat.eqb k (length c) then y else x k).
  { intros v x y H k. unfold vset. destruct (Nat.eqb_spec k (length c)); [easy|now apply H]. }
  set (q' := match s with Left => gleft lo (length c) q | _ => gright hi (length c) q end).
  set (x := match s with Left => lo (length c) | _ => hi (length c) end).
  assert (Q : gp_id q' = gp_id q /\ gp_h2 q' = gp_h2 q /\ gp_r q' = vset (gp_r q) (length c) (2 * x - gp_r q (length c)) /\
    gp_v q' = vset (gp_v q) (length c) (gp_v q (length c) * -1) /\ gp_a q' = vset (gp_a q) (length c) (gp_a q (length c) * -1) /\
    gp_fl q' = fl_set (gp_fl q) (mirflag (length c) (match s with Left => 0%nat | _ => 1%nat end))).
  { unfold q', x. destruct s; [easy| |]; repeat split. }
  destruct Q as (Q1 & Q2 & Q3 & Q4 & Q5 & Q6). clearbody q'.
  unfold is_image. rewrite Q1, Q2, Q3, Q4, Q5, Q6.
  split; [easy|]. split; [easy|]. split; [|split; [|split]].
  - intros k. apply (CASE k (fun s => vset (gp_r q) (length c) (2 * x - gp_r q (length c)) k = match s with No => gp_r p k | Left => 2 * lo k - gp_r p k | Right => 2 * hi k - gp_r p k end)).
    + intros ->. rewrite vset_eq, C, nth_len. unfold x. destruct s; easy.
    + intros H. rewrite vset_ne by easy. apply C.
  - intros k. apply (CASE k (fun s => vset (gp_v q) (length c) (gp_v q (length c) * -1) k = match s with No => gp_v p k | _ => - gp_v p k end)).
    + intros ->. rewrite vset_eq, D, nth_len. destruct s; [easy|lra|lra].
    + intros H. rewrite vset_ne by easy. apply D.
  - intros k. apply (CASE k (fun s => vset (gp_a q) (length c) (gp_a q (length c) * -1) k = match s with No => gp_a p k | _ => - gp_a p k end)).
    + intros ->. rewrite vset_eq, E, nth_len. destruct s; [easy|lra|lra].
    + intros H. rewrite vset_ne by easy. apply E.
  - intros i. unfold fl_set. rewrite N.lor_spec, orb_true_iff, F.
    rewrite mirflag_bit by (destruct s; lia). rewrite N.eqb_eq. split.
    + intros [[H|(k & Hk & H)]|H].
      * now left.
      * right. exists k. split; [easy|].
        assert (k <> length c). { intros ->. rewrite nth_len in H. destruct H as [(H & _)|(H & _)]; discriminate. }
        apply (CASE k (fun s => s = Left /\ i = N.of_nat (13 + k) \/ s = Right /\ i = N.of_nat (16 + k))); [lia|]. intros _. exact H.
      * right. exists (length c). split; [easy|]. rewrite nth_snoc_eq. destruct s; [easy|left|right]; split; auto; lia.
    + intros [H|(k & Hk & H)]; [now left; left|].
      revert H. apply (CASE k (fun s' => s' = Left /\ i = N.of_nat (13 + k) \/ s' = Right /\ i = N.of_nat (16 + k) ->
        (N.testbit (gp_fl p) i = true \/ (exists k0 : nat, (k0 < 3)%nat /\
          (nth k0 c No = Left /\ i = N.of_nat (13 + k0) \/ nth k0 c No = Right /\ i = N.of_nat (16 + k0)))) \/
        i = N.of_nat (13 + 3 * match s with Left => 0%nat | _ => 1%nat end + length c))).
      * intros ->. intros [(-> & ->)|(-> & ->)]; right; lia.
      * intros _ H. left. right. eauto.
Qed.
Lemma Forall2_map_both : forall A B C D (P : C -> D -> Prop) (f : A -> C) (g : B -> D) l m,
  Forall2 (fun a b => P (f a) (g b)) l m -> Forall2 P (map f l) (map g m).
Proof. induction 1; constructor; auto. Qed.
Lemma Forall2_imp : forall A B (P Q : A -> B -> Prop) l m, (forall a b, In a l -> P a b -> Q a b) -> Forall2 P l m -> Forall2 Q l m.
Proof.
  intros A B P Q l m H F. induction F; constructor.
  - apply H; [now left|easy].
  - apply IHF. intros. apply H; [now right|easy].
Qed.
Lemma ghosts_images : forall n lo hi L Rt p, (n <= 3)%nat ->
  Forall2 (is_image lo hi p) (choices n L Rt) (ghosts n lo hi L Rt p).
Proof.
  induction n; intros lo hi L Rt p Hn.
  - constructor; [apply image_refl|constructor].
  - rewrite choices_S, ghosts_S. unfold cext, gext. specialize (IHn lo hi L Rt p ltac:(lia)).
    assert (LEN : forall c, In c (choices n L Rt) -> length c = n). { intros c Hc. apply choices_in in Hc. apply Hc. }
    apply Forall2_app; [|apply Forall2_app].
    + rewrite <- (map_id (ghosts n lo hi L Rt p)). apply Forall2_map_both.
      apply (Forall2_imp _ _ (is_image lo hi p)); [|exact IHn]. intros. now apply image_no.
    + destruct (L n); [|constructor]. apply Forall2_map_both. apply (Forall2_imp _ _ (is_image lo hi p)); [|exact IHn].
      intros c q Hc H. apply LEN in Hc. subst n. apply (image_step lo hi p c q Left H ltac:(lia)). discriminate.
    + destruct (Rt n); [|constructor]. apply Forall2_map_both. apply (Forall2_imp _ _ (is_image lo hi p)); [|exact IHn].
      intros c q Hc H. apply LEN in Hc. subst n. apply (image_step lo hi p c q Right H ltac:(lia)). discriminate.
Qed.
Lemma ghosts_len_S : forall n lo hi L Rt p,
  zlen (ghosts (S n) lo hi L Rt p) = (zlen (ghosts n lo hi L Rt p) * (1 + b2z (L n) + b2z (Rt n)))%Z.
Proof.
  intros. rewrite ghosts_S. unfold gext, zlen. rewrite !app_length. destruct (L n), (Rt n); cbn [b2z length]; rewrite ?map_length; lia.
Qed.
Lemma ghosts_pos : forall n lo hi L Rt p, (1 <= zlen (ghosts n lo hi L Rt p))%Z.
Proof.
  induction n; intros; [cbn; lia|]. rewrite ghosts_len_S. specialize (IHn lo hi L Rt p). destruct (L n), (Rt n); cbn [b2z]; lia.
Qed.
Lemma ghosts_mono : forall n m lo hi L Rt p, (n <= m)%nat -> (zlen (ghosts n lo hi L Rt p) <= zlen (ghosts m lo hi L Rt p))%Z.
Proof.
  induction 1; [lia|]. rewrite ghosts_len_S. assert (P := ghosts_pos m lo hi L Rt p). destruct (L m), (Rt m); cbn [b2z]; lia.
Qed.
Lemma ghosts_ext : forall n lo hi L Rt L' R' p, (forall k, (k < n)%nat -> L k = L' k /\ Rt k = R' k) ->
  ghosts n lo hi L Rt p = ghosts n lo hi L' R' p.
Proof.
  induction n; intros; [reflexivity|]. rewrite !ghosts_S. rewrite (IHn lo hi L Rt L' R') by (intros; apply H; lia).
  unfold gext. destruct (H n ltac:(lia)) as (-> & -> ). reflexivity.
Qed.
Lemma ghosts_prefix : forall n lo hi L Rt p, exists G, ghosts n lo hi L Rt p = p :: G.
Proof.
  induction n; intros; [eexists; reflexivity|]. rewrite ghosts_S. destruct (IHn lo hi L Rt p) as (G & ->). unfold gext. cbn. eauto.
Qed.
Lemma MaxNumGhosts_len : forall n f lo hi p, f_anymir f = true ->
  MaxNumGhosts n f = zlen (ghosts n lo hi (f_mlhs f) (f_mrhs f) p).
Proof.
  intros n f lo hi p H. unfold MaxNumGhosts. rewrite H. clear H. induction n; [reflexivity|].
  rewrite loopk_S, ghosts_len_S, IHn. reflexivity.
Qed.

(** ** ConstructAllGhosts *)
Lemma refl_all_spec : forall cnt n k x fl A rest, (0 <= n)%Z -> (n + Z.of_nat cnt <= zlen A)%Z -> (Z.of_nat cnt <= zlen rest)%Z ->
  refl_all cnt n k x fl (A ++ rest) (zlen A) =
    Ok (A ++ map (fun g => set_flag (reflect g k x) fl) (firstn cnt (skipn (Z.to_nat n) A)) ++ skipn cnt rest, (zlen A + Z.of_nat cnt)%Z).
Proof.
  induction cnt; intros n k x fl A rest Hn HA HR.
  - cbn. rewrite Z.add_0_r. reflexivity.
  - cbn [refl_all]. unfold zlen in *.
    destruct (nth_error A (Z.to_nat n)) as [g|] eqn:E.
    2:{ apply nth_error_None in E. lia. }
    assert (aget (A ++ rest) n = Ok g) as ->.
    { unfold aget. destruct (Z.ltb_spec n 0); [lia|]. rewrite nth_error_app1, E by lia. reflexivity. }
    cbn [bind]. destruct rest as [|y rest]; [cbn in HR; lia|].
    rewrite aset_app_mid by reflexivity. cbn [bind].
    replace (A ++ set_flag (reflect g k x) fl :: rest) with ((A ++ [set_flag (reflect g k x) fl]) ++ rest) by (rewrite <- app_assoc; reflexivity).
    replace (Z.of_nat (length A) + 1)%Z with (Z.of_nat (length (A ++ [set_flag (reflect g k x) fl]))) by (rewrite app_length; cbn; lia).
    rewrite IHcnt; [| lia | rewrite app_length; cbn; lia | cbn [length] in HR; lia].
    f_equal. f_equal.
    + rewrite <- app_assoc. f_equal. cbn [app skipn].
      assert (SK : skipn (Z.to_nat n) A = g :: skipn (Z.to_nat (n + 1)) A).
      { replace (Z.to_nat (n + 1)) with (S (Z.to_nat n)) by lia. clear - E. revert E. generalize (Z.to_nat n) as m.
        induction A; intros m E; [destruct m; discriminate|]. destruct m; [cbn in E; injection E as ->; reflexivity|]. cbn. apply IHA. exact E. }
      rewrite SK. cbn [firstn map app]. f_equal. f_equal. f_equal.
      rewrite skipn_app. rewrite firstn_app.
      replace (cnt - length (skipn (Z.to_nat (n + 1)) A))%nat with 0%nat by (rewrite skipn_length; lia).
      cbn [firstn]. now rewrite app_nil_r.
    + rewrite app_length. cbn. lia.
Qed.
Section ALL.
Variables (t : target).
Notation f := (t_f t).
Notation lo := (dmin (f_dom f)).
Notation hi := (dmax (f_dom f)).
Notation L := (f_mlhs f).
Notation R' := (f_mrhs f).

Lemma MakeReflectedGhostsAll_spec : forall n p rest,
  (zlen (ghosts n lo hi L R' p) <= 1 + zlen rest)%Z ->
  exists rest', MakeReflectedGhostsAll n t (p :: rest) = Ok (ghosts n lo hi L R' p ++ rest', zlen (ghosts n lo hi L R' p)) /\
     (zlen (ghosts n lo hi L R' p) + zlen rest' = 1 + zlen rest)%Z.
Proof.
  unfold MakeReflectedGhostsAll. induction n; intros p rest H.
  - exists rest. cbn. split; [reflexivity|]. unfold zlen. cbn. lia.
  - assert (Hm := ghosts_mono n (S n) lo hi L R' p ltac:(lia)).
    destruct (IHn p rest ltac:(lia)) as (rest' & E & Hl). rewrite loopk_S, E. cbn [bind]. clear E IHn.
    rewrite ghosts_len_S in H. rewrite ghosts_S. set (G := ghosts n lo hi L R' p) in *.
    unfold gext. assert (HG : (0 <= zlen G)%Z) by (unfold zlen; lia).
    assert (FS : firstn (Z.to_nat (zlen G)) G = G). { unfold zlen. rewrite Nat2Z.id. apply firstn_all. }
    assert (STEP : forall x fl A B, A = G ++ B -> forall rest', (zlen G <= zlen rest')%Z ->
      refl_all (Z.to_nat (zlen G)) 0 n x fl (A ++ rest') (zlen A) =
        Ok ((A ++ map (fun g => set_flag (reflect g n x) fl) G) ++ skipn (Z.to_nat (zlen G)) rest', (zlen A + zlen G)%Z)).
    { intros x fl A B -> r Hr. rewrite refl_all_spec; [|lia| |lia].
      - cbn [Z.to_nat skipn]. rewrite firstn_app, FS. replace (Z.to_nat (zlen G) - length G)%nat with 0%nat by (unfold zlen; lia). cbn [firstn].
        rewrite app_nil_r, <- !app_assoc. f_equal. f_equal. unfold zlen. lia.
      - unfold zlen in *. rewrite app_length. lia. }
    assert (ZL : forall (r : list gpart) m, zlen (skipn m r) = (Z.max 0 (zlen r - Z.of_nat m))%Z).
    { intros. unfold zlen. rewrite skipn_length. lia. }
    assert (ZM : forall (fg : gpart -> gpart), zlen (map fg G) = zlen G) by (intros; unfold zlen; now rewrite map_length).
    assert (ZA : forall (a b : list gpart), zlen (a ++ b) = (zlen a + zlen b)%Z) by (intros; unfold zlen; rewrite app_length; lia).
    destruct (L n) eqn:EL; cbn [b2z] in H.
    + assert (HA : G = G ++ []) by now rewrite app_nil_r.
      rewrite (STEP (lo n) (mirflag n 0) G [] HA rest') by (destruct (R' n); cbn [b2z] in H; lia).
      cbn [bind]. fold (gleft lo n). replace (zlen G + zlen G)%Z with (zlen (G ++ map (gleft lo n) G)) by (rewrite ZA, ZM; reflexivity).
      destruct (R' n) eqn:ER; cbn [b2z] in H.
      * rewrite (STEP (hi n) (mirflag n 1) _ (map (gleft lo n) G) eq_refl) by (rewrite ZL; lia).
        fold (gright hi n). eexists. split; [f_equal; f_equal|].
        -- rewrite <- !app_assoc. reflexivity.
        -- rewrite !ZA, !ZM. lia.
        -- rewrite !ZA, !ZM, !ZL. lia.
      * rewrite (app_nil_r (map (gleft lo n) G)). eexists. split; [reflexivity|].
        rewrite !ZA, !ZM, !ZL. lia.
    + cbn [bind]. destruct (R' n) eqn:ER; cbn [b2z] in H.
      * assert (HA : G = G ++ []) by now rewrite app_nil_r.
        rewrite (STEP (hi n) (mirflag n 1) G [] HA rest') by lia.
        fold (gright hi n). cbn [app]. eexists. split; [f_equal; f_equal; rewrite ZA, ZM; reflexivity|].
        rewrite !ZA, !ZM, !ZL. lia.
      * exists rest'. split; [f_equal; f_equal|].
        -- now rewrite app_nil_r.
        -- now rewrite app_nil_r.
        -- rewrite app_nil_r. lia.
Qed.
End ALL.
