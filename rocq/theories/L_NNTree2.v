(** Rounds of pairing of the nearest-neighbour tree: structure and termination. *)
From Verif Require Import Prelude Vec M_Box L_Box M_Hermite M_NNTree S_NNTree L_NNTree.
From Coq Require Import Reals Permutation Sorted.
Local Open Scope R_scope.

Definition free_in (T : tree) (i : nat) : bool := match n_par (T i) with None => true | _ => false end.
Lemma free_true : forall T i, free_in T i = true <-> n_par (T i) = None.
Proof. intros. unfold free_in. destruct (n_par (T i)); split; congruence. Qed.
Lemma in_free : forall T n i, In i (freelist T n) <-> (i < n)%nat /\ n_par (T i) = None.
Proof. intros. unfold freelist. rewrite filter_In, in_seq. fold (free_in T i). rewrite free_true. split; intros [? ?]; split; auto; lia. Qed.
Lemma sorted_seq : forall n a, StronglySorted lt (seq a n).
Proof. induction n; intros; cbn; constructor; [apply IHn|]. apply Forall_forall. intros x Hx. apply in_seq in Hx. lia. Qed.
Lemma sorted_filter : forall f l, StronglySorted lt l -> StronglySorted lt (filter f l).
Proof.
  induction l as [|a l IH]; intros H; [exact H|]. inversion H; subst. cbn. destruct (f a); [|auto]. constructor; [auto|].
  rewrite Forall_forall in *. intros x Hx. apply filter_In in Hx. apply H3. tauto.
Qed.
Lemma free_sorted : forall T n, StronglySorted lt (freelist T n).
Proof. intros. apply sorted_filter, sorted_seq. Qed.
Lemma free_nodup : forall T n, NoDup (freelist T n).
Proof. intros. apply NoDup_filter, seq_NoDup. Qed.
Lemma count_flip : forall f f' i l, NoDup l -> In i l -> f i = true -> (forall x, f' x = f x && negb (Nat.eqb x i)) ->
  S (length (filter f' l)) = length (filter f l).
Proof.
  intros f f' i l ND Hi Hf H. induction l as [|a l IH]; [destruct Hi|]. inversion ND as [|? ? NA ND']; subst.
  destruct Hi as [->|Hi].
  - cbn. rewrite (H i), Hf, Nat.eqb_refl. cbn. f_equal. f_equal. apply filter_ext_in. intros x Hx. rewrite H.
    destruct (Nat.eqb_spec x i) as [->|]; [contradiction|now rewrite Bool.andb_true_r].
  - cbn. rewrite (H a). destruct (Nat.eqb_spec a i) as [->|Hne]; [contradiction|]. rewrite Bool.andb_true_r. destruct (f a); cbn; rewrite IH by auto; reflexivity.
Qed.

Section Rounds.
Variable ndim : nat.
Notation dist := (distsqd ndim).
Variables (N Nnodemax : nat) (r : nat -> vec).

(** The tree after joining i and j. *)
Definition J (T : tree) (n i j : nat) : tree :=
  let rpos := fun k => 1 / 2 * (n_rpos (T i) k + n_rpos (T j) k) in
  let p := T n in
  put (put (put T i (set_par (T i) n)) j (set_par (put T i (set_par (T i) n) j) n)) n
    (mknn (Some i) (Some j) (n_par p) (n_near p) (n_comp (T i) + n_comp (T j)) (n_nstar (T i) + n_nstar (T j)) (sqrt (dist rpos (n_rpos (T i)))) (n_rsqd p) rpos).
Lemma join_is : forall T n i j, join ndim Nnodemax i j (T, n) = if Nat.ltb n Nnodemax then Ok (J T n i j, S n) else UB.
Proof. reflexivity. Qed.

(** What holds of the tree whenever nodes are about to be joined. *)
Record good (T : tree) (n : nat) : Prop := mkgood {
  g_low : (N <= n)%nat;
  g_leaf : forall i, (i < N)%nat -> n_c1 (T i) = None /\ n_c2 (T i) = None /\ n_comp (T i) = 1%nat /\ n_nstar (T i) = 1%nat /\ n_radius (T i) = 0 /\ n_rpos (T i) = r i;
  g_node : forall c, (N <= c < n)%nat -> exists i j, n_c1 (T c) = Some i /\ n_c2 (T c) = Some j /\ i <> j /\ (i < c)%nat /\ (j < c)%nat /\
             n_par (T i) = Some c /\ n_par (T j) = Some c /\ n_comp (T c) = (n_comp (T i) + n_comp (T j))%nat /\ n_nstar (T c) = (n_nstar (T i) + n_nstar (T j))%nat /\
             (forall k, n_rpos (T c) k = (n_rpos (T i) k + n_rpos (T j) k) / 2) /\ n_radius (T c) = sqrt (dist (n_rpos (T c)) (n_rpos (T i)));
  g_par : forall i p, (i < n)%nat -> n_par (T i) = Some p -> (N <= p < n)%nat /\ (n_c1 (T p) = Some i \/ n_c2 (T p) = Some i);
  g_new : forall i, (n <= i)%nat -> n_par (T i) = None;
  g_count : (length (freelist T n) + n = 2 * N)%nat;
  g_dist : forall i j, (i < n)%nat -> (j < n)%nat -> dist (n_rpos (T i)) (n_rpos (T j)) < big_number }.

Definition can_join (T : tree) (n i j : nat) : Prop := (i < n)%nat /\ (j < n)%nat /\ i <> j /\ n_par (T i) = None /\ n_par (T j) = None.
Lemma J_other : forall T n i j x, (i < n)%nat -> (j < n)%nat -> x <> n ->
  n_c1 (J T n i j x) = n_c1 (T x) /\ n_c2 (J T n i j x) = n_c2 (T x) /\ n_near (J T n i j x) = n_near (T x) /\ n_comp (J T n i j x) = n_comp (T x) /\
  n_nstar (J T n i j x) = n_nstar (T x) /\ n_radius (J T n i j x) = n_radius (T x) /\ n_rpos (J T n i j x) = n_rpos (T x).
Proof.
  intros T n i j x Hi Hj Hx. unfold J, put. destruct (Nat.eqb_spec x n); [congruence|].
  destruct (Nat.eqb_spec x j) as [->|]; destruct (Nat.eqb_spec j i) as [->|]; try (destruct (Nat.eqb_spec x i) as [->|]); cbn; auto 10.
Qed.
Lemma J_par : forall T n i j x, (i < n)%nat -> (j < n)%nat ->
  n_par (J T n i j x) = if Nat.eqb x n then n_par (T n) else if Nat.eqb x i || Nat.eqb x j then Some n else n_par (T x).
Proof.
  intros T n i j x Hi Hj. unfold J, put. destruct (Nat.eqb_spec x n); [reflexivity|].
  destruct (Nat.eqb_spec x j) as [->|]; [rewrite Bool.orb_true_r; reflexivity|]. rewrite Bool.orb_false_r. destruct (Nat.eqb_spec x i); reflexivity.
Qed.
Lemma J_self : forall T n i j, n_c1 (J T n i j n) = Some i /\ n_c2 (J T n i j n) = Some j /\ n_comp (J T n i j n) = (n_comp (T i) + n_comp (T j))%nat /\
  n_nstar (J T n i j n) = (n_nstar (T i) + n_nstar (T j))%nat /\ (forall k, n_rpos (J T n i j n) k = 1 / 2 * (n_rpos (T i) k + n_rpos (T j) k)) /\
  n_radius (J T n i j n) = sqrt (dist (fun k => 1 / 2 * (n_rpos (T i) k + n_rpos (T j) k)) (n_rpos (T i))) /\
  n_rpos (J T n i j n) = (fun k => 1 / 2 * (n_rpos (T i) k + n_rpos (T j) k)).
Proof. intros. unfold J, put. rewrite Nat.eqb_refl. cbn. auto 10. Qed.

Lemma free_J : forall T n i j, good T n -> can_join T n i j -> S (length (freelist (J T n i j) (S n))) = length (freelist T n).
Proof.
  intros T n i j G (Hi & Hj & Hij & Pi & Pj). pose proof (J_par T n i j) as JP. unfold freelist.
  rewrite seq_S, filter_app, app_length. cbn [filter Nat.add]. fold (free_in (J T n i j) n).
  assert (E : free_in (J T n i j) n = true) by (apply free_true; rewrite JP by assumption; rewrite Nat.eqb_refl; apply (g_new _ _ G); lia).
  rewrite E. cbn [length].
  set (f := fun i0 => match n_par (T i0) with None => true | _ => false end).
  set (f1 := fun x => f x && negb (Nat.eqb x i)).
  set (f2 := fun x => f1 x && negb (Nat.eqb x j)).
  rewrite (filter_ext_in (fun i0 => match n_par (J T n i j i0) with Some _ => false | None => true end) f2).
  - assert (E2 : S (length (filter f2 (seq 0 n))) = length (filter f1 (seq 0 n))).
    { apply (count_flip f1 f2 j); [apply seq_NoDup|apply in_seq; lia| |reflexivity]. unfold f1, f. rewrite Pj. destruct (Nat.eqb_spec j i); [congruence|reflexivity]. }
    assert (E1 : S (length (filter f1 (seq 0 n))) = length (filter f (seq 0 n))).
    { apply (count_flip f f1 i); [apply seq_NoDup|apply in_seq; lia| |reflexivity]. unfold f. now rewrite Pi. }
    lia.
  - intros x Hx. apply in_seq in Hx. rewrite JP by assumption. destruct (Nat.eqb_spec x n); [lia|]. unfold f2, f1, f.
    destruct (Nat.eqb x i), (Nat.eqb x j), (n_par (T x)); reflexivity.
Qed.
Lemma can_count : forall T n i j, can_join T n i j -> (2 <= length (freelist T n))%nat.
Proof.
  intros T n i j (Hi & Hj & Hij & Pi & Pj). change 2%nat with (length [i; j]). apply NoDup_incl_length.
  - constructor; [|constructor; [intros []|constructor]]. intros [->|[]]; congruence.
  - intros x [<-|[<-|[]]]; apply in_free; auto.
Qed.
Lemma good_J : forall T n i j, good T n -> can_join T n i j -> good (J T n i j) (S n).
Proof.
  intros T n i j G C. pose proof (free_J _ _ _ _ G C) as FJ. pose proof (can_count _ _ _ _ C) as CC. destruct C as (Hi & Hj & Hij & Pi & Pj).
  pose proof (fun x => J_other T n i j x Hi Hj) as JO. pose proof (fun x => J_par T n i j x Hi Hj) as JP. pose proof (J_self T n i j) as JS.
  destruct G as [GL Gleaf Gnode Gpar Gnew Gcount Gdist]. constructor.
  - lia.
  - intros x Hx. destruct (JO x ltac:(lia)) as (-> & -> & _ & -> & -> & -> & ->). apply Gleaf, Hx.
  - intros c Hc. destruct (Nat.eq_dec c n) as [->|Hne].
    + exists i, j. destruct JS as (-> & -> & -> & -> & E & -> & E2). destruct (JO i ltac:(lia)) as (_ & _ & _ & Ei & Fi & _ & Ri). destruct (JO j ltac:(lia)) as (_ & _ & _ & Ej & Fj & _ & Rj).
      rewrite !JP, Ei, Fi, Ej, Fj, Ri, Rj, E2, !Nat.eqb_refl. destruct (Nat.eqb_spec i n), (Nat.eqb_spec j n); try lia. rewrite Bool.orb_true_r. cbn. repeat split; auto. intros k. field.
    + destruct (Gnode c ltac:(lia)) as (a & b & Ea & Eb & Hab & La & Lb & Pa & Pb & Cc & Sc & Rc & Dc). exists a, b.
      destruct (JO c Hne) as (-> & -> & _ & -> & -> & -> & ->). destruct (JO a ltac:(lia)) as (_ & _ & _ & -> & -> & _ & ->). destruct (JO b ltac:(lia)) as (_ & _ & _ & -> & -> & _ & ->).
      repeat split; auto; rewrite JP; [destruct (Nat.eqb_spec a n); [lia|]; destruct (Nat.eqb_spec a i), (Nat.eqb_spec a j)|destruct (Nat.eqb_spec b n); [lia|]; destruct (Nat.eqb_spec b i), (Nat.eqb_spec b j)]; subst; try congruence; cbn; assumption.
  - intros x p Hx Hp. rewrite JP in Hp. destruct (Nat.eqb_spec x n) as [->|Hne]; [rewrite Gnew in Hp by lia; discriminate|].
    destruct (Nat.eqb_spec x i) as [->|]; [|destruct (Nat.eqb_spec x j) as [->|]]; cbn in Hp.
    + injection Hp as <-. split; [lia|]. left. apply JS.
    + injection Hp as <-. split; [lia|]. right. apply JS.
    + destruct (Gpar x p ltac:(lia) Hp) as (H1 & H2). split; [lia|]. destruct (JO p ltac:(lia)) as (-> & -> & _). exact H2.
  - intros x Hx. rewrite JP. destruct (Nat.eqb_spec x n); [lia|]. destruct (Nat.eqb_spec x i), (Nat.eqb_spec x j); try lia. apply Gnew; lia.
  - lia.
  - assert (HD : forall x, (x < n)%nat -> dist (n_rpos (J T n i j n)) (n_rpos (T x)) < big_number).
    { intros x Hx. destruct JS as (_ & _ & _ & _ & _ & _ & ->). eapply Rle_lt_trans; [apply dist_mid|]. apply Rmax_lub_lt; apply Gdist; assumption. }
    intros a b Ha Hb. destruct (Nat.eq_dec a n) as [->|Na], (Nat.eq_dec b n) as [->|Nb].
    + rewrite L_NNTree.dist_self. unfold big_number. lra.
    + destruct (JO b Nb) as (_ & _ & _ & _ & _ & _ & ->). apply HD. lia.
    + destruct (JO a Na) as (_ & _ & _ & _ & _ & _ & ->). rewrite L_NNTree.dist_sym. apply HD. lia.
    + destruct (JO a Na) as (_ & _ & _ & _ & _ & _ & ->). destruct (JO b Nb) as (_ & _ & _ & _ & _ & _ & ->). apply Gdist; lia.
Qed.

(** A sequence of joins of mutual neighbours. *)
Variable near : nat -> option nat.
Inductive joins : tree * nat -> tree * nat -> Prop :=
| joins_nil : forall st, joins st st
| joins_cons : forall T n i j st, can_join T n i j -> near i = Some j -> near j = Some i -> joins (J T n i j, S n) st -> joins (T, n) st.
Lemma joins_trans : forall a b c, joins a b -> joins b c -> joins a c.
Proof. intros a b c H. induction H; intros; [assumption|]. econstructor; eauto. Qed.
Lemma joins_good : forall a b, joins a b -> good (fst a) (snd a) -> good (fst b) (snd b) /\ (snd a <= snd b)%nat /\ forall x, (x < snd a)%nat -> n_near (fst b x) = n_near (fst a x) /\ n_c1 (fst b x) = n_c1 (fst a x) /\ n_c2 (fst b x) = n_c2 (fst a x).
Proof.
  intros a b H. induction H as [st|T n i j st C E1 E2 H IH]; intros G; [auto|]. cbn [fst snd] in *.
  destruct (IH (good_J _ _ _ _ G C)) as (G' & L & P). split; [exact G'|]. split; [lia|]. intros x Hx.
  destruct (P x ltac:(lia)) as (-> & -> & ->). destruct C as (Hi & Hj & _). destruct (J_other T n i j x Hi Hj ltac:(lia)) as (-> & -> & -> & _). auto.
Qed.
Definition mut (a b : nat) : Prop := near a = Some b /\ near b = Some a.
Definition paired (st : tree * nat) (a b : nat) : Prop := exists c, (c < snd st)%nat /\ n_c1 (fst st c) = Some a /\ n_c2 (fst st c) = Some b.
Lemma paired_mono : forall a b x y, joins a b -> good (fst a) (snd a) -> paired a x y -> paired b x y.
Proof. intros a b x y H G (c & Hc & E1 & E2). destruct (joins_good _ _ H G) as (_ & L & P). exists c. destruct (P c Hc) as (_ & -> & ->). split; [lia|auto]. Qed.


Lemma row_joins : (2 * N <= Nnodemax)%nat -> forall i js st, good (fst st) (snd st) -> NoDup (i :: js) ->
  (forall x, In x (i :: js) -> (x < snd st)%nat /\ n_near (fst st x) = near x) ->
  (forall a b, In a (i :: js) -> In b (i :: js) -> mut a b -> n_par (fst st a) = None) ->
  exists st', pair_row ndim Nnodemax i js st = Ok st' /\ joins st st' /\
    (forall b, In b js -> mut i b -> paired st' i b) /\ (forall x, (x < snd st)%nat -> x <> i -> near x <> Some i -> n_par (fst st' x) = n_par (fst st x)).
Proof.
  intros HM i js. induction js as [|j js IH]; intros [T n] G ND HN HF; cbn [fst snd] in *.
  - exists (T, n). split; [reflexivity|]. split; [constructor|]. split; [intros b []|auto].
  - inversion ND as [|? ? Nij ND']; subst. inversion ND' as [|? ? Nj ND'']; subst.
    destruct (HN i ltac:(now left)) as (Li & Ni). destruct (HN j ltac:(right; now left)) as (Lj & Nj').
    assert (ND2 : NoDup (i :: js)) by (constructor; [intro; apply Nij; now right|assumption]).
    cbn [pair_row fst]. rewrite Ni, Nj'. destruct (opt_is (near i) j && opt_is (near j) i) eqn:E.
    + assert (M : mut i j).
      { apply andb_prop in E. destruct E as (E1 & E2). unfold opt_is in *. split; [destruct (near i); [apply Nat.eqb_eq in E1; congruence|discriminate]|destruct (near j); [apply Nat.eqb_eq in E2; congruence|discriminate]]. }
      assert (M' : mut j i) by (destruct M; split; assumption).
      assert (C : can_join T n i j).
      { repeat split; auto. - intros ->. apply Nij. now left. - apply (HF i j); [now left|right; now left|exact M]. - apply (HF j i); [right; now left|now left|exact M']. }
      pose proof (can_count _ _ _ _ C) as CC. pose proof (g_count _ _ G). rewrite join_is. destruct (Nat.ltb_spec n Nnodemax); [|lia]. cbn [bind].
      pose proof (good_J _ _ _ _ G C) as G'. pose proof C as (Hi & Hj & Hij & Pi & Pj).
      destruct (IH (J T n i j, S n)) as (st' & ES & JS & PS & FS); cbn [fst snd]; auto.
      * intros x Hx. destruct (HN x) as (Lx & Nx); [destruct Hx; [now left|right; now right]|]. split; [lia|]. destruct (J_other T n i j x Hi Hj ltac:(lia)) as (_ & _ & -> & _). exact Nx.
      * intros a b Ha Hb Mab. assert (Ha2 : In a (i :: j :: js)) by (destruct Ha; [now left|right; now right]). assert (Hb2 : In b (i :: j :: js)) by (destruct Hb; [now left|right; now right]).
        destruct (HN a Ha2) as (La & _). rewrite J_par by assumption. destruct (Nat.eqb_spec a n); [lia|].
        destruct (Nat.eqb_spec a i) as [->|Hai].
        { exfalso. destruct M as (M1 & _), Mab as (Mb & _). rewrite M1 in Mb. injection Mb as <-. destruct Hb as [Hb|Hb]; [congruence|contradiction]. }
        destruct (Nat.eqb_spec a j) as [->|Haj]; [exfalso; destruct Ha as [Ha|Ha]; [congruence|contradiction]|]. cbn. eauto.
      * exists st'. split; [exact ES|]. assert (JJ : joins (T, n) st') by (destruct M; econstructor; eauto). split; [exact JJ|]. split.
        -- intros b [<-|Hb] Mb; [|auto]. apply (paired_mono _ _ _ _ JS G'). exists n. cbn. split; [lia|]. destruct (J_self T n i j) as (-> & -> & _). auto.
        -- intros x Hx Hxi Hnx. cbn [snd fst] in FS. rewrite FS by (auto; lia). rewrite J_par by assumption. destruct (Nat.eqb_spec x n); [lia|].
           destruct (Nat.eqb_spec x i); [congruence|]. destruct (Nat.eqb_spec x j) as [->|]; [destruct M' as (M1 & _); congruence|reflexivity].
    + cbn [bind]. destruct (IH (T, n)) as (st' & ES & JS & PS & FS); cbn [fst snd]; auto.
      * intros x Hx. apply HN. destruct Hx; [now left|right; now right].
      * intros a b Ha Hb. apply HF; [destruct Ha; [now left|right; now right]|destruct Hb; [now left|right; now right]].
      * exists st'. split; [exact ES|]. split; [exact JS|].
        assert (NM : ~ mut i j). { intros (M1 & M2). rewrite M1, M2 in E. cbn in E. now rewrite !Nat.eqb_refl in E. }
        split; [intros b [<-|Hb] Mb; [contradiction|auto]|exact FS].
Qed.
Lemma all_joins : (2 * N <= Nnodemax)%nat -> forall l st, good (fst st) (snd st) -> StronglySorted lt l ->
  (forall x, In x l -> (x < snd st)%nat /\ n_near (fst st x) = near x) ->
  (forall a b, In a l -> In b l -> mut a b -> n_par (fst st a) = None) ->
  exists st', pair_all ndim Nnodemax l st = Ok st' /\ joins st st' /\ (forall a b, In a l -> In b l -> (a < b)%nat -> mut a b -> paired st' a b).
Proof.
  intros HM l. induction l as [|i js IH]; intros st G HS HN HF.
  - exists st. split; [reflexivity|]. split; [constructor|intros a b []].
  - inversion HS as [|? ? HS' HB]; subst. rewrite Forall_forall in HB.
    assert (ND : NoDup (i :: js)). { clear -HS. revert HS. generalize (i :: js). induction l as [|a l IH]; intros H; constructor; inversion H; subst; [|auto]. intro I. rewrite Forall_forall in H3. specialize (H3 a I). lia. }
    destruct (row_joins HM i js st G ND HN HF) as (st1 & E1 & J1 & P1 & F1).
    destruct (joins_good _ _ J1 G) as (G1 & L1 & N1).
    destruct (IH st1 G1 HS') as (st2 & E2 & J2 & P2).
    + intros x Hx. destruct (HN x ltac:(now right)) as (Lx & Nx). split; [lia|]. destruct (N1 x Lx) as (-> & _). exact Nx.
    + intros a b Ha Hb Mab. destruct (HN a ltac:(now right)) as (La & _). rewrite F1; [apply (HF a b); [now right|now right|exact Mab]|exact La| |].
      * specialize (HB a Ha). lia.
      * destruct Mab as (M & _). rewrite M. intros Eb. injection Eb as ->. specialize (HB i Hb). lia.
    + exists st2. cbn [pair_all]. rewrite E1. cbn [bind]. split; [exact E2|]. split; [eapply joins_trans; eauto|].
      intros a b [<-|Ha] [<-|Hb] Lab Mab; [lia| | |auto].
      * apply (paired_mono _ _ _ _ J2 G1). auto.
      * specialize (HB a Ha). lia.
Qed.
End Rounds.

Section Grow.
Variable ndim : nat.
Notation dist := (distsqd ndim).
Variables (N Nnodemax : nat) (r : nat -> vec).
Notation good := (good ndim N r).

Lemma good_find : forall T n, good T n -> good (find_nearest ndim (freelist T n) T) n /\ (forall x, n_par (find_nearest ndim (freelist T n) T x) = n_par (T x) /\ n_c1 (find_nearest ndim (freelist T n) T x) = n_c1 (T x) /\ n_c2 (find_nearest ndim (freelist T n) T x) = n_c2 (T x)) /\ (forall x, In x (freelist T n) -> n_near (find_nearest ndim (freelist T n) T x) = fst (nearest ndim T (freelist T n) x)).
Proof.
  intros T n G. set (F := find_nearest ndim (freelist T n) T).
  assert (P : forall x, n_c1 (F x) = n_c1 (T x) /\ n_c2 (F x) = n_c2 (T x) /\ n_par (F x) = n_par (T x) /\ n_comp (F x) = n_comp (T x) /\ n_nstar (F x) = n_nstar (T x) /\ n_radius (F x) = n_radius (T x) /\ n_rpos (F x) = n_rpos (T x)).
  { intros x. unfold F. rewrite find_is. destruct (existsb _ _); cbn; auto 10. }
  split; [|split].
  - destruct G as [GL Gleaf Gnode Gpar Gnew Gcount Gdist]. constructor; auto.
    + intros i Hi. destruct (P i) as (-> & -> & _ & -> & -> & -> & ->). auto.
    + intros c Hc. destruct (Gnode c Hc) as (a & b & H). exists a, b. destruct (P c) as (-> & -> & _ & -> & -> & -> & ->). destruct (P a) as (_ & _ & -> & -> & -> & _ & ->). destruct (P b) as (_ & _ & -> & -> & -> & _ & ->). exact H.
    + intros i p Hi Hp. destruct (P i) as (_ & _ & E & _). rewrite E in Hp. destruct (P p) as (-> & -> & _). auto.
    + intros i Hi. destruct (P i) as (_ & _ & -> & _). auto.
    + rewrite <- Gcount. f_equal. f_equal. unfold freelist. apply filter_ext. intros i. destruct (P i) as (_ & _ & -> & _). reflexivity.
    + intros i j Hi Hj. destruct (P i) as (_ & _ & _ & _ & _ & _ & ->). destruct (P j) as (_ & _ & _ & _ & _ & _ & ->). auto.
  - intros x. destruct (P x) as (-> & -> & -> & _). auto.
  - intros x Hx. unfold F. rewrite find_is. replace (existsb (Nat.eqb x) (freelist T n)) with true; [reflexivity|]. symmetry. apply existsb_exists. exists x. split; [exact Hx|apply Nat.eqb_refl].
Qed.
Lemma round : (2 * N <= Nnodemax)%nat -> forall T n, good T n -> (length (freelist T n) <> 1)%nat -> (1 <= N)%nat ->
  exists T' n', pair_all ndim Nnodemax (freelist T n) (find_nearest ndim (freelist T n) T, n) = Ok (T', n') /\ good T' n' /\ (n < n')%nat /\
    (forall x, (x < n)%nat -> n_c1 (T' x) = n_c1 (T x) /\ n_c2 (T' x) = n_c2 (T x)) /\
    (forall a b, In a (freelist T n) -> In b (freelist T n) -> (a < b)%nat -> fst (nearest ndim T (freelist T n) a) = Some b -> fst (nearest ndim T (freelist T n) b) = Some a -> paired (T', n') a b).
Proof.
  intros HM T n G HL HN. destruct (good_find T n G) as (G' & PP & NN). set (F := find_nearest ndim (freelist T n) T) in *.
  set (near := fun x => fst (nearest ndim T (freelist T n) x)).
  destruct (all_joins ndim N Nnodemax r near HM (freelist T n) (F, n) G' (free_sorted _ _)) as ([T' n'] & E & Jn & PA).
  { intros x Hx. cbn. split; [apply in_free in Hx; tauto|apply NN, Hx]. }
  { intros a b Ha Hb _. cbn. destruct (PP a) as (-> & _). apply in_free in Ha. tauto. }
  destruct (joins_good ndim N r near _ _ Jn G') as (G2 & L2 & K2). cbn [fst snd] in *. exists T', n'. split; [exact E|]. split; [exact G2|].
  assert (LT : (n < n')%nat).
  { assert (L1 : (2 <= length (freelist T n))%nat).
    { pose proof (g_count _ _ _ _ _ G). destruct (length (freelist T n)) as [|[|k]] eqn:EL; [|congruence|lia]. exfalso.
      (* the last node has no parent *)
      destruct (freelist T n) eqn:EF; [|discriminate]. pose proof (g_low _ _ _ _ _ G). assert (In (n - 1)%nat (freelist T n)); [|now rewrite EF in *].
      apply in_free. split; [lia|]. destruct (n_par (T (n - 1)%nat)) as [p|] eqn:EP; [|reflexivity]. exfalso. destruct (g_par _ _ _ _ _ G (n - 1) p ltac:(lia) EP) as (H1 & H2).
      destruct (g_node _ _ _ _ _ G p H1) as (a & b & Ea & Eb & _ & La & Lb & _). destruct H2 as [H2|H2]; rewrite H2 in *; [injection Ea as <-|injection Eb as <-]; lia. }
    destruct (mutual ndim T (freelist T n) near) as (i & j & Hi & Hj & Ei & Ej).
    - intros i Hi. apply nearest_closest, free_sorted.
    - exact L1.
    - apply free_nodup.
    - intros i j Hi Hj. apply (g_dist _ _ _ _ _ G); [apply in_free in Hi|apply in_free in Hj]; tauto.
    - assert (NE : i <> j). { intros ->. pose proof (nearest_closest ndim T (freelist T n) j (free_sorted _ _)) as C. change (fst (nearest ndim T (freelist T n) j) = Some j) in Ei. rewrite Ei in C. destruct C as (_ & C & _). congruence. }
      assert (exists a b, In a (freelist T n) /\ paired (T', n') a b) as (a & b & Ha & (c & Hc & Ec & _)).
      { destruct (le_lt_dec j i); [exists j, i|exists i, j]; split; auto; apply PA; auto; try lia; split; assumption. }
      cbn [fst snd] in *. destruct (le_lt_dec n c) as [|Lc]; [lia|]. exfalso. destruct (K2 c Lc) as (_ & E1 & _). rewrite E1 in Ec. destruct (PP c) as (_ & E2 & _). rewrite E2 in Ec.
      destruct (le_lt_dec N c) as [Hl|Hl].
      + destruct (g_node _ _ _ _ _ G c ltac:(lia)) as (a' & b' & Ea & _ & _ & _ & _ & Pa & _). rewrite Ea in Ec. injection Ec as ->. apply in_free in Ha. destruct Ha as (_ & Ha). congruence.
      + destruct (g_leaf _ _ _ _ _ G c Hl) as (El & _). congruence. }
  split; [exact LT|]. split.
  - intros x Hx. destruct (K2 x Hx) as (_ & -> & ->). destruct (PP x) as (_ & -> & ->). auto.
  - intros a b Ha Hb Lab E1 E2. apply PA; auto. split; assumption.
Qed.
Lemma grow_ok : (2 * N <= Nnodemax)%nat -> (1 <= N)%nat -> forall fuel T n, good T n -> (2 * N - n <= fuel)%nat ->
  exists T', grow ndim fuel Nnodemax (T, n) = Ok (T', (2 * N - 1)%nat) /\ good T' (2 * N - 1) /\ (forall x, (x < n)%nat -> n_c1 (T' x) = n_c1 (T x) /\ n_c2 (T' x) = n_c2 (T x)).
Proof.
  intros HM HN fuel. induction fuel as [|fuel IH]; intros T n G HF.
  - exfalso. pose proof (g_count _ _ _ _ _ G) as GC. pose proof (g_low _ _ _ _ _ G) as GL. assert (length (freelist T n) = 0)%nat by lia.
    assert (I : In (n - 1)%nat (freelist T n)).
    { apply in_free. split; [lia|]. destruct (n_par (T (n - 1)%nat)) as [p|] eqn:EP; [|reflexivity]. exfalso. destruct (g_par _ _ _ _ _ G (n - 1) p ltac:(lia) EP) as (H1 & H2).
      destruct (g_node _ _ _ _ _ G p H1) as (a & b & Ea & Eb & _ & La & Lb & _). destruct H2 as [H2|H2]; rewrite H2 in *; [injection Ea as <-|injection Eb as <-]; lia. }
    destruct (freelist T n); [destruct I|discriminate].
  - cbn [grow]. pose proof (g_count _ _ _ _ _ G) as GC. pose proof (g_low _ _ _ _ _ G) as GL. destruct (Nat.ltb_spec n Nnodemax) as [L|L].
    + destruct (Nat.eqb_spec (length (freelist T n)) 1) as [E|E].
      * exists T. replace (2 * N - 1)%nat with n by lia. auto.
      * destruct (round HM T n G E HN) as (T1 & n1 & E1 & G1 & L1 & K1 & _). rewrite E1. cbn [bind].
        destruct (IH T1 n1 G1 ltac:(lia)) as (T2 & E2 & G2 & K2). exists T2. split; [exact E2|]. split; [exact G2|]. intros x Hx. destruct (K2 x ltac:(lia)) as (-> & ->). auto.
    + exfalso. assert (I : In (n - 1)%nat (freelist T n)).
      { apply in_free. split; [lia|]. destruct (n_par (T (n - 1)%nat)) as [p|] eqn:EP; [|reflexivity]. exfalso. destruct (g_par _ _ _ _ _ G (n - 1) p ltac:(lia) EP) as (H1 & H2).
        destruct (g_node _ _ _ _ _ G p H1) as (a & b & Ea & Eb & _ & La & Lb & _). destruct H2 as [H2|H2]; rewrite H2 in *; [injection Ea as <-|injection Eb as <-]; lia. }
      destruct (freelist T n); [destruct I|cbn in GC; lia].
Qed.
Lemma free_init : freelist (init_tree N r) N = seq 0 N.
Proof.
  unfold freelist. assert (H : forall l, (forall i, In i l -> (i < N)%nat) -> filter (fun i => match n_par (init_tree N r i) with None => true | _ => false end) l = l).
  { induction l as [|a l IH]; intros H; [reflexivity|]. cbn. unfold init_tree at 1. assert (L := H a (or_introl eq_refl)). apply Nat.ltb_lt in L. rewrite L. cbn. f_equal. apply IH. intros; apply H. now right. }
  apply H. intros i Hi. apply in_seq in Hi. lia.
Qed.
Lemma good_init : (forall i j, (i < N)%nat -> (j < N)%nat -> dist (r i) (r j) < big_number) -> good (init_tree N r) N.
Proof.
  intros HD. constructor.
  - lia.
  - intros i Hi. unfold init_tree. apply Nat.ltb_lt in Hi. rewrite Hi. cbn. auto 10.
  - intros; lia.
  - intros i p _ H. unfold init_tree in H. destruct (Nat.ltb i N); discriminate.
  - intros i _. unfold init_tree. destruct (Nat.ltb i N); reflexivity.
  - rewrite free_init, seq_length. lia.
  - intros i j Hi Hj. unfold init_tree. rewrite (proj2 (Nat.ltb_lt _ _) Hi), (proj2 (Nat.ltb_lt _ _) Hj). cbn. auto.
Qed.
Lemma create_ok : (2 * N <= Nnodemax)%nat -> (1 <= N)%nat -> (forall i j, (i < N)%nat -> (j < N)%nat -> dist (r i) (r j) < big_number) -> forall fuel, (N <= fuel)%nat ->
  exists T, CreateNbodySystemTree ndim fuel Nnodemax N r = Ok (T, (2 * N - 1)%nat) /\ good T (2 * N - 1).
Proof. intros HM HN HD fuel HF. destruct (grow_ok HM HN fuel _ _ (good_init HD) ltac:(lia)) as (T & E & G & _). exists T. auto. Qed.
(** Stars that are each other's nearest are joined. *)
Lemma create_pair : (2 * N <= Nnodemax)%nat -> (forall i j, (i < N)%nat -> (j < N)%nat -> dist (r i) (r j) < big_number) -> forall fuel, (N <= fuel)%nat ->
  forall i j T n, (i < j < N)%nat -> (forall k, (k < N)%nat -> k <> i -> k <> j -> dist (r i) (r j) < dist (r i) (r k) /\ dist (r i) (r j) < dist (r j) (r k)) ->
  CreateNbodySystemTree ndim fuel Nnodemax N r = Ok (T, n) -> paired (T, n) i j.
Proof.
  intros HM HD fuel HF i j T n Hij HS HE. unfold CreateNbodySystemTree in HE. destruct fuel as [|fuel]; [lia|]. cbn [grow] in HE.
  destruct (Nat.ltb_spec N Nnodemax); [|lia]. pose proof (good_init HD) as G. assert (LF : length (freelist (init_tree N r) N) = N) by (now rewrite free_init, seq_length).
  destruct (Nat.eqb_spec (length (freelist (init_tree N r) N)) 1); [lia|].
  destruct (round HM _ _ G n0 ltac:(lia)) as (T1 & n1 & E1 & G1 & L1 & _ & P1). rewrite E1 in HE. cbn [bind] in HE.
  destruct (grow_ok HM ltac:(lia) fuel T1 n1 G1 ltac:(lia)) as (T2 & E2 & G2 & K2). rewrite E2 in HE. injection HE as <- <-.
  assert (RP : forall x, (x < N)%nat -> n_rpos (init_tree N r x) = r x) by (intros x Hx; unfold init_tree; rewrite (proj2 (Nat.ltb_lt _ _) Hx); reflexivity).
  assert (HI : forall x, (x < N)%nat -> In x (freelist (init_tree N r) N)) by (intros x Hx; rewrite free_init; apply in_seq; lia).
  assert (NEAR : forall a b, (a < N)%nat -> (b < N)%nat -> a <> b -> (forall k, (k < N)%nat -> k <> a -> k <> b -> dist (r a) (r b) < dist (r a) (r k)) ->
            fst (nearest ndim (init_tree N r) (freelist (init_tree N r) N) a) = Some b).
  { intros a b Ha Hb Hab HK. pose proof (nearest_closest ndim (init_tree N r) _ a (free_sorted (init_tree N r) N)) as C. destruct (fst (nearest ndim (init_tree N r) (freelist (init_tree N r) N) a)) as [c|].
    - destruct C as (C1 & C2 & C3). apply in_free in C1. destruct C1 as (C1 & _). specialize (C3 b (HI b Hb) (not_eq_sym Hab)). rewrite !RP in C3 by assumption.
      destruct (Nat.eq_dec c b) as [->|Hc]; [reflexivity|]. specialize (HK c C1 C2 Hc). destruct C3 as [?|[? _]]; lra.
    - specialize (C b (HI b Hb) (not_eq_sym Hab)). rewrite !RP in C by assumption. specialize (HD a b Ha Hb). lra. }
  destruct (P1 i j) as (c & Hc & Ei & Ej).
  - apply HI. lia.
  - apply HI. lia.
  - lia.
  - apply NEAR; try lia. intros k Hk Hki Hkj. apply (HS k); auto.
  - apply NEAR; try lia. intros k Hk Hkj Hki. rewrite (L_NNTree.dist_sym ndim (r j) (r i)). apply (HS k); auto.
  - exists c. cbn [fst snd] in *. destruct (K2 c Hc) as (-> & ->). pose proof (g_count _ _ _ _ _ G1). pose proof (g_low _ _ _ _ _ G1).
    split; [|auto]. destruct (le_lt_dec (2 * N - 1) c); [|lia]. exfalso.
    assert (In (n1 - 1)%nat (freelist T1 n1)).
    { apply in_free. split; [lia|]. destruct (n_par (T1 (n1 - 1)%nat)) as [p|] eqn:EP; [|reflexivity]. exfalso. destruct (g_par _ _ _ _ _ G1 (n1 - 1) p ltac:(lia) EP) as (H1' & H2').
      destruct (g_node _ _ _ _ _ G1 p H1') as (a & b & Ea & Eb & _ & La & Lb & _). destruct H2' as [H2'|H2']; rewrite H2' in *; [injection Ea as <-|injection Eb as <-]; lia. }
    destruct (freelist T1 n1); [contradiction|cbn in *; lia].
Qed.
End Grow.
