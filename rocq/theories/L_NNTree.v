(** Construction of the nearest-neighbour tree. *)
From Verif Require Import Prelude Vec M_Box L_Box M_Hermite M_NNTree S_NNTree.
From Coq Require Import Reals Permutation Sorted.
Local Open Scope R_scope.

Section Build.
Variable ndim : nat.
Notation dist := (distsqd ndim).

(** ** Distances *)
Lemma dist_sym : forall x y, dist x y = dist y x.
Proof. intros. unfold distsqd, dot, vsub. apply sumf_ext. intros; ring. Qed.
Lemma dist_self : forall x, dist x x = 0.
Proof. intros. unfold distsqd, dot, vsub. rewrite (sumf_ext ndim _ (fun _ => 0)); [apply sumf_zero|intros; ring]. Qed.
Lemma sumf_mono : forall n f g, (forall k, (k < n)%nat -> f k <= g k) -> sumf n f <= sumf n g.
Proof. induction n; intros; cbn; [lra|]. assert (sumf n f <= sumf n g) by (apply IHn; intros; apply H; lia). specialize (H n ltac:(lia)). lra. Qed.
Lemma dist_mid : forall x y z, dist (fun k => 1 / 2 * (x k + y k)) z <= Rmax (dist x z) (dist y z).
Proof.
  intros x y z. assert (H : dist (fun k => 1 / 2 * (x k + y k)) z <= 1 / 2 * dist x z + 1 / 2 * dist y z).
  { unfold distsqd, dot, vsub. rewrite <- !sumf_scal, <- sumf_plus. apply sumf_mono. intros k _.
    pose proof (Rle_0_sqr (x k - y k)) as S. unfold Rsqr in S. lra. }
  pose proof (Rmax_l (dist x z) (dist y z)). pose proof (Rmax_r (dist x z) (dist y z)). lra.
Qed.

(** ** The nearest neighbour *)
Definition closest (T : tree) (l : list nat) (i : nat) (o : option nat) : Prop :=
  match o with
  | Some j => In j l /\ j <> i /\ forall k, In k l -> k <> i -> dist (n_rpos (T i)) (n_rpos (T j)) < dist (n_rpos (T i)) (n_rpos (T k)) \/
                (dist (n_rpos (T i)) (n_rpos (T j)) = dist (n_rpos (T i)) (n_rpos (T k)) /\ (j <= k)%nat)
  | None => forall k, In k l -> k <> i -> big_number <= dist (n_rpos (T i)) (n_rpos (T k))
  end.
Lemma near_fold : forall T i l2 l1 acc, StronglySorted lt (l1 ++ l2) ->
  closest T l1 i (fst acc) -> snd acc = match fst acc with Some j => dist (n_rpos (T i)) (n_rpos (T j)) | None => big_number end ->
  closest T (l1 ++ l2) i (fst (fold_left (near_step ndim T i) l2 acc)).
Proof.
  intros T i l2. induction l2 as [|j l2 IH]; intros l1 acc HS HC HR; [now rewrite app_nil_r|].
  cbn [fold_left]. replace (l1 ++ j :: l2) with ((l1 ++ [j]) ++ l2) in * by (rewrite <- app_assoc; reflexivity).
  assert (HB : forall k, In k l1 -> (k < j)%nat).
  { intros k Hk. clear -HS Hk. induction l1 as [|a l1 IH]; [destruct Hk|]. cbn in HS. inversion HS; subst. destruct Hk as [->|Hk]; [|auto].
    rewrite Forall_forall in H2. apply H2. apply in_or_app. left. apply in_or_app. right. now left. }
  apply IH; [exact HS| |]; unfold near_step; destruct (Nat.eqb_spec i j) as [->|Hne].
  - destruct (fst acc) as [a|]; cbn in *.
    + destruct HC as (H1 & H2 & H3). split; [apply in_or_app; now left|]. split; [exact H2|]. intros k Hk Hki. apply in_app_or in Hk. destruct Hk as [Hk|[->|[]]]; [now apply H3|congruence].
    + intros k Hk Hki. apply in_app_or in Hk. destruct Hk as [Hk|[->|[]]]; [now apply HC|congruence].
  - destruct (rltb (dist (n_rpos (T i)) (n_rpos (T j))) (snd acc)) eqn:E.
    + apply rltb_true in E. cbn [fst closest]. split; [apply in_or_app; right; now left|]. split; [congruence|].
      intros k Hk Hki. apply in_app_or in Hk. destruct Hk as [Hk|[->|[]]]; [|right; split; [reflexivity|lia]]. left.
      rewrite HR in E. destruct (fst acc) as [a|]; cbn in HC.
      * destruct HC as (_ & _ & H3). destruct (H3 k Hk Hki) as [?|[? _]]; lra.
      * specialize (HC k Hk Hki). lra.
    + apply rltb_false in E. rewrite HR in E. destruct (fst acc) as [a|]; cbn in *.
      * destruct HC as (H1 & H2 & H3). split; [apply in_or_app; now left|]. split; [exact H2|]. intros k Hk Hki. apply in_app_or in Hk. destruct Hk as [Hk|[->|[]]]; [now apply H3|].
        specialize (HB a H1). destruct (Rle_lt_or_eq_dec _ _ E); [now left|right; split; [assumption|lia]].
      * intros k Hk Hki. apply in_app_or in Hk. destruct Hk as [Hk|[->|[]]]; [now apply HC|exact E].
  - exact HR.
  - destruct (rltb _ _); [reflexivity|exact HR].
Qed.
Lemma nearest_closest : forall T l i, StronglySorted lt l -> closest T l i (fst (nearest ndim T l i)).
Proof. intros T l i HS. unfold nearest. apply (near_fold T i l []); cbn; auto. intros k []. Qed.
Lemma nearest_rpos : forall T T' l i, (forall x, n_rpos (T x) = n_rpos (T' x)) -> nearest ndim T l i = nearest ndim T' l i.
Proof.
  intros T T' l i H. unfold nearest. generalize (@None nat, big_number). induction l as [|j l IH]; intros acc; [reflexivity|].
  cbn [fold_left]. rewrite <- IH. f_equal. unfold near_step. now rewrite !H.
Qed.
Lemma find_is : forall free T x, find_nearest ndim free T x = if existsb (Nat.eqb x) free then set_near (T x) (nearest ndim T free x) else T x.
Proof.
  intros free T x. unfold find_nearest. cut (forall l T', (forall y, n_rpos (T' y) = n_rpos (T y)) -> (forall y, T' y = T y \/ T' y = set_near (T y) (nearest ndim T free y)) ->
    fold_left (fun T i => put T i (set_near (T i) (nearest ndim T free i))) l T' x = if existsb (Nat.eqb x) l then set_near (T x) (nearest ndim T free x) else T' x).
  { intros H. apply H; auto. }
  induction l as [|i l IH]; intros T' HR HT; [reflexivity|]. cbn [fold_left existsb].
  assert (EN : set_near (T' i) (nearest ndim T' free i) = set_near (T i) (nearest ndim T free i)).
  { rewrite (nearest_rpos T' T) by assumption. destruct (HT i) as [->| ->]; reflexivity. }
  rewrite IH.
  - unfold put. destruct (existsb (Nat.eqb x) l) eqn:E; [now rewrite Bool.orb_true_r|]. rewrite Bool.orb_false_r. destruct (Nat.eqb_spec x i) as [->|]; [exact EN|reflexivity].
  - intros y. unfold put. destruct (Nat.eqb_spec y i) as [->|]; [cbn; apply HR|apply HR].
  - intros y. unfold put. destruct (Nat.eqb_spec y i) as [->|]; [right; exact EN|apply HT].
Qed.

(** ** A closest pair is a pair of mutual neighbours *)
Lemma least : forall (l : list nat) (f : nat -> R), l <> [] -> exists i, In i l /\ forall k, In k l -> f i < f k \/ (f i = f k /\ (i <= k)%nat).
Proof.
  induction l as [|a l IH]; intros f H; [congruence|]. destruct l as [|b l].
  - exists a. split; [now left|]. intros k [->|[]]. right. split; [reflexivity|lia].
  - destruct (IH f ltac:(discriminate)) as (i & Hi & HL).
    destruct (total_order_T (f a) (f i)) as [[L|E]|G].
    + exists a. split; [now left|]. intros k [->|Hk]; [right; split; [reflexivity|lia]|]. left. destruct (HL k Hk) as [?|[? _]]; lra.
    + destruct (le_lt_dec a i).
      * exists a. split; [now left|]. intros k [->|Hk]; [right; split; [reflexivity|lia]|]. destruct (HL k Hk) as [?|[? ?]]; [left; lra|right; split; [lra|lia]].
      * exists i. split; [now right|]. intros k [->|Hk]; [right; split; [lra|lia]|now apply HL].
    + exists i. split; [now right|]. intros k [->|Hk]; [left; lra|now apply HL].
Qed.
Lemma mutual : forall T l (near : nat -> option nat), (forall i, In i l -> closest T l i (near i)) -> (2 <= length l)%nat -> NoDup l ->
  (forall i j, In i l -> In j l -> dist (n_rpos (T i)) (n_rpos (T j)) < big_number) ->
  exists i j, In i l /\ In j l /\ near i = Some j /\ near j = Some i.
Proof.
  intros T l near HC HL ND HB. set (d := fun i j => dist (n_rpos (T i)) (n_rpos (T j))).
  assert (HN : forall i, In i l -> exists j, near i = Some j /\ In j l /\ j <> i).
  { intros i Hi. specialize (HC i Hi). destruct (near i) as [j|]; [exists j; destruct HC as (? & ? & _); auto|]. exfalso.
    assert (exists k, In k l /\ k <> i) as (k & Hk & Hki).
    { destruct l as [|a [|b l]]; cbn in HL; try lia. inversion ND as [|? ? NA ND']; subst. destruct (Nat.eq_dec a i) as [->|]; [exists b|exists a]; split; [right; now left| |now left|assumption].
      intros ->. apply NA. now left. }
    specialize (HC k Hk Hki). specialize (HB i k Hi Hk). unfold d in *. lra. }
  destruct (least l (fun i => match near i with Some j => d i j | None => 0 end)) as (i & Hi & Hmin); [destruct l; [cbn in HL; lia|discriminate]|].
  destruct (HN i Hi) as (j & Ej & Hj & Hji). destruct (HN j Hj) as (k & Ek & Hk & Hkj). destruct (HN k Hk) as (m & Em & Hm & Hmk).
  exists i, j. repeat split; auto. rewrite Ek. f_equal.
  pose proof (HC j Hj) as Cj. rewrite Ek in Cj. destruct Cj as (_ & _ & Cj). specialize (Cj i Hi (not_eq_sym Hji)).
  pose proof (HC k Hk) as Ck. rewrite Em in Ck. destruct Ck as (_ & _ & Ck). specialize (Ck j Hj (not_eq_sym Hkj)).
  pose proof (Hmin j Hj) as M1. pose proof (Hmin k Hk) as M2. rewrite Ej, Ek in M1. rewrite Ej, Em in M2.
  assert (S1 : d i j = d j i) by apply dist_sym. assert (S2 : d j k = d k j) by apply dist_sym.
  change (d j k < d j i \/ d j k = d j i /\ (k <= i)%nat) in Cj. change (d k m < d k j \/ d k m = d k j /\ (m <= j)%nat) in Ck.
  destruct Cj as [?|[? ?]]; [destruct M1 as [?|[? ?]]; lra|]. destruct M2 as [?|[? ?]]; [destruct Ck as [?|[? ?]]; lra|]. lia.
Qed.
End Build.
