(** Lemmas on the exchange of ghosts: communication. *)
From Verif Require Import Prelude L_Prelude Vec S_Tree L_Tree L_KDTop M_Util S_Util L_Util M_Store L_Store M_Sync L_Sync M_Return S_Return.
From Coq Require Import Reals Lra.
Local Open Scope Z_scope.

Definition zs (n : Z) : list Z := zseq 0 (Z.to_nat n).
(** All that precedes item [n]. *)
Definition upto {A} (f : Z -> list A) (n : Z) : list A := concat (map f (zs n)).
Definition mat {A} (N : Z) (f : Z -> Z -> A) : list (list A) := map (fun q => map (f q) (zs N)) (zs N).

Lemma zs_len : forall n, 0 <= n -> zlen (zs n) = n. Proof. intros n H. unfold zlen, zs. rewrite zseq_length. lia. Qed.
Lemma zs_S : forall n, 0 <= n -> zs (n + 1) = zs n ++ [n].
Proof. intros n H. unfold zs. replace (Z.to_nat (n + 1)) with (Z.to_nat n + 1)%nat by lia. rewrite zseq_app. cbn [zseq]. do 2 f_equal. lia. Qed.
Lemma upto_S : forall {A} (f : Z -> list A) n, 0 <= n -> upto f (n + 1) = upto f n ++ f n.
Proof. intros A f n H. unfold upto. rewrite zs_S, map_app, concat_app by exact H. cbn. now rewrite app_nil_r. Qed.
Lemma upto_split : forall {A} (f : Z -> list A) n N, 0 <= n < N -> exists post, upto f N = upto f n ++ f n ++ post.
Proof.
  intros A f n N H. exists (concat (map f (zseq (n + 1) (Z.to_nat (N - n - 1))))). unfold upto, zs. replace (Z.to_nat N) with (Z.to_nat n + S (Z.to_nat (N - n - 1)))%nat by lia.
  rewrite zseq_app, map_app, concat_app. f_equal. cbn [zseq map concat]. f_equal; f_equal; [lia|]. f_equal. f_equal. lia.
Qed.
Lemma aget_zs : forall {A} (g : Z -> A) N r, 0 <= r < N -> aget (map g (zs N)) r = Ok (g r).
Proof. intros A g N r H. apply aget_map_zseq. exact H. Qed.
Lemma aget_mat : forall {A} N (f : Z -> Z -> A) q r, 0 <= q < N -> 0 <= r < N -> aget2 (mat N f) q r = Ok (f q r).
Proof. intros A N f q r Hq Hr. unfold aget2, mat. rewrite aget_zs by exact Hq. cbn [bind]. now apply aget_zs. Qed.
Lemma zlen_nonneg : forall {A} (l : list A), 0 <= zlen l. Proof. intros. unfold zlen. lia. Qed.
Lemma zlen0 : forall {A} (l : list A), zlen l = 0 -> l = []. Proof. intros A [|x l] H; [reflexivity|]. unfold zlen in H. cbn in H. lia. Qed.

Lemma block_mid : forall {A} (a b c : list A), block (a ++ b ++ c) (zlen a) (zlen b) = Ok b.
Proof.
  intros A a b c. unfold block. replace ((0 <=? zlen a) && (0 <=? zlen b) && (zlen a + zlen b <=? zlen (a ++ b ++ c))) with true.
  2:{ symmetry. rewrite !andb_true_iff, !Z.leb_le, !L_Sync.zlen_app. unfold zlen. lia. }
  f_equal. unfold zlen. rewrite !Nat2Z.id. rewrite skipn_app, skipn_all, Nat.sub_diag. cbn [skipn app]. rewrite firstn_app, Nat.sub_diag, firstn_all, firstn_O. apply app_nil_r.
Qed.

(** ** Alltoallv *)
Section A2A.
Context {A : Type}.
Variables (N : Z) (M : Z -> Z -> list A) (scounts sdispls rcounts rdispls : list (list Z)).
Hypothesis HC : forall q r, 0 <= q < N -> 0 <= r < N ->
  aget2 scounts q r = Ok (zlen (M q r)) /\ aget2 sdispls q r = Ok (zlen (upto (M q) r)) /\
  aget2 rcounts r q = Ok (zlen (M q r)) /\ aget2 rdispls r q = Ok (zlen (upto (fun q' => M q' r) q)).
Lemma a2a_at : forall n q r rest, 0 <= r < N -> 0 <= q -> q + Z.of_nat n = N ->
  zlen rest + zlen (upto (fun q' => M q' r) q) = zlen (upto (fun q' => M q' r) N) ->
  Alltoallv_at n q r (map (fun q => upto (M q) N) (zs N)) scounts sdispls rcounts rdispls (upto (fun q' => M q' r) q ++ rest) = Ok (upto (fun q' => M q' r) N).
Proof.
  induction n as [|n IH]; intros q r rest Hr Hq HN HL; cbn [Alltoallv_at].
  - replace q with N in * by lia. assert (rest = []) as -> by (apply zlen0; lia). now rewrite app_nil_r.
  - destruct (HC q r ltac:(lia) Hr) as (E1 & E2 & E3 & E4). rewrite E1. cbn [bind]. rewrite E3. cbn [bind]. rewrite Z.eqb_refl. cbn [negb].
    rewrite aget_zs by lia. cbn [bind]. rewrite E2. cbn [bind]. destruct (upto_split (M q) r N Hr) as (post & ->). rewrite block_mid. cbn [bind]. rewrite E4. cbn [bind].
    destruct (upto_split (fun q' => M q' r) q N ltac:(lia)) as (post' & EP). rewrite EP, !L_Sync.zlen_app in HL. pose proof (zlen_nonneg post').
    assert (X : exists r1 r2, rest = r1 ++ r2 /\ length r1 = length (M q r)).
    { exists (firstn (length (M q r)) rest), (skipn (length (M q r)) rest). split; [symmetry; apply firstn_skipn|]. rewrite firstn_length. unfold zlen in *. lia. }
    destruct X as (r1 & r2 & -> & L1). rewrite blit_ok by lia. cbn [bind]. rewrite app_assoc, <- (upto_S (fun q' => M q' r)) by lia. apply IH; try lia.
    rewrite (upto_S (fun q' => M q' r)) by lia. rewrite EP. rewrite !L_Sync.zlen_app in *. unfold zlen in *. lia.
Qed.
Lemma a2a_ok : forall recvs, (forall r, 0 <= r < N -> exists b, aget recvs r = Ok b /\ zlen b = zlen (upto (fun q => M q r) N)) ->
  Alltoallv N (map (fun q => upto (M q) N) (zs N)) scounts sdispls rcounts rdispls recvs = Ok (map (fun r => upto (fun q => M q r) N) (zs N)).
Proof.
  intros recvs HR. unfold Alltoallv. apply each_ok. intros r Hr. destruct (HR r Hr) as (b & -> & Lb). cbn [bind].
  apply (a2a_at (Z.to_nat N) 0 r b Hr); [lia|lia|]. rewrite <- Lb. unfold upto. cbn. unfold zlen. cbn. lia.
Qed.
End A2A.

Lemma upto_single : forall {A} (g : Z -> A) n, 0 <= n -> upto (fun r => [g r]) n = map g (zs n).
Proof. intros A g n H. unfold upto. induction (zs n) as [|x l IH]; cbn; [reflexivity|]. now rewrite IH. Qed.
Lemma aget_repeat_gen : forall {A} (x : A) n v, 0 <= v < Z.of_nat n -> aget (repeat x n) v = Ok x.
Proof.
  intros A x n v H. apply aget_nth_error; [lia|]. rewrite (nth_error_nth' _ x) by (rewrite repeat_length; lia). f_equal. apply nth_repeat.
Qed.
Lemma alltoall_ok : forall N (f : Z -> Z -> Z) old, 0 <= N -> square N old ->
  Alltoall N (mat N f) old = Ok (mat N (fun r q => f q r)).
Proof.
  intros N f old HN [SO1 SO2]. unfold Alltoall.
  replace (mat N f) with (map (fun q => upto (fun r => [f q r]) N) (zs N)).
  2:{ unfold mat. apply map_ext. intros q. now apply upto_single. }
  rewrite (a2a_ok N (fun q r => [f q r])).
  - f_equal. unfold mat. apply map_ext. intros r. now apply upto_single.
  - intros q r Hq Hr. assert (C : forall a b, 0 <= a < N -> 0 <= b < N -> aget2 (map (fun _ => repeat 1 (Z.to_nat N)) (zseq 0 (Z.to_nat N))) a b = Ok 1).
    { intros a b Ha Hb. unfold aget2. rewrite (aget_map_zseq (fun _ => repeat 1 (Z.to_nat N))) by exact Ha. cbn [bind]. apply aget_repeat_gen. lia. }
    assert (D : forall a b, 0 <= a < N -> 0 <= b < N -> aget2 (map (fun _ => zseq 0 (Z.to_nat N)) (zseq 0 (Z.to_nat N))) a b = Ok b).
    { intros a b Ha Hb. unfold aget2. rewrite (aget_map_zseq (fun _ => zseq 0 (Z.to_nat N))) by exact Ha. cbn [bind]. rewrite zseq_aget by lia. f_equal. }
    rewrite !C, !D by lia. rewrite !upto_single by lia. unfold zlen. rewrite !map_length. unfold zs. rewrite !zseq_length. repeat split; f_equal; lia.
  - intros r Hr. destruct (aget_in old r) as (b & Eb); [lia|]. exists b. split; [exact Eb|]. rewrite upto_single by lia. rewrite (SO2 b).
    + unfold zlen. rewrite map_length. unfold zs. rewrite zseq_length. lia.
    + apply aget_Ok_inv in Eb as [_ Eb]. eapply nth_error_In, Eb.
Qed.

(** ** Displacements *)
Lemma running_get : forall {A} (f : Z -> list A) n a c i, 0 <= i < Z.of_nat n ->
  aget (running c (map (fun x => zlen (f x)) (zseq a n))) i = Ok (c + zlen (concat (map f (zseq a (Z.to_nat i))))).
Proof.
  intros A f. induction n as [|n IH]; intros a c i Hi; [lia|]. cbn [zseq map running]. destruct (Z.eq_dec i 0) as [->|N0].
  - cbn. f_equal. unfold zlen. cbn. lia.
  - match goal with |- aget (c :: ?l) i = _ => assert (X : aget (c :: l) i = aget l (i - 1)) end.
    { match goal with |- aget (c :: ?l) _ = _ => pose proof (aget_app2 [c] l (i - 1) ltac:(lia)) as Y end. change (zlen [c]) with 1 in Y. replace (1 + (i - 1)) with i in Y by lia. exact Y. }
    rewrite X, IH by lia. f_equal.
    replace (Z.to_nat i) with (S (Z.to_nat (i - 1))) by lia. cbn [zseq map concat]. rewrite L_Sync.zlen_app. lia.
Qed.
Lemma running_upto : forall {A} (f : Z -> list A) N i, 0 <= i < N -> aget (running 0 (map (fun x => zlen (f x)) (zs N))) i = Ok (zlen (upto f i)).
Proof. intros A f N i H. unfold zs. rewrite running_get by lia. unfold upto, zs. f_equal. Qed.
Lemma zsum_upto : forall {A} (f : Z -> list A) n, zsum (map (fun x => zlen (f x)) (zs n)) = zlen (upto f n).
Proof. intros A f n. unfold upto. induction (zs n) as [|x l IH]; [reflexivity|]. cbn [map zsum concat]. rewrite L_Sync.zlen_app, IH. reflexivity. Qed.
Lemma fold_add : forall l a, fold_left Z.add l a = a + zsum l.
Proof. induction l as [|x l IH]; intros a; cbn; [lia|]. rewrite IH. lia. Qed.
Lemma firstn_zs : forall n N, 0 <= n <= N -> firstn (Z.to_nat n) (zs N) = zs n.
Proof.
  intros n N H. unfold zs. replace (Z.to_nat N) with (Z.to_nat n + Z.to_nat (N - n))%nat by lia. rewrite zseq_app.
  rewrite firstn_app, zseq_length, Nat.sub_diag, firstn_O, app_nil_r. apply firstn_all2. rewrite zseq_length. lia.
Qed.
Lemma displs_ok : forall {A} (f : Z -> list A) N, 0 < N ->
  exists d, compute_displs (repeat 0 (Z.to_nat N)) (map (fun x => zlen (f x)) (zs N)) = Ok d /\ zlen d = N /\ forall j, 0 <= j < N -> aget d j = Ok (zlen (upto f j)).
Proof.
  intros A f N HN. assert (L1 : zlen (repeat 0 (Z.to_nat N)) = N) by (unfold zlen; rewrite repeat_length; lia).
  assert (L2 : zlen (map (fun x => zlen (f x)) (zs N)) = N) by (unfold zlen; rewrite map_length; unfold zs; rewrite zseq_length; lia).
  destruct (compute_displs_spec (repeat 0 (Z.to_nat N)) (map (fun x => zlen (f x)) (zs N))) as (d & E & L & G); [lia|].
  exists d. split; [exact E|]. split; [lia|]. intros j Hj. rewrite G by lia. f_equal. rewrite firstn_map, firstn_zs by lia. apply zsum_upto.
Qed.
Lemma collect_ok : forall {A B} (f : A -> res B) g l, (forall x, In x l -> f x = Ok (g x)) -> collect f l = Ok (map g l).
Proof.
  intros A B f g. induction l as [|x l IH]; intros H; [reflexivity|]. cbn [collect map]. rewrite H by now left. cbn [bind]. rewrite IH; [reflexivity|]. intros y Hy. apply H. now right.
Qed.

(** ** A square list of lists *)
Definition ent {A} (d : A) (E : list (list A)) (q r : Z) : A := nth (Z.to_nat r) (nth (Z.to_nat q) E []) d.
Lemma list_zs : forall {A} (d : A) l, l = map (fun i => nth (Z.to_nat i) l d) (zs (zlen l)).
Proof.
  intros A d l. apply nth_ext with (d := d) (d' := d).
  - rewrite map_length. unfold zs. rewrite zseq_length. unfold zlen. lia.
  - intros n Hn. rewrite (nth_indep (map (fun i => nth (Z.to_nat i) l d) (zs (zlen l))) d ((fun i => nth (Z.to_nat i) l d) 0)) by (rewrite map_length; unfold zs; rewrite zseq_length; unfold zlen; lia).
    rewrite (map_nth (fun i => nth (Z.to_nat i) l d)). unfold zs. rewrite zseq_nth by (unfold zlen; lia). f_equal. lia.
Qed.
Lemma square_mat : forall {A} (d : A) N E, square N E -> E = mat N (ent d E).
Proof.
  intros A d N E [H1 H2]. unfold mat. rewrite (list_zs [] E) at 1. rewrite H1. apply map_ext_in. intros q Hq. unfold zs in Hq. rewrite zseq_in in Hq.
  unfold ent. rewrite (list_zs d (nth (Z.to_nat q) E [])) at 1. rewrite (H2 (nth (Z.to_nat q) E [])); [reflexivity|]. apply nth_In. unfold zlen in H1. lia.
Qed.
Lemma square_aget : forall {A} (d : A) N E q r x, square N E -> aget2 E q r = Ok x -> 0 <= q < N /\ 0 <= r < N /\ x = ent d E q r.
Proof.
  intros A d N E q r x SQ H. assert (Hq : 0 <= q < N /\ 0 <= r < N).
  { destruct SQ as [H1 H2]. unfold aget2 in H. destruct (aget E q) as [e| | |] eqn:Ee; try discriminate. cbn [bind] in H. apply aget_Ok_inv in Ee as [R1 Ne]. apply aget_Ok_inv in H as [R2 _].
    apply nth_error_In in Ne. rewrite (H2 e Ne) in R2. lia. }
  split; [easy|]. split; [easy|]. rewrite (square_mat d N E SQ), aget_mat in H by easy. now injection H as ->.
Qed.
Lemma square_get : forall {A} (d : A) N E q r, square N E -> 0 <= q < N -> 0 <= r < N -> aget2 E q r = Ok (ent d E q r).
Proof. intros A d N E q r SQ Hq Hr. rewrite (square_mat d N E SQ) at 1. now apply aget_mat. Qed.
Lemma before_upto : forall N E r, square N E -> 0 <= r < N -> forall q, 0 <= q <= N -> before E r (Z.to_nat q) = zlen (upto (fun q' => ent [] E q' r) q).
Proof.
  intros N E r SQ Hr q Hq. unfold upto. 
  assert (G : forall n F a, (forall i, (i < n)%nat -> exists e, nth_error F i = Some e /\ aget e r = Ok (ent [] E (a + Z.of_nat i) r)) -> before F r n = zlen (concat (map (fun q' => ent [] E q' r) (zseq a n)))).
  { induction n as [|n IH]; intros F a HF; [now destruct F|]. destruct F as [|e F]; [destruct (HF 0%nat) as (e & He & _); [lia|discriminate]|].
    cbn [before zseq map concat]. destruct (HF 0%nat) as (e' & He & Ge); [lia|]. injection He as <-. rewrite Ge. rewrite L_Sync.zlen_app. f_equal; [do 2 f_equal; lia|].
    apply IH. intros i Hi. destruct (HF (S i)) as (e' & He & Ge'); [lia|]. exists e'. split; [exact He|]. rewrite Ge'. do 2 f_equal. lia. }
  unfold zs. apply G. intros i Hi. destruct SQ as [H1 H2] eqn:ES. destruct (nth_error E i) as [e|] eqn:Ee; [|apply nth_error_None in Ee; unfold zlen in H1; lia].
  exists e. split; [reflexivity|]. assert (X : aget2 E (0 + Z.of_nat i) r = Ok (ent [] E (0 + Z.of_nat i) r)) by (apply (square_get [] N); auto; lia).
  unfold aget2 in X. rewrite (aget_nth_error E (0 + Z.of_nat i) e) in X; [exact X|lia|]. rewrite <- Ee. f_equal. lia.
Qed.
