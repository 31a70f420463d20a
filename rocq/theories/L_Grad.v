(** Gradients. *)
From Verif Require Import Prelude L_Prelude Vec M_Box L_Box M_Force M_Matrix L_Matrix M_Mfv M_Grad S_Grad S_Mfv S_Stock L_Stock.
From Coq Require Import Reals Lra Lia Psatz FunctionalExtensionality.
Local Open Scope R_scope.

(** ** Invertible matrices *)
Lemma singular1 : forall A : mat, A O O = 0 -> exists x : vec, (exists k, (k < 1)%nat /\ x k <> 0) /\ forall i, (i < 1)%nat -> sumf 1 (fun j => A i j * x j) = 0.
Proof. intros A H. exists (fun _ => 1). split; [exists O; split; [lia | lra]|]. intros i Hi. lt3 i. cbn. rewrite H. ring. Qed.
Lemma singular2 : forall A : mat, A O 1%nat = A 1%nat O -> det2 A = 0 ->
  exists x : vec, (exists k, (k < 2)%nat /\ x k <> 0) /\ forall i, (i < 2)%nat -> sumf 2 (fun j => A i j * x j) = 0.
Proof.
  intros A S D. unfold det2 in D. destruct (Req_dec (A O O) 0) as [Z|Z].
  - assert (B0 : A O 1%nat = 0) by nra. exists (fun k => match k with O => 1 | _ => 0 end). split; [exists O; split; [lia | lra]|].
    intros i Hi. lt3 i; cbn; [rewrite Z | rewrite <- S, B0]; ring.
  - exists (fun k => match k with O => - A O 1%nat | _ => A O O end). split; [exists 1%nat; split; [lia | exact Z]|].
    intros i Hi. lt3 i; cbn; lra.
Qed.
Lemma singular3 : forall A : mat, (forall i j, A i j = A j i) -> det3 A = 0 ->
  exists x : vec, (exists k, (k < 3)%nat /\ x k <> 0) /\ forall i, (i < 3)%nat -> sumf 3 (fun j => A i j * x j) = 0.
Proof.
  intros A S D. unfold det3 in D.
  pose proof (S 1%nat O) as S1. pose proof (S 2%nat O) as S2. pose proof (S 2%nat 1%nat) as S3.
  set (a := A O O) in *. set (b := A O 1%nat) in *. set (c := A O 2%nat) in *. set (e := A 1%nat 1%nat) in *. set (f := A 1%nat 2%nat) in *. set (i := A 2%nat 2%nat) in *.
  rewrite S1, S2, S3 in D.
  assert (K : forall u v w, u <> 0 \/ v <> 0 \/ w <> 0 -> a * u + b * v + c * w = 0 -> b * u + e * v + f * w = 0 -> c * u + f * v + i * w = 0 ->
     exists x : vec, (exists k, (k < 3)%nat /\ x k <> 0) /\ forall i, (i < 3)%nat -> sumf 3 (fun j => A i j * x j) = 0).
  { intros u v w N E1 E2 E3. exists (fun k => match k with O => u | 1%nat => v | _ => w end). split.
    - destruct N as [N|[N|N]]; [exists O | exists 1%nat | exists 2%nat]; split; try lia; exact N.
    - intros r Hr. lt3 r; cbn; fold a b c e f i; rewrite ?S1, ?S2, ?S3; lra. }
  (* minors *)
  destruct (Req_dec (a * e - b * b) 0) as [M1|M1].
  2: { apply (K (b * f - c * e) (b * c - a * f) (a * e - b * b)); [right; right; exact M1| | |]; try ring. nra. }
  destruct (Req_dec (a * i - c * c) 0) as [M2|M2].
  2: { apply (K (c * f - b * i) (a * i - c * c) (b * c - a * f)); [right; left; exact M2| | |]; try ring. nra. }
  destruct (Req_dec (e * i - f * f) 0) as [M3|M3].
  2: { apply (K (e * i - f * f) (c * f - b * i) (b * f - c * e)); [left; exact M3| | |]; try ring. nra. }
  destruct (Req_dec (b * c - a * f) 0) as [M4|M4].
  2: { apply (K (c * f - b * i) (a * i - c * c) (b * c - a * f)); [right; right; exact M4| | |]; try ring. nra. }
  destruct (Req_dec (b * f - c * e) 0) as [M5|M5].
  2: { apply (K (b * f - c * e) (b * c - a * f) (a * e - b * b)); [left; exact M5| | |]; try ring. nra. }
  destruct (Req_dec (c * f - b * i) 0) as [M6|M6].
  2: { apply (K (c * f - b * i) (a * i - c * c) (b * c - a * f)); [left; exact M6| | |]; try ring. nra. }
  destruct (Req_dec a 0) as [Z|Z].
  - assert (b = 0) by nra. assert (c = 0) by nra. apply (K 1 0 0); [left; lra| | |]; nra.
  - apply (K (- b) a 0); [right; left; exact Z| | |]; lra.
Qed.
Lemma inverse_of : forall n A, (1 <= n <= 3)%nat -> determinant n A <> 0 -> is_id n (mmul n (InvertMatrix n A) A).
Proof.
  intros n A Hn D. assert (C : n = 1%nat \/ n = 2%nat \/ n = 3%nat) by lia. destruct C as [ -> |[ -> | -> ]]; unfold determinant in D;
  intros i j Hi Hj; lt3 i; lt3 j; unfold mmul; cbn; field; exact D.
Qed.
Lemma singular : forall n A, (1 <= n <= 3)%nat -> (forall i j, A i j = A j i) -> determinant n A = 0 ->
  exists x : vec, (exists k, (k < n)%nat /\ x k <> 0) /\ forall i, (i < n)%nat -> sumf n (fun j => A i j * x j) = 0.
Proof.
  intros n A Hn S D. assert (C : n = 1%nat \/ n = 2%nat \/ n = 3%nat) by lia. destruct C as [ -> |[ -> | -> ]];
  [apply singular1, D | apply singular2; [apply S | exact D] | apply singular3; [exact S | exact D]].
Qed.
Lemma kernel_singular : forall n A x, (1 <= n <= 3)%nat -> (exists k, (k < n)%nat /\ x k <> 0) -> (forall i, (i < n)%nat -> sumf n (fun j => A i j * x j) = 0) ->
  determinant n A = 0.
Proof.
  intros n A x Hn (k & Hk & Nx) Z. destruct (Req_dec (determinant n A) 0) as [E|N]; [exact E|]. exfalso. apply Nx.
  pose proof (inverse_of n A Hn N) as I. pose proof (I k) as Ik. revert Ik Z.
  assert (C : n = 1%nat \/ n = 2%nat \/ n = 3%nat) by lia. generalize (InvertMatrix n A). intros B Ik Z.
  assert (X : x k = sumf n (fun i => B k i * sumf n (fun j => A i j * x j))).
  { transitivity (sumf n (fun j => mmul n B A k j * x j)).
    - rewrite (sumf_ext n _ (fun i => (if Nat.eqb k i then 1 else 0) * x i)) by (intros i Hi; rewrite Ik by assumption; reflexivity).
      destruct C as [ -> |[ -> | -> ]]; lt3 k; cbn; ring.
    - unfold mmul. destruct C as [ -> |[ -> | -> ]]; cbn; ring. }
  rewrite X, (sumf_ext n _ (fun _ => 0)); [apply sumf_zero|]. intros i Hi. rewrite Z by exact Hi. ring.
Qed.

(** ** The sums *)
Section Sums.
Variables (n : nat) (w0_s2 w1 : R -> R).
Notation weight := (weight n w0_s2).
Lemma e_sum : forall p l E k kk, e_loop n w0_s2 p l E k kk = E k kk + lsum (fun q => vsub (g_r q) (g_r p) k * vsub (g_r q) (g_r p) kk * weight p q) l.
Proof. intros p l. induction l as [|q l IH]; intros E k kk; cbn [e_loop lsum]; [ring|]. rewrite IH. ring. Qed.
Lemma tmp_sum : forall p l G var k, tmp_loop n w0_s2 p l G var k = G var k + lsum (fun q => vsub (g_r q) (g_r p) k * (g_W q var - g_W p var) * weight p q) l.
Proof. intros p l. induction l as [|q l IH]; intros G var k; cbn [tmp_loop lsum]; [ring|]. rewrite IH. ring. Qed.
Lemma sph_zero : forall p l G var k, (forall q, In q l -> g_W q var = g_W p var) -> sph_loop n w1 p l G var k = G var k.
Proof.
  intros p l. induction l as [|q l IH]; intros G var k H; cbn [sph_loop]; [reflexivity|].
  assert (H' : forall q, In q l -> g_W q var = g_W p var) by (intros; apply H; right; assumption).
  destruct (Req_EM_T _ 0); rewrite IH by exact H'; [reflexivity|]. rewrite (H q) by (left; reflexivity). ring.
Qed.
Lemma lsum_sumf : forall {A} (f : A -> nat -> R) l, lsum (fun q => sumf n (f q)) l = sumf n (fun k => lsum (fun q => f q k) l).
Proof.
  intros A f l. induction l as [|q l IH]; cbn [lsum]; [symmetry; apply sumf_zero|]. rewrite IH, <- sumf_plus. reflexivity.
Qed.
Lemma e_times : forall p l x i, sumf n (fun j => e_loop n w0_s2 p l (fun _ _ => 0) i j * x j) = lsum (fun q => vsub (g_r q) (g_r p) i * dot n x (vsub (g_r q) (g_r p)) * weight p q) l.
Proof.
  intros p l x i. rewrite (sumf_ext n _ (fun j => lsum (fun q => vsub (g_r q) (g_r p) i * vsub (g_r q) (g_r p) j * weight p q * x j) l)).
  - rewrite <- lsum_sumf. apply lsum_ext. intros q _. unfold dot.
    rewrite (sumf_ext n _ (fun j => vsub (g_r q) (g_r p) i * weight p q * (x j * vsub (g_r q) (g_r p) j))) by (intros; ring). rewrite sumf_scal. ring.
  - intros j _. rewrite e_sum, Rplus_0_l. rewrite Rmult_comm, <- lsum_scal. apply lsum_ext. intros. ring.
Qed.
Lemma quad : forall p l x, sumf n (fun i => x i * sumf n (fun j => e_loop n w0_s2 p l (fun _ _ => 0) i j * x j)) = lsum (fun q => dot n x (vsub (g_r q) (g_r p)) * dot n x (vsub (g_r q) (g_r p)) * weight p q) l.
Proof.
  intros p l x. rewrite (sumf_ext n _ (fun i => lsum (fun q => x i * (vsub (g_r q) (g_r p) i * dot n x (vsub (g_r q) (g_r p)) * weight p q)) l)).
  - rewrite <- lsum_sumf. apply lsum_ext. intros q _. unfold dot at 2.
    rewrite (sumf_ext n _ (fun i => dot n x (vsub (g_r q) (g_r p)) * weight p q * (x i * vsub (g_r q) (g_r p) i))) by (intros; ring). rewrite sumf_scal. unfold dot. ring.
  - intros i _. rewrite e_times. rewrite lsum_scal. reflexivity.
Qed.
Hypothesis Hn : (1 <= n <= 3)%nat.
Lemma spanning_det : forall p l, (forall q, In q l -> 0 <= weight p q) -> spanning n (weight p) p l -> determinant n (e_loop n w0_s2 p l (fun _ _ => 0)) <> 0.
Proof.
  intros p l W S D. assert (Sy : forall i j, e_loop n w0_s2 p l (fun _ _ => 0) i j = e_loop n w0_s2 p l (fun _ _ => 0) j i) by (intros i j; rewrite !e_sum; f_equal; apply lsum_ext; intros; ring).
  destruct (singular n _ Hn Sy D) as (x & Hx & Z).
  destruct (S x Hx) as (q & Iq & Pq & Nq). set (E := e_loop n w0_s2 p l (fun _ _ => 0)) in *.
  assert (P : 0 < sumf n (fun i => x i * sumf n (fun j => E i j * x j))).
  { unfold E. rewrite quad. apply Rlt_le_trans with (dot n x (vsub (g_r q) (g_r p)) * dot n x (vsub (g_r q) (g_r p)) * weight p q).
    - apply Rmult_lt_0_compat; [|exact Pq]. nra.
    - revert Iq. clear -W. induction l as [|y l IH]; [intros []|]. intros [->|Iq]; cbn [lsum].
      + assert (0 <= lsum (fun q => dot n x (vsub (g_r q) (g_r p)) * dot n x (vsub (g_r q) (g_r p)) * weight p q) l); [|lra].
        clear IH. induction l as [|z l IH]; cbn [lsum]; [lra|]. assert (0 <= weight p z) by (apply W; right; left; reflexivity).
        assert (0 <= lsum (fun q => dot n x (vsub (g_r q) (g_r p)) * dot n x (vsub (g_r q) (g_r p)) * weight p q) l) by (apply IH; intros u [->|Hu]; apply W; [left; reflexivity | right; right; exact Hu]).
        assert (0 <= dot n x (vsub (g_r z) (g_r p)) * dot n x (vsub (g_r z) (g_r p))) by nra. nra.
      + assert (0 <= weight p y) by (apply W; left; reflexivity). specialize (IH (fun u Hu => W u (or_intror Hu)) Iq).
        assert (0 <= dot n x (vsub (g_r y) (g_r p)) * dot n x (vsub (g_r y) (g_r p))) by nra. nra. }
  rewrite (sumf_ext n _ (fun _ => 0)) in P; [rewrite sumf_zero in P; lra|]. intros i Hi. rewrite Z by exact Hi. ring.
Qed.
Lemma flat_det : forall p l x, (exists k, (k < n)%nat /\ x k <> 0) -> (forall q, In q l -> weight p q = 0 \/ dot n x (vsub (g_r q) (g_r p)) = 0) ->
  determinant n (e_loop n w0_s2 p l (fun _ _ => 0)) = 0.
Proof.
  intros p l x Hx H. apply (kernel_singular n _ x Hn Hx). intros i Hi. rewrite e_times. apply lsum_zero. intros q Hq. destruct (H q Hq) as [->| ->]; ring.
Qed.
Lemma grad_linear : forall p l var g, linear_in n var g p l ->
  let p' := ComputeGradients n w0_s2 w1 p l in g_bad p' = false -> forall k, (k < n)%nat -> g_grad p' var k = g k.
Proof.
  intros p l var g L. cbv zeta. unfold ComputeGradients. set (E := e_loop n w0_s2 p l (fun _ _ => 0)) in *.
  destruct (Req_EM_T (determinant n E) 0) as [Z|NZ]; [discriminate|]. pose proof (inverse_of n E Hn NZ) as I. destruct (rltb _ 10000); [|discriminate]. intros _ k Hk. cbn [g_grad set_grad].
  transitivity (sumf n (fun j => InvertMatrix n E k j * sumf n (fun i => E j i * g i))).
  - unfold dot. apply sumf_ext. intros j _. f_equal. rewrite tmp_sum. unfold E. rewrite e_times, Rplus_0_l. apply lsum_ext. intros q Hq. rewrite (L q Hq). ring.
  - transitivity (sumf n (fun i => mmul n (InvertMatrix n E) E k i * g i)).
    + unfold mmul. clear -Hn. revert g. generalize (InvertMatrix n E). intros B g.
      assert (C : n = 1%nat \/ n = 2%nat \/ n = 3%nat) by lia. destruct C as [ -> |[ -> | -> ]]; cbn; ring.
    + rewrite (sumf_ext n _ (fun i => (if Nat.eqb k i then 1 else 0) * g i)) by (intros i Hi; rewrite I by assumption; reflexivity).
      clear -Hk Hn. assert (C : n = 1%nat \/ n = 2%nat \/ n = 3%nat) by lia. destruct C as [ -> |[ -> | -> ]]; lt3 k; cbn; ring.
Qed.
Lemma grad_uniform : forall p l var, (forall q, In q l -> g_W q var = g_W p var) -> forall k, g_grad (ComputeGradients n w0_s2 w1 p l) var k = 0.
Proof.
  intros p l var H k. unfold ComputeGradients. destruct (if Req_EM_T _ _ then _ else _); cbn [g_grad set_grad].
  - unfold dot. rewrite (sumf_ext n _ (fun _ => 0)); [apply sumf_zero|]. intros j _. rewrite tmp_sum.
    rewrite lsum_zero; [ring|]. intros q Hq. rewrite (H q Hq). ring.
  - apply sph_zero. exact H.
Qed.
End Sums.
