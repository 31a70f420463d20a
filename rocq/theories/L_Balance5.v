(** The search for the divisions ends when the work is spread out. *)
From Verif Require Import Prelude L_Prelude Vec S_Box L_Box S_Tree L_Tree M_Box M_Stock M_Balance S_Balance L_Balance3 L_Balance4.
From Coq Require Import Reals Lra.
Local Open Scope Z_scope.

Lemma pow2_above : forall x, exists n, (x <= 2 ^ n)%R.
Proof.
  assert (A : forall n, (INR n <= 2 ^ n)%R).
  { induction n as [|n IH]; [cbn; lra|]. rewrite S_INR. cbn [pow]. assert (1 <= 2 ^ n)%R by (apply pow_R1_Rle; lra). lra. }
  intros x. destruct (archimed x) as [U _]. exists (Z.to_nat (up x)). specialize (A (Z.to_nat (up x))). rewrite INR_IZR_INZ in A.
  assert (IZR (up x) <= IZR (Z.of_nat (Z.to_nat (up x))))%R by (apply IZR_le; lia). lra.
Qed.

Section Ends.
Variable work : vec -> vec -> R.
Definition fr (k : nat) (lo hi : vec) (r : R) : R := (work lo (setv hi k r) / (work lo (setv hi k r) + work (setv lo k r) hi))%R.

Lemma bisect_mid : forall n k lo hi rmin rmax K e, (e <= 1/2000)%R ->
  (forall a b, rmin <= a <= b -> b <= rmax -> fr k lo hi b <= fr k lo hi a + K * (b - a) + e)%R ->
  (rmin < rmax)%R -> (fr k lo hi rmin <= 1/2)%R -> (1/2 <= fr k lo hi rmax)%R -> (0 <= K)%R -> (K * (rmax - rmin) <= 1/2000 * 2 ^ n)%R ->
  forall f, (n < f)%nat -> bisect work f k lo hi (1/2 * (rmin + rmax))%R rmin rmax <> NoFuel.
Proof.
  induction n as [|n IH]; intros k lo hi rmin rmax K e He HL Hr H1 H2 HK HW f Hf; (destruct f as [|f]; [lia|]); cbn [bisect]; set (r := (1/2 * (rmin + rmax))%R) in *;
    (destruct (Req_EM_T _ _); [discriminate|]); fold (fr k lo hi r); (assert (rmin < r < rmax)%R by (unfold r; lra)).
  - assert (A : (fr k lo hi r <= fr k lo hi rmin + K * (r - rmin) + e)%R) by (apply HL; lra). assert (B : (fr k lo hi rmax <= fr k lo hi r + K * (rmax - r) + e)%R) by (apply HL; lra).
    assert (K * (r - rmin) <= K * (rmax - rmin))%R by (apply Rmult_le_compat_l; lra). assert (K * (rmax - r) <= K * (rmax - rmin))%R by (apply Rmult_le_compat_l; lra). cbn [pow] in HW.
    destruct (rltb (fr k lo hi r) (1/2 - 1/1000)) eqn:E1; [apply rltb_true in E1; lra|]. destruct (rltb (1/2 + 1/1000) (fr k lo hi r)) eqn:E2; [apply rltb_true in E2; lra|]. discriminate.
  - destruct (rltb (fr k lo hi r) (1/2 - 1/1000)) eqn:E1.
    + apply rltb_true in E1. apply (IH k lo hi r rmax K e); auto; try lra; [intros a b Ha Hb; apply HL; lra| |lia].
      cbn [pow] in HW. replace (rmax - r)%R with (1/2 * (rmax - rmin))%R by (unfold r; lra). lra.
    + destruct (rltb (1/2 + 1/1000) (fr k lo hi r)) eqn:E2; [|discriminate].
      apply rltb_true in E2. apply (IH k lo hi rmin r K e); auto; try lra; [intros a b Ha Hb; apply HL; lra| |lia].
      cbn [pow] in HW. replace (r - rmin)%R with (1/2 * (rmax - rmin))%R by (unfold r; lra). lra.
Qed.
Lemma find_ends : forall k b r, (bmin b k < r < bmax b k)%R -> spread work b k -> exists N, forall f, (N <= f)%nat -> FindLoadBalancingDivision work f k r b <> NoFuel.
Proof.
  intros k b r Hr [H0|(K & e & HK & He & (H1 & H2) & HL)].
  { exists 1%nat. intros [|f] Hf; [lia|]. unfold FindLoadBalancingDivision. cbn [bisect]. destruct (Req_EM_T _ _) as [_|N]; [discriminate|]. elim N. exact (H0 r Hr). }
  destruct (pow2_above (2000 * (K * (bmax b k - bmin b k)))) as (n & Hn).
  exists (S (S n)). intros f Hf. unfold FindLoadBalancingDivision. destruct f as [|f]; [lia|]. cbn [bisect]. destruct (Req_EM_T _ _); [discriminate|]. fold (fr k (bmin b) (bmax b) r).
  destruct (rltb (fr k (bmin b) (bmax b) r) (1/2 - 1/1000)) eqn:E1.
  - apply rltb_true in E1. apply (bisect_mid n k (bmin b) (bmax b) r (bmax b k) K e); auto; try lra; [intros x y Hx Hy; apply HL; lra| |lia].
    assert (K * (bmax b k - r) <= K * (bmax b k - bmin b k))%R by (apply Rmult_le_compat_l; lra). lra.
  - destruct (rltb (1/2 + 1/1000) (fr k (bmin b) (bmax b) r)) eqn:E2; [|discriminate].
    apply rltb_true in E2. apply (bisect_mid n k (bmin b) (bmax b) (bmin b k) r K e); auto; try lra; [intros x y Hx Hy; apply HL; lra| |lia].
    assert (K * (r - bmin b k) <= K * (bmax b k - bmin b k))%R by (apply Rmult_le_compat_l; lra). lra.
Qed.

(** More iterations do not change a result. *)
Lemma bisect_more : forall f f' k lo hi r a b, (f <= f')%nat -> bisect work f k lo hi r a b <> NoFuel -> bisect work f' k lo hi r a b = bisect work f k lo hi r a b.
Proof.
  induction f as [|f IH]; intros f' k lo hi r a b Hf H; [now elim H|]. destruct f' as [|f']; [lia|]. cbn [bisect] in *.
  destruct (Req_EM_T _ _); [reflexivity|]. destruct (rltb _ (1/2 - 1/1000)); [apply IH; [lia|exact H]|]. destruct (rltb (1/2 + 1/1000) _); [apply IH; [lia|exact H]|reflexivity].
Qed.
Definition ev {A} (f : nat -> res A) : Prop := exists N v, v <> NoFuel /\ forall n, (N <= n)%nat -> f n = v.
Lemma ev_const : forall A (v : res A), v <> NoFuel -> ev (fun _ => v).
Proof. intros A v H. exists 0%nat, v. auto. Qed.
Lemma ev_bind : forall A B (f : nat -> res A) (g : nat -> A -> res B), ev f -> (forall a, ev (fun n => g n a)) -> ev (fun n => bind (f n) (g n)).
Proof.
  intros A B f g (N & v & Hv & HN) HG. destruct v as [a| | |]; [|exists N, UB; split; [discriminate|]|exists N, Raise; split; [discriminate|]|now elim Hv];
    try (intros n Hn; now rewrite HN).
  destruct (HG a) as (M & w & Hw & HM). exists (Nat.max N M), w. split; [exact Hw|]. intros n Hn. rewrite HN by lia. cbn [bind]. apply HM. lia.
Qed.
Variable ndim : nat.
Hypothesis SP : forall b k, (bmin b k < bmax b k)%R -> spread work b k.
Lemma ev_find : forall k b r, (bmin b k < r < bmax b k)%R -> ev (fun f => FindLoadBalancingDivision work f k r b).
Proof.
  intros k b r Hr. destruct (find_ends k b r Hr) as (N & HN); [apply SP; lra|]. exists N, (FindLoadBalancingDivision work N k r b). split; [apply HN; lia|].
  intros f Hf. apply bisect_more; [exact Hf|apply HN; lia].
Qed.
Lemma aget_fuel : forall A (l : list A) i, aget l i <> NoFuel.
Proof. intros A l i. unfold aget. destruct (i <? 0); [discriminate|]. destruct (nth_error l (Z.to_nat i)); discriminate. Qed.
Lemma aset_fuel : forall A (l : list A) i x, aset l i x <> NoFuel.
Proof. intros A l i x. unfold aset. repeat match goal with |- context [if ?b then _ else _] => destruct b end; discriminate. Qed.
Lemma ev_loop : forall A (f : nat -> Z -> A -> res A) l a, (forall c a, ev (fun n => f n c a)) -> ev (fun n => loop (f n) l a).
Proof.
  intros A f l. induction l as [|c l IH]; intros a H; [exact (ev_const _ (Ok a) ltac:(discriminate))|]. cbn [loop]. apply (ev_bind _ _ (fun n => f n c a) (fun n a => loop (f n) l a)); auto.
Qed.
Lemma ev_divide : forall l c cs, ev (fun f => divide_step work f l c cs).
Proof.
  intros l c cs. unfold divide_step. apply (ev_bind _ _ (fun _ => aget cs c)); [apply ev_const, aget_fuel|]. intros x. destruct (negb _); [apply ev_const; discriminate|].
  set (r := if _ || _ then _ else _). destruct (rltb (bmin (mbox x) (mk x)) r && rltb r (bmax (mbox x) (mk x))) eqn:E; [|apply ev_const; discriminate].
  apply andb_true_iff in E as [E1 E2]. apply rltb_true in E1. apply rltb_true in E2.
  apply (ev_bind _ _ (fun f => FindLoadBalancingDivision work f (mk x) r (mbox x))); [apply ev_find; lra|]. intros r'. apply ev_const, aset_fuel.
Qed.
Lemma ev_update : forall ltot Ncell cs, ev (fun _ => UpdateBoundingBoxes ltot Ncell cs).
Proof.
  intros ltot Ncell cs. unfold UpdateBoundingBoxes. apply (ev_loop _ (fun _ => update_step ltot)). intros c a. unfold update_step.
  apply (ev_bind _ _ (fun _ => aget a c)); [apply ev_const, aget_fuel|]. intros x. destruct (_ =? _); [apply ev_const; discriminate|].
  apply (ev_bind _ _ (fun _ => aget a (c + 1))); [apply ev_const, aget_fuel|]. intros y.
  eapply (ev_bind _ _ (fun _ => aset a (c + 1) _)); [apply ev_const, aset_fuel|]. intros cs1.
  apply (ev_bind _ _ (fun _ => aget cs1 (mc2 x))); [apply ev_const, aget_fuel|]. intros z. apply ev_const, aset_fuel.
Qed.
Lemma ev_levels : forall n l ltot Ncell cs, ev (fun f => balance_levels work f n l ltot Ncell cs).
Proof.
  induction n as [|n IH]; intros l ltot Ncell cs; [exact (ev_const _ (Ok cs) ltac:(discriminate))|]. cbn [balance_levels].
  apply (ev_bind _ _ (fun f => loop (divide_step work f l) (zseq 0 (Z.to_nat Ncell)) cs)); [apply ev_loop; intros; apply ev_divide|]. intros cs1.
  apply (ev_bind _ _ (fun _ => UpdateBoundingBoxes ltot Ncell cs1) (fun f cs2 => balance_levels work f n (l + 1) ltot Ncell cs2)); [apply ev_update|]. intros cs2. apply IH.
Qed.
Lemma ev_read : forall cs g2c n i, ev (fun _ => read_domains cs g2c n i).
Proof.
  intros cs g2c. induction n as [|n IH]; intros i; [exact (ev_const _ (Ok []) ltac:(discriminate))|]. cbn [read_domains].
  apply (ev_bind _ _ (fun _ => aget g2c i)); [apply ev_const, aget_fuel|]. intros c. apply (ev_bind _ _ (fun _ => aget cs c)); [apply ev_const, aget_fuel|]. intros x.
  apply (ev_bind _ _ (fun _ => read_domains cs g2c n (i + 1))); [apply IH|]. intros t. apply ev_const; discriminate.
Qed.
Theorem domains_end : forall Nmpi ltot Ncell B cs g2c, exists N, forall fuel, (N <= fuel)%nat -> NewDomains work fuel Nmpi ltot Ncell B cs g2c <> NoFuel.
Proof.
  intros Nmpi ltot Ncell B cs g2c. assert (E : ev (fun f => NewDomains work f Nmpi ltot Ncell B cs g2c)).
  { unfold NewDomains. apply (ev_bind _ _ (fun _ => aget cs 0)); [apply ev_const, aget_fuel|]. intros x.
    apply (ev_bind _ _ (fun _ => aset cs 0 (set_mbox x B)) (fun f cs => let! cs := balance_levels work f (Z.to_nat ltot) 0 ltot Ncell cs in let! d := read_domains cs g2c (Z.to_nat Nmpi) 0 in Ok (cs, d))); [apply ev_const, aset_fuel|]. intros cs1.
    apply (ev_bind _ _ (fun f => balance_levels work f (Z.to_nat ltot) 0 ltot Ncell cs1)); [apply ev_levels|]. intros cs2.
    apply (ev_bind _ _ (fun _ => read_domains cs2 g2c (Z.to_nat Nmpi) 0)); [apply ev_read|]. intros d. apply ev_const; discriminate. }
  destruct E as (N & v & Hv & HN). exists N. intros f Hf. now rewrite HN.
Qed.
End Ends.

Ltac mm := unfold Rmax, Rmin; repeat match goal with |- context [Rle_dec ?a ?b] =>
  lazymatch a with context [Rle_dec _ _] => fail | _ => lazymatch b with context [Rle_dec _ _] => fail | _ => destruct (Rle_dec a b) end end end; lra.
(** Work spread evenly over the interval from 0 to 1. *)
Definition flat_work (lo hi : vec) : R := Rmax 0 (Rmin (hi 0%nat) 1 - Rmax (lo 0%nat) 0).
Lemma flat_sum : forall l r h, (l <= r <= h)%R -> (Rmax 0 (Rmin r 1 - Rmax l 0) + Rmax 0 (Rmin h 1 - Rmax r 0) = Rmax 0 (Rmin h 1 - Rmax l 0))%R.
Proof. intros. mm. Qed.
Lemma flat_zero : forall l, Rmax 0 (Rmin l 1 - Rmax l 0) = 0%R.
Proof. intros. mm. Qed.
Lemma flat_mono : forall l x y, (x <= y)%R -> (Rmax 0 (Rmin y 1 - Rmax l 0) <= Rmax 0 (Rmin x 1 - Rmax l 0) + (y - x))%R.
Proof. intros. mm. Qed.
Lemma flat_spread : forall b k, (bmin b k < bmax b k)%R -> spread flat_work b k.
Proof.
  intros b k H. destruct (Nat.eq_dec k 0) as [->|Nk].
  - set (l := bmin b 0%nat) in *. set (h := bmax b 0%nat) in *.
    assert (L : forall r, left_work flat_work b 0 r = Rmax 0 (Rmin r 1 - Rmax l 0)) by reflexivity.
    assert (G : forall r, right_work flat_work b 0 r = Rmax 0 (Rmin h 1 - Rmax r 0)) by reflexivity.
    set (T := Rmax 0 (Rmin h 1 - Rmax l 0)).
    assert (SUM : forall r, (l <= r <= h)%R -> (left_work flat_work b 0 r + right_work flat_work b 0 r = T)%R).
    { intros r Hr. rewrite L, G. apply flat_sum, Hr. }
    unfold spread. fold l. fold h. destruct (Req_dec T 0) as [T0|T0]; [left; intros r Hr; rewrite SUM by lra; exact T0|]. right.
    assert (TP : (0 < T)%R) by (pose proof (Rmax_l 0 (Rmin h 1 - Rmax l 0)); fold T in H0; lra).
    exists (/ T)%R, 0%R. split; [left; now apply Rinv_0_lt_compat|]. split; [lra|]. unfold share. rewrite !SUM by lra. rewrite !L. split.
    + rewrite flat_zero. fold T. replace (0 / T)%R with 0%R by (field; lra). replace (T / T)%R with 1%R by (field; lra). lra.
    + intros x y Hx Hy. rewrite !SUM by lra. rewrite !L. unfold Rdiv. rewrite <- (Rmult_comm (y - x)), <- Rmult_plus_distr_r, Rplus_0_r. apply Rmult_le_compat_r; [left; now apply Rinv_0_lt_compat|].
      apply flat_mono; lra.
  - assert (L : forall r, left_work flat_work b k r = flat_work (bmin b) (bmax b)) by (intros r; unfold left_work, flat_work, setv; destruct (Nat.eqb_spec 0 k); [congruence|reflexivity]).
    assert (G : forall r, right_work flat_work b k r = flat_work (bmin b) (bmax b)) by (intros r; unfold right_work, flat_work, setv; destruct (Nat.eqb_spec 0 k); [congruence|reflexivity]).
    set (T := flat_work (bmin b) (bmax b)) in *.
    destruct (Req_dec T 0) as [T0|T0]; [left; intros r Hr; rewrite L, G; lra|]. right. exists 0%R, 0%R.
    assert (S1 : forall r, share flat_work b k r = (1/2)%R) by (intros r; unfold share; rewrite L, G; field; lra). rewrite !S1. split; [lra|]. split; [lra|]. split; [lra|]. intros x y _ _. rewrite !S1. lra.
Qed.

(** One cell from 0 to 1/2 in the box from 0 to 1. *)
Definition one_cell : list wcell := [mkw (mkbox (fun _ => 0%R) (fun _ => 1/2)%R) 1%R (-1) 1].
Definition tree_work (ndim : nat) (cs : list wcell) (lo hi : vec) : R := match ComputeWorkInBox ndim cs lo hi with Ok w => w | _ => 0%R end.
Lemma work_one : forall lo hi fo, FractionalBoxOverlap 1 lo hi (fun _ => 0%R) (fun _ => 1/2)%R = fo -> (0 <= fo)%R -> ComputeWorkInBox 1 one_cell lo hi = Ok fo.
Proof.
  intros lo hi fo E H. unfold ComputeWorkInBox, one_cell. cbn [work_walk length]. change (zlen _) with 1. cbn [Z.ltb Z.compare]. change (aget _ 0) with (Ok (mkw (mkbox (fun _ => 0%R) (fun _ => 1/2)%R) 1%R (-1) 1)).
  cbn [bind w_hbox w_work w_copen w_cnext bmin bmax]. rewrite E. replace (0 + fo * 1)%R with fo by lra.
  destruct (rltb fo (1 / 10 ^ 20)) eqn:E1; cbn [orb]; [reflexivity|]. destruct (rltb 1 fo) eqn:E2; [reflexivity|]. cbn [negb Z.eqb Pos.eqb].
  apply rltb_false in E1. apply rltb_false in E2. rewrite (proj2 (rleb_true _ _) E1), (proj2 (rleb_true _ _) E2). reflexivity.
Qed.
Definition unit_box : box := mkbox (fun _ => 0%R) (fun _ => 1%R).
Lemma frac_left : forall r, (0 < r <= 1/2)%R -> FractionalBoxOverlap 1 (fun _ => 0%R) (setv (fun _ => 1%R) 0 r) (fun _ => 0%R) (fun _ => 1/2)%R = 2%R.
Proof.
  intros r Hr. unfold FractionalBoxOverlap. cbn [frac_loop]. unfold setv. cbn [Nat.eqb]. unfold rleb, rltb.
  repeat match goal with |- context [Rlt_dec ?a ?b] => destruct (Rlt_dec a b) | |- context [Rle_dec ?a ?b] => destruct (Rle_dec a b) end; cbn [orb andb]; try (exfalso; lra); try field; lra.
Qed.
Lemma frac_right : forall r, (0 < r <= 1/2)%R -> FractionalBoxOverlap 1 (setv (fun _ => 0%R) 0 r) (fun _ => 1%R) (fun _ => 0%R) (fun _ => 1/2)%R = (1 - 2 * r)%R.
Proof.
  intros r Hr. unfold FractionalBoxOverlap. cbn [frac_loop]. unfold setv. cbn [Nat.eqb]. unfold rleb, rltb.
  repeat match goal with |- context [Rlt_dec ?a ?b] => destruct (Rlt_dec a b) | |- context [Rle_dec ?a ?b] => destruct (Rle_dec a b) end; cbn [orb andb]; try (exfalso; lra); try (replace r with (1/2)%R by lra); try field; lra.
Qed.
Lemma hang : forall fuel r rmax, (0 < r <= 1/2)%R -> bisect (tree_work 1 one_cell) fuel 0 (fun _ => 0%R) (fun _ => 1%R) r 0 rmax = NoFuel.
Proof.
  induction fuel as [|f IH]; intros r rmax Hr; [reflexivity|]. cbn [bisect].
  assert (WL : tree_work 1 one_cell (fun _ => 0%R) (setv (fun _ => 1%R) 0 r) = 2%R) by (unfold tree_work; rewrite (work_one _ _ 2 (frac_left r Hr)) by lra; reflexivity).
  assert (WR : tree_work 1 one_cell (setv (fun _ => 0%R) 0 r) (fun _ => 1%R) = (1 - 2 * r)%R) by (unfold tree_work; rewrite (work_one _ _ (1 - 2 * r) (frac_right r Hr)) by lra; reflexivity).
  rewrite !WL, !WR.
  destruct (Req_EM_T _ _) as [E|_]; [lra|].
  assert (Q : (2/3 <= 2 / (2 + (1 - 2 * r)))%R). { apply (Rmult_le_reg_r (2 + (1 - 2 * r))); [lra|]. replace (2 / (2 + (1 - 2 * r)) * (2 + (1 - 2 * r)))%R with 2%R by (field; lra). lra. }
  destruct (rltb _ (1/2 - 1/1000)) eqn:E1; [apply rltb_true in E1; lra|]. destruct (rltb (1/2 + 1/1000) _) eqn:E2; [|apply rltb_false in E2; lra].
  apply IH. lra.
Qed.

(** The same particles seen in a tree of three cells and in the tree cut off at its root. *)
Definition fc0 := mkw (mkbox (fun _ => 1/2)%R (fun _ => 7/2)%R) 2%R 1 3.
Definition fc1 := mkw (mkbox (fun _ => 1/2)%R (fun _ => 9/10)%R) 1%R (-1) 2.
Definition fc2 := mkw (mkbox (fun _ => 11/10)%R (fun _ => 7/2)%R) 1%R (-1) 3.
Definition full_tree : list wcell := [fc0; fc1; fc2].
Definition cut_tree : list wcell := [mkw (mkbox (fun _ => 1/2)%R (fun _ => 7/2)%R) 2%R (-1) 1].
Definition box5 : box := mkbox (fun _ => 0%R) (fun _ => 5%R).
Lemma frac1 : forall lo hi a b, (lo 0%nat <> a)%R -> (hi 0%nat <> b)%R -> (lo 0%nat < hi 0%nat)%R -> (a < b)%R ->
  FractionalBoxOverlap 1 lo hi (fun _ => a) (fun _ => b) = (Rmax 0 (Rmin (hi 0%nat) b - Rmax (lo 0%nat) a) / (b - a))%R.
Proof.
  intros lo hi a b H1 H2 H3 H4. destruct (Rdichotomy _ _ H1), (Rdichotomy _ _ H2); unfold FractionalBoxOverlap; cbn [frac_loop]; unfold rleb, rltb, Rmax, Rmin;
  repeat match goal with |- context [Rlt_dec ?x ?y] => destruct (Rlt_dec x y) | |- context [Rle_dec ?x ?y] =>
    lazymatch x with context [Rle_dec _ _] => fail | _ => lazymatch y with context [Rle_dec _ _] => fail | _ => destruct (Rle_dec x y) end end end; cbn [orb andb]; try (exfalso; lra); first [field; lra|replace (hi 0%nat - a)%R with 0%R by lra; field; lra|replace (b - lo 0%nat)%R with 0%R by lra; field; lra].
Qed.
Lemma fr_is : forall lo hi a b v, (lo 0%nat <> a)%R -> (hi 0%nat <> b)%R -> (lo 0%nat < hi 0%nat)%R -> (a < b)%R ->
  (Rmax 0 (Rmin (hi 0%nat) b - Rmax (lo 0%nat) a) / (b - a) = v)%R -> FractionalBoxOverlap 1 lo hi (fun _ => a) (fun _ => b) = v.
Proof. intros. subst. now apply frac1. Qed.
Definition cut_root := mkw (mkbox (fun _ => 1/2)%R (fun _ => 7/2)%R) 2%R (-1) 1.
Lemma cut_work : forall lo hi fo, FractionalBoxOverlap 1 lo hi (fun _ => 1/2)%R (fun _ => 7/2)%R = fo -> (0 <= fo)%R -> tree_work 1 cut_tree lo hi = (fo * 2)%R.
Proof.
  intros lo hi fo E H. unfold tree_work, ComputeWorkInBox, cut_tree. cbn [work_walk length]. change (zlen _) with 1. cbn [Z.ltb Z.compare]. change (aget _ 0) with (Ok cut_root).
  cbn [bind w_hbox w_work w_copen w_cnext bmin bmax cut_root]. rewrite E. replace (0 + fo * 2)%R with (fo * 2)%R by lra.
  destruct (rltb fo (1 / 10 ^ 20)) eqn:E1; cbn [orb]; [reflexivity|]. destruct (rltb 1 fo) eqn:E2; [reflexivity|]. cbn [negb Z.eqb Pos.eqb].
  apply rltb_false in E1. apply rltb_false in E2. rewrite (proj2 (rleb_true _ _) E1), (proj2 (rleb_true _ _) E2). reflexivity.
Qed.
Lemma full_work : forall lo hi fo f1 f2, FractionalBoxOverlap 1 lo hi (fun _ => 1/2)%R (fun _ => 7/2)%R = fo -> (1 / 10 ^ 20 <= fo <= 1)%R ->
  FractionalBoxOverlap 1 lo hi (fun _ => 1/2)%R (fun _ => 9/10)%R = f1 -> (0 <= f1 <= 1)%R ->
  FractionalBoxOverlap 1 lo hi (fun _ => 11/10)%R (fun _ => 7/2)%R = f2 -> (0 <= f2 <= 1)%R -> tree_work 1 full_tree lo hi = (f1 + f2)%R.
Proof.
  intros lo hi fo f1 f2 E0 H0 E1 H1 E2 H2. unfold tree_work, ComputeWorkInBox. change (S (length full_tree)) with 4%nat. cbn [work_walk]. change (zlen full_tree) with 3.
  change (0 <? 3) with true. cbv beta iota. change (aget full_tree 0) with (Ok fc0). cbn [bind w_hbox w_work w_copen w_cnext bmin bmax fc0]. rewrite E0.
  assert (A : rltb fo (1 / 10 ^ 20) = false) by (apply rltb_false; lra). assert (B : rltb 1 fo = false) by (apply rltb_false; lra). rewrite A, B. cbn [orb negb Z.eqb]. change (1 <? 3) with true. cbv beta iota. change (aget full_tree 1) with (Ok fc1). cbn [bind w_hbox w_work w_copen w_cnext bmin bmax fc1]. rewrite E1.
  assert (B1 : rltb 1 f1 = false) by (apply rltb_false; lra). rewrite B1, orb_false_r. cbn [negb Z.eqb Pos.eqb].
  assert (X : forall (a : R) (u : res R), a = a -> (if rltb f1 (1/10^20) then u else if rleb (1/10^20) f1 && rleb f1 1 then u else Raise) = u).
  { intros a u _. destruct (rltb f1 (1/10^20)) eqn:F; [reflexivity|]. apply rltb_false in F. rewrite (proj2 (rleb_true _ _) F), (proj2 (rleb_true _ _) (proj2 H1)). reflexivity. }
  rewrite (X 0%R _ eq_refl). change (2 <? 3) with true. cbv beta iota. change (aget full_tree 2) with (Ok fc2). cbn [bind w_hbox w_work w_copen w_cnext bmin bmax fc2]. rewrite E2.
  assert (B2 : rltb 1 f2 = false) by (apply rltb_false; lra). rewrite B2, orb_false_r. cbn [negb Z.eqb Pos.eqb].
  change (3 <? 3) with false. cbv beta iota. destruct (rltb f2 (1/10^20)) eqn:F; [lra|]. apply rltb_false in F. rewrite (proj2 (rleb_true _ _) F), (proj2 (rleb_true _ _) (proj2 H2)). cbn [andb]. lra.
Qed.
Ltac sv := unfold box5, setv; cbn [bmin bmax Nat.eqb].
Lemma div_cut : FindLoadBalancingDivision (tree_work 1 cut_tree) 1 0 2 box5 = Ok 2%R.
Proof.
  unfold FindLoadBalancingDivision. cbn [bisect].
  assert (L : tree_work 1 cut_tree (bmin box5) (setv (bmax box5) 0 2%R) = 1%R).
  { rewrite (cut_work _ _ (1/2)%R); [lra| |lra]. apply fr_is; sv; try lra. mm. }
  assert (G : tree_work 1 cut_tree (setv (bmin box5) 0 2%R) (bmax box5) = 1%R).
  { rewrite (cut_work _ _ (1/2)%R); [lra| |lra]. apply fr_is; sv; try lra. mm. }
  rewrite L, G. destruct (Req_EM_T _ _) as [E|_]; [lra|]. replace (1 / (1 + 1))%R with (1/2)%R by lra.
  assert (A : rltb (1/2) (1/2 - 1/1000) = false) by (apply rltb_false; lra). assert (B : rltb (1/2 + 1/1000) (1/2) = false) by (apply rltb_false; lra). now rewrite A, B.
Qed.
Lemma div_full : FindLoadBalancingDivision (tree_work 1 full_tree) 2 0 2 box5 = Ok 1%R.
Proof.
  unfold FindLoadBalancingDivision. cbn [bisect].
  assert (L : tree_work 1 full_tree (bmin box5) (setv (bmax box5) 0 2%R) = (11/8)%R).
  { rewrite (full_work _ _ (1/2)%R 1%R (3/8)%R); try lra; apply fr_is; sv; try lra; mm. }
  assert (G : tree_work 1 full_tree (setv (bmin box5) 0 2%R) (bmax box5) = (5/8)%R).
  { rewrite (full_work _ _ (1/2)%R 0%R (5/8)%R); try lra; apply fr_is; sv; try lra; mm. }
  rewrite L, G. destruct (Req_EM_T _ _) as [E|_]; [lra|]. replace (11/8 / (11/8 + 5/8))%R with (11/16)%R by lra.
  assert (A : rltb (11/16) (1/2 - 1/1000) = false) by (apply rltb_false; lra). assert (B : rltb (1/2 + 1/1000) (11/16) = true) by (apply rltb_true; lra). rewrite A, B.
  change (bmin box5 0%nat) with 0%R. replace (1/2 * (0 + 2))%R with 1%R by lra.
  assert (L1 : tree_work 1 full_tree (bmin box5) (setv (bmax box5) 0 1%R) = 1%R).
  { rewrite (full_work _ _ (1/6)%R 1%R 0%R); try lra; apply fr_is; sv; try lra; mm. }
  assert (G1 : tree_work 1 full_tree (setv (bmin box5) 0 1%R) (bmax box5) = 1%R).
  { rewrite (full_work _ _ (5/6)%R 0%R 1%R); try lra; apply fr_is; sv; try lra; mm. }
  rewrite L1, G1. destruct (Req_EM_T _ _) as [E|_]; [lra|]. replace (1 / (1 + 1))%R with (1/2)%R by lra.
  assert (A1 : rltb (1/2) (1/2 - 1/1000) = false) by (apply rltb_false; lra). assert (B1 : rltb (1/2 + 1/1000) (1/2) = false) by (apply rltb_false; lra). now rewrite A1, B1.
Qed.
