(** Proofs about the xorshift generator. *)
From Verif Require Import Prelude M_Rand.
From Coq Require Import NArith Znumtheory Reals Lra.
Local Open Scope N_scope.

Definition xr (a x : N) : N := N.lxor x (N.shiftr x a).
Definition xl (a x : N) : N := N.lxor x ((N.shiftl x a) mod w64).

Lemma mod_w64_bits : forall x i, N.testbit (x mod w64) i = if i <? 64 then N.testbit x i else false.
Proof.
  intros x i. unfold w64. destruct (N.ltb_spec i 64).
  - now rewrite N.mod_pow2_bits_low.
  - now rewrite N.mod_pow2_bits_high.
Qed.
Lemma small_bits : forall x, x < w64 -> forall i, 64 <= i -> N.testbit x i = false.
Proof.
  intros x H i Hi. replace x with (x mod w64) by (apply N.mod_small; assumption).
  rewrite mod_w64_bits. destruct (N.ltb_spec i 64); [lia|reflexivity].
Qed.
Lemma bits_small : forall x, (forall i, 64 <= i -> N.testbit x i = false) -> x < w64.
Proof.
  intros x H. replace x with (x mod w64). { apply N.mod_lt. discriminate. }
  apply N.bits_inj. intros i. rewrite mod_w64_bits. destruct (N.ltb_spec i 64); [reflexivity|]. symmetry. now apply H.
Qed.
Lemma xr_small : forall a x, x < w64 -> xr a x < w64.
Proof.
  intros a x H. apply bits_small. intros i Hi. unfold xr. rewrite N.lxor_spec, N.shiftr_spec by apply N.le_0_l.
  rewrite !small_bits; auto. lia.
Qed.
Lemma xl_small : forall a x, x < w64 -> xl a x < w64.
Proof.
  intros a x H. apply bits_small. intros i Hi. unfold xl. rewrite N.lxor_spec, mod_w64_bits.
  rewrite small_bits by auto. destruct (N.ltb_spec i 64); [lia|reflexivity].
Qed.
Lemma xr_twice : forall a x, xr a (xr a x) = xr (a + a) x.
Proof.
  intros. unfold xr. apply N.bits_inj. intros i.
  rewrite !N.lxor_spec, !N.shiftr_spec, !N.lxor_spec, !N.shiftr_spec by apply N.le_0_l.
  rewrite N.add_assoc. destruct (N.testbit x i), (N.testbit x (i + a)), (N.testbit x (i + a + a)); reflexivity.
Qed.
Lemma xr_id : forall a x, 64 <= a -> x < w64 -> xr a x = x.
Proof.
  intros a x H Hx. unfold xr. apply N.bits_inj. intros i. rewrite N.lxor_spec, N.shiftr_spec by apply N.le_0_l.
  rewrite (small_bits x Hx (i + a)) by lia. apply xorb_false_r.
Qed.
Lemma shiftl_bit : forall x a i, N.testbit (N.shiftl x a) i = if i <? a then false else N.testbit x (i - a).
Proof.
  intros. destruct (N.ltb_spec i a).
  - now apply N.shiftl_spec_low.
  - apply N.shiftl_spec_high; [apply N.le_0_l|assumption].
Qed.
Lemma xl_twice : forall a x, xl a (xl a x) = xl (a + a) x.
Proof.
  intros. unfold xl. apply N.bits_inj. intros i.
  rewrite !N.lxor_spec, !mod_w64_bits, !shiftl_bit, !N.lxor_spec, !mod_w64_bits, !shiftl_bit.
  destruct (N.ltb_spec i 64), (N.ltb_spec i a), (N.ltb_spec i (a + a)), (N.ltb_spec (i - a) 64), (N.ltb_spec (i - a) a);
    try lia; try (now destruct (N.testbit x i)).
  - now destruct (N.testbit x i), (N.testbit x (i - a)).
  - replace (i - (a + a)) with (i - a - a) by lia.
    now destruct (N.testbit x i), (N.testbit x (i - a)), (N.testbit x (i - a - a)).
Qed.
Lemma xl_id : forall a x, 64 <= a -> x < w64 -> xl a x = x.
Proof.
  intros a x H Hx. unfold xl. apply N.bits_inj. intros i. rewrite N.lxor_spec, mod_w64_bits, shiftl_bit.
  destruct (N.ltb_spec i 64), (N.ltb_spec i a); try lia; apply xorb_false_r.
Qed.

Lemma rng_state_eq : forall x, rng_state x = xr 4 (xl 35 (xr 21 x)).
Proof. reflexivity. Qed.
Lemma rng_state_small : forall x, x < w64 -> rng_state x < w64.
Proof. intros. rewrite rng_state_eq. now apply xr_small, xl_small, xr_small. Qed.
(** The inverse of the state map. *)
Definition rng_back (y : N) : N :=
  let y := xr 32 (xr 16 (xr 8 (xr 4 y))) in
  let y := xl 35 y in
  xr 42 (xr 21 y).
Lemma rng_back_small : forall x, x < w64 -> rng_back x < w64.
Proof. intros. unfold rng_back. repeat (apply xr_small || apply xl_small). assumption. Qed.
Lemma xr_comm : forall a b x, xr a (xr b x) = xr b (xr a x).
Proof.
  intros. unfold xr. apply N.bits_inj. intros i.
  rewrite !N.lxor_spec, !N.shiftr_spec, !N.lxor_spec, !N.shiftr_spec by apply N.le_0_l.
  replace (i + b + a) with (i + a + b) by lia.
  destruct (N.testbit x i), (N.testbit x (i + a)), (N.testbit x (i + b)), (N.testbit x (i + a + b)); reflexivity.
Qed.
Lemma rng_back_state : forall x, x < w64 -> rng_back (rng_state x) = x.
Proof.
  intros x H. rewrite rng_state_eq. unfold rng_back.
  assert (H1 := xr_small 21 x H). assert (H2 := xl_small 35 _ H1).
  rewrite !xr_twice. rewrite (xr_id (4 + 4 + (4 + 4) + _ + _)) by (auto; vm_compute; discriminate).
  rewrite xl_twice, xl_id by (auto; vm_compute; discriminate).
  rewrite !xr_twice. apply xr_id; [vm_compute; discriminate|exact H].
Qed.
Lemma rng_state_back : forall x, x < w64 -> rng_state (rng_back x) = x.
Proof.
  intros x H. rewrite rng_state_eq. unfold rng_back. set (u := xr 32 (xr 16 (xr 8 (xr 4 x)))).
  assert (Hu : u < w64) by (unfold u; repeat apply xr_small; assumption).
  assert (Hl := xl_small 35 u Hu).
  rewrite (xr_comm 21 42). rewrite !xr_twice. rewrite (xr_id (21 + 21 + _)) by (auto; vm_compute; discriminate).
  rewrite xl_twice, xl_id by (auto; vm_compute; discriminate). unfold u.
  rewrite (xr_comm 4 32), (xr_comm 4 16), (xr_comm 4 8). rewrite !xr_twice.
  apply xr_id; [vm_compute; discriminate|exact H].
Qed.

Theorem rng_bijective : forall y, y < w64 -> exists x, x < w64 /\ rng_state x = y /\ forall x', x' < w64 -> rng_state x' = y -> x' = x.
Proof.
  intros y Hy. exists (rng_back y). split; [now apply rng_back_small|]. split; [now apply rng_state_back|].
  intros x' Hx' <-. symmetry. now apply rng_back_state.
Qed.
Lemma rng_state_0 : rng_state 0 = 0. Proof. reflexivity. Qed.
Lemma rng_state_nonzero : forall x, x < w64 -> x <> 0 -> rng_state x <> 0.
Proof. intros x H N E. apply N. rewrite <- (rng_back_state x H), E. reflexivity. Qed.
Lemma iter_small : forall n x, x < w64 -> N.iter n rng_state x < w64.
Proof. intros n x H. revert n. apply N.peano_ind; [exact H|]. intros n IH. rewrite N.iter_succ. now apply rng_state_small. Qed.
Theorem iter_nonzero : forall n x, x < w64 -> x <> 0 -> N.iter n rng_state x <> 0.
Proof.
  intros n x H N. revert n. apply N.peano_ind; [exact N|]. intros n IH. rewrite N.iter_succ. apply rng_state_nonzero; [now apply iter_small|exact IH].
Qed.
(** The multiplier is odd, so the output map is a bijection too. *)
Definition amod_inv : N := 1615231051170002885.

Lemma out_small : forall x, (x * amod) mod w64 < w64.
Proof. intros. apply N.mod_lt. discriminate. Qed.
Lemma out_inv : forall x, x < w64 -> ((x * amod) mod w64 * amod_inv) mod w64 = x.
Proof.
  intros x H. rewrite N.mul_mod_idemp_l by discriminate. rewrite <- N.mul_assoc.
  rewrite <- N.mul_mod_idemp_r by discriminate.
  replace ((amod * amod_inv) mod w64) with 1 by (vm_compute; reflexivity). rewrite N.mul_1_r. now apply N.mod_small.
Qed.
Lemma out_inv' : forall w, w < w64 -> (((w * amod_inv) mod w64) * amod) mod w64 = w.
Proof.
  intros x H. rewrite N.mul_mod_idemp_l by discriminate. rewrite <- N.mul_assoc.
  rewrite <- N.mul_mod_idemp_r by discriminate.
  replace ((amod_inv * amod) mod w64) with 1 by (vm_compute; reflexivity). rewrite N.mul_1_r. now apply N.mod_small.
Qed.
Lemma out_nonzero : forall x, x < w64 -> x <> 0 -> (x * amod) mod w64 <> 0.
Proof. intros x H N E. apply N. rewrite <- (out_inv x H), E. reflexivity. Qed.

(** Every word is returned for exactly one state. *)
Theorem output_bijective : forall w, w < w64 -> exists x, x < w64 /\ snd (xorshiftrand x) = w /\
  forall x', x' < w64 -> snd (xorshiftrand x') = w -> x' = x.
Proof.
  intros w Hw. set (y := (w * amod_inv) mod w64). assert (Hy : y < w64) by (apply N.mod_lt; discriminate).
  exists (rng_back y). split; [now apply rng_back_small|]. unfold xorshiftrand. cbn [snd].
  split; [rewrite rng_state_back by exact Hy; now apply out_inv'|].
  intros x' Hx' E. rewrite <- (rng_back_state x' Hx'). f_equal. unfold y. rewrite <- E.
  symmetry. apply out_inv. now apply rng_state_small.
Qed.

(** * Full period *)
Definition lin (f : N -> N) : Prop := forall x y, f (N.lxor x y) = N.lxor (f x) (f y).
Lemma xr_lin : forall a, lin (xr a).
Proof.
  intros a x y. unfold xr. rewrite N.shiftr_lxor. rewrite !N.lxor_assoc. f_equal. rewrite <- !N.lxor_assoc. f_equal. apply N.lxor_comm.
Qed.
Lemma xl_lin : forall a, lin (xl a).
Proof.
  intros a x y. unfold xl. apply N.bits_inj. intros i.
  rewrite !N.lxor_spec, !mod_w64_bits, !shiftl_bit, !N.lxor_spec.
  destruct (i <? 64), (i <? a), (N.testbit x i), (N.testbit y i), (N.testbit x (i - a)), (N.testbit y (i - a)); reflexivity.
Qed.
Lemma rng_lin : lin rng_state.
Proof. intros x y. rewrite !rng_state_eq. now rewrite xr_lin, xl_lin, xr_lin. Qed.

Fixpoint app_cols (cols : list N) (x : N) : N :=
  match cols with
  | [] => 0
  | c :: t => let r := app_cols t (N.div2 x) in if N.odd x then N.lxor c r else r
  end.
Lemma odd_lxor : forall x y, N.odd (N.lxor x y) = xorb (N.odd x) (N.odd y).
Proof. intros. rewrite <- !N.bit0_odd. apply N.lxor_spec. Qed.
Lemma div2_lxor : forall x y, N.div2 (N.lxor x y) = N.lxor (N.div2 x) (N.div2 y).
Proof. intros. rewrite !N.div2_spec. apply N.shiftr_lxor. Qed.
Lemma lxor4 : forall a b c d, N.lxor (N.lxor a b) (N.lxor c d) = N.lxor (N.lxor a c) (N.lxor b d).
Proof. intros. rewrite !N.lxor_assoc. f_equal. rewrite <- !N.lxor_assoc. f_equal. apply N.lxor_comm. Qed.
Lemma app_lin : forall cols, lin (app_cols cols).
Proof.
  induction cols as [|c t IH]; intros x y; [reflexivity|]. cbn [app_cols]. rewrite odd_lxor, div2_lxor, IH.
  destruct (N.odd x), (N.odd y); cbn [xorb].
  - rewrite lxor4, N.lxor_nilpotent. now rewrite N.lxor_0_l.
  - now rewrite N.lxor_assoc.
  - rewrite <- !N.lxor_assoc. f_equal. apply N.lxor_comm.
  - reflexivity.
Qed.
Fixpoint cols_from (f : N -> N) (n : nat) (k : N) : list N :=
  match n with O => [] | S m => f (2 ^ k) :: cols_from f m (N.succ k) end.
Lemma lin_0 : forall f, lin f -> f 0 = 0.
Proof. intros f H. specialize (H 0 0). rewrite N.lxor_nilpotent in H. now rewrite N.lxor_nilpotent in H. Qed.
Lemma cols_spec : forall f, lin f -> forall n k x, x < 2 ^ N.of_nat n -> app_cols (cols_from f n k) x = f (x * 2 ^ k).
Proof.
  intros f L. induction n; intros k x H.
  - cbn in H. replace x with 0 by lia. cbn. now rewrite lin_0.
  - cbn [cols_from app_cols]. assert (D := N.div2_odd x). rewrite IHn.
    2:{ rewrite Nat2N.inj_succ, N.pow_succ_r' in H. destruct (N.odd x); cbn in D; lia. }
    rewrite N.pow_succ_r'. destruct (N.odd x) eqn:O.
    + rewrite <- L. f_equal. cbn [N.b2n] in D.
      replace (x * 2 ^ k) with (N.shiftl x k) by apply N.shiftl_mul_pow2.
      replace (2 ^ k) with (N.shiftl 1 k) at 1 by (rewrite N.shiftl_mul_pow2; lia).
      replace (N.div2 x * (2 * 2 ^ k)) with (N.shiftl (2 * N.div2 x) k) by (rewrite N.shiftl_mul_pow2; lia).
      rewrite <- N.shiftl_lxor. f_equal. rewrite D at 2. apply N.bits_inj. intros i. rewrite N.lxor_spec.
      destruct (N.eq_dec i 0) as [ -> |Ni].
      * rewrite N.testbit_odd_0, N.testbit_even_0. reflexivity.
      * replace i with (N.succ (N.pred i)) by lia. generalize (N.pred i). intros j.
        rewrite N.testbit_odd_succ, N.testbit_even_succ by apply N.le_0_l.
        assert (B1 : N.testbit 1 (N.succ j) = false) by (destruct j; reflexivity). rewrite B1. apply xorb_false_l.
    + f_equal. cbn [N.b2n] in D. lia.
Qed.
Definition cols (f : N -> N) : list N := cols_from f 64 0.
Lemma cols_app : forall f x, lin f -> x < w64 -> app_cols (cols f) x = f x.
Proof. intros f x L H. unfold cols. rewrite (cols_spec f L 64 0 x H). f_equal. change (2 ^ 0) with 1. apply N.mul_1_r. Qed.

Definition cmul (A B : list N) : list N := map (app_cols A) B.
Lemma cmul_app : forall A B x, app_cols (cmul A B) x = app_cols A (app_cols B x).
Proof.
  intros A B. induction B as [|b B IH]; intros x; cbn [cmul map app_cols]; [now rewrite (lin_0 _ (app_lin A))|].
  fold (cmul A B). rewrite IH. destruct (N.odd x); [|reflexivity]. now rewrite app_lin.
Qed.
Fixpoint cpow (A : list N) (p : positive) : list N :=
  match p with
  | xH => A
  | xO q => let B := cpow A q in cmul B B
  | xI q => let B := cpow A q in cmul A (cmul B B)
  end.
Lemma cpow_app : forall A p x, app_cols (cpow A p) x = Pos.iter (app_cols A) x p.
Proof.
  intros A. induction p; intros x; cbn [cpow Pos.iter]; rewrite ?cmul_app, ?IHp; reflexivity.
Qed.
Lemma iter_cols : forall p x, x < w64 -> Pos.iter (app_cols (cols rng_state)) x p = Pos.iter rng_state x p.
Proof.
  intros p x H. induction p using Pos.peano_ind.
  - change (app_cols (cols rng_state) x = rng_state x). apply cols_app; [apply rng_lin|exact H].
  - rewrite !Pos.iter_succ, IHp. apply cols_app; [apply rng_lin|]. exact (iter_small (Npos p) x H).
Qed.
Lemma rng_iter_cols : forall p x, x < w64 -> N.iter (Npos p) rng_state x = app_cols (cpow (cols rng_state) p) x.
Proof. intros p x H. rewrite cpow_app, iter_cols by exact H. reflexivity. Qed.

Definition period : N := 18446744073709551615.
Definition cid : list N := cols (fun x => x).
Lemma cid_app : forall x, x < w64 -> app_cols cid x = x.
Proof. intros. unfold cid. apply cols_app; [intros a b; reflexivity|assumption]. Qed.
Lemma full_power : cpow (cols rng_state) 18446744073709551615 = cid.
Proof. vm_compute. reflexivity. Qed.
Theorem rng_period_returns : forall x, x < w64 -> N.iter period rng_state x = x.
Proof. intros x H. unfold period. rewrite rng_iter_cols by exact H. rewrite full_power. now apply cid_app. Qed.

Fixpoint cxor (A B : list N) : list N :=
  match A, B with a :: A, b :: B => N.lxor a b :: cxor A B | _, _ => [] end.
Lemma cxor_app : forall A B x, length A = length B -> app_cols (cxor A B) x = N.lxor (app_cols A x) (app_cols B x).
Proof.
  induction A as [|a A IH]; intros [|b B] x H; try discriminate; [reflexivity|]. cbn [cxor app_cols].
  rewrite IH by (injection H; auto). destruct (N.odd x); [|reflexivity]. apply lxor4.
Qed.
(** M^k - 1 is invertible: only zero is a fixed point of k steps. *)
Definition no_fix (k : positive) : bool :=
  let D := cxor (cpow (cols rng_state) k) cid in
  let Di := cpow D 18446744073709551614 in
  (Nat.eqb (length D) 64) && (if list_eq_dec N.eq_dec (cmul Di D) cid then true else false).
Lemma cpow_len : forall A p, length (cpow A p) = length A.
Proof. induction p; cbn [cpow]; unfold cmul; rewrite ?map_length; auto. Qed.
Lemma no_fix_spec : forall k x, no_fix k = true -> x < w64 -> N.iter (Npos k) rng_state x = x -> x = 0.
Proof.
  intros k x H Hx E. unfold no_fix in H. cbv zeta in H. apply andb_prop in H as [_ H].
  destruct (list_eq_dec _ _ _) as [E1|]; [|discriminate]. clear H.
  rewrite rng_iter_cols in E by exact Hx.
  assert (Z : app_cols (cxor (cpow (cols rng_state) k) cid) x = 0).
  { rewrite cxor_app by (rewrite cpow_len; reflexivity). rewrite E, cid_app by exact Hx. apply N.lxor_nilpotent. }
  rewrite <- (cid_app x Hx), <- E1, cmul_app, Z. apply lin_0, app_lin.
Qed.

Local Open Scope Z_scope.
Definition primes : list Z := [3; 5; 17; 257; 641; 65537; 6700417].
Fixpoint no_div (n : nat) (d p : Z) : bool :=
  match n with O => true | S m => negb (Z.modulo p d =? 0) && no_div m (d + 1) p end.
Lemma no_div_spec : forall n d p, no_div n d p = true -> forall e, d <= e < d + Z.of_nat n -> 0 < e -> ~ (e | p).
Proof.
  induction n; intros d p H e He H0; [lia|]. cbn [no_div] in H. apply andb_prop in H as [H1 H2].
  destruct (Z.eq_dec e d) as [ -> |]; [|apply (IHn (d + 1) p H2 e); lia].
  intros D. apply Z.mod_divide in D; [|lia]. rewrite D in H1. discriminate.
Qed.
Lemma prime_check : forall p, 1 < p -> no_div (Z.to_nat (Z.sqrt p)) 2 p = true -> prime p.
Proof.
  intros p Hp H. apply prime_alt. split; [exact Hp|]. intros n Hn D.
  assert (NS := no_div_spec _ _ _ H). assert (S0 := Z.sqrt_nonneg p).
  assert (T : forall e, 1 < e -> e * e <= p -> ~ (e | p)).
  { intros e He Hee. apply NS; [|lia]. assert (e <= Z.sqrt p) by (apply Z.sqrt_le_square; lia). lia. }
  destruct D as [m Hm]. destruct (Z_le_gt_dec (n * n) p) as [L|L].
  - apply (T n); [lia|exact L|]. exists m. exact Hm.
  - apply (T m); [nia|nia|]. exists n. lia.
Qed.
Lemma primes_prime : forall q, In q primes -> prime q.
Proof.
  intros q H. unfold primes in H. cbn [In] in H.
  repeat (destruct H as [<-|H]; [apply prime_check; [lia|vm_compute; reflexivity]|]). destruct H.
Qed.
Lemma primes_no_fix : forallb (fun q => no_fix (Z.to_pos (18446744073709551615 / q))) primes = true.
Proof. vm_compute. reflexivity. Qed.

Lemma iter_add : forall a b x, N.iter (a + b) rng_state x = N.iter a rng_state (N.iter b rng_state x).
Proof. intros. apply N.iter_add. Qed.
Lemma iter_mult_fix : forall n x a, N.iter n rng_state x = x -> N.iter (a * n) rng_state x = x.
Proof.
  intros n x a H. revert a. apply N.peano_ind; [reflexivity|]. intros a IH. rewrite N.mul_succ_l, iter_add, H. exact IH.
Qed.
Lemma gcd_fix : forall n m x, (0 < n)%N -> (0 < m)%N -> N.iter n rng_state x = x -> N.iter m rng_state x = x ->
  N.iter (N.gcd n m) rng_state x = x.
Proof.
  intros n m x Hn Hm En Em. destruct (N.gcd_bezout_pos n m Hn) as (a & b & E).
  assert (A : N.iter (a * n) rng_state x = x) by now apply iter_mult_fix.
  rewrite E, N.add_comm in A. rewrite N.add_comm, iter_add in A. rewrite (iter_mult_fix m x b Em) in A. exact A.
Qed.

(** No nonzero state repeats before 2^64-1 steps. *)
Theorem rng_full_period : forall x n, (x < w64)%N -> x <> 0%N -> (0 < n < period)%N -> N.iter n rng_state x <> x.
Proof.
  intros x n Hx X0 Hn E.
  assert (G := gcd_fix n period x ltac:(lia) ltac:(reflexivity) E (rng_period_returns x Hx)).
  set (g := N.gcd n period) in *.
  assert (Gp : (g | period)%N) by apply N.gcd_divide_r. assert (Gn : (g | n)%N) by apply N.gcd_divide_l.
  assert (g <> 0)%N by (unfold g; intros Z; apply N.gcd_eq_0_l in Z; lia).
  assert (g <= n)%N by (apply N.divide_pos_le; [lia|exact Gn]).
  destruct Gp as [e He].
  assert (He1 : (1 < e)%N) by (unfold period in *; nia).
  assert (Q : exists q, In q primes /\ (q | Z.of_N e)).
  { assert (D : forall q, In q primes -> {(q | Z.of_N e)} + {~ (q | Z.of_N e)}) by (intros; apply Zdivide_dec).
    assert (R : (exists q, In q primes /\ (q | Z.of_N e)) \/ forall q, In q primes -> rel_prime q (Z.of_N e)).
    { assert (PP := primes_prime). revert D PP. generalize primes. induction l as [|q l IH]; intros D PP; [right; intros ? []|].
      destruct (D q (or_introl eq_refl)) as [d|nd]; [left; exists q; split; [now left|exact d]|].
      destruct IH as [(q' & I & d)|R]; [intros; apply D; now right|intros; apply PP; now right|left; exists q'; split; [now right|exact d]|].
      right. intros q' [<-|I]; [|now apply R]. apply prime_rel_prime; [apply PP; now left|exact nd]. }
    destruct R as [R|R]; [exact R|]. exfalso.
    assert (RP : rel_prime (Z.of_N e) 18446744073709551615).
    { change 18446744073709551615 with (3 * (5 * (17 * (257 * (641 * (65537 * 6700417)))))).
      repeat apply rel_prime_mult; apply rel_prime_sym, R; unfold primes; cbn [In]; tauto. }
    destruct RP as [_ _ RP]. specialize (RP (Z.of_N e) (Z.divide_refl _)).
    assert (D1 : (Z.of_N e | 1)).
    { apply RP. exists (Z.of_N g). assert (Z.of_N period = Z.of_N e * Z.of_N g) by (rewrite He, N2Z.inj_mul; lia).
      change (Z.of_N period) with 18446744073709551615 in *. lia. }
    apply Z.divide_pos_le in D1; lia. }
  destruct Q as (q & Iq & k & Hk).
  assert (PF := primes_no_fix). rewrite forallb_forall in PF. specialize (PF q Iq).
  assert (q1 : 1 < q) by (destruct (primes_prime q Iq); assumption).
  assert (HK : Z.of_N period / q = Z.of_N g * k).
  { rewrite He, N2Z.inj_mul, Hk. replace (k * q * Z.of_N g) with (Z.of_N g * k * q) by ring. now rewrite Z.div_mul by lia. }
  assert (k0 : 0 < k).
  { destruct (Z_le_gt_dec k 0) as [Kn|]; [|lia]. assert (k * q <= 0) by (apply Z.mul_nonpos_nonneg; lia). lia. }
  apply X0. apply (no_fix_spec _ x PF Hx). change 18446744073709551615 with (Z.of_N period).
  rewrite HK. replace (N.pos (Z.to_pos (Z.of_N g * k))) with (Z.to_N k * g)%N.
  - now apply iter_mult_fix.
  - apply N2Z.inj. rewrite N2Z.inj_mul, Z2N.id by lia. rewrite N2Z.inj_pos, Z2Pos.id by nia. ring.
Qed.

(** * Uniform and Gaussian deviates *)
Local Open Scope R_scope.
Lemma word_range : forall x, 0 <= IZR (Z.of_N (snd (xorshiftrand x))) < IZR (2 ^ 64)%Z.
Proof.
  intros x. unfold xorshiftrand. cbn [snd]. assert (H := out_small (rng_state x)). revert H.
  generalize ((rng_state x * amod) mod w64)%N. intros w H. change w64 with 18446744073709551616%N in H.
  change (2 ^ 64)%Z with 18446744073709551616%Z. split; [apply IZR_le; lia|apply IZR_lt; lia].
Qed.
Lemma floatrand_eq : forall x, floatrand x = (rng_state x, invrandmax * IZR (Z.of_N (snd (xorshiftrand x)))).
Proof. reflexivity. Qed.
(** Bounds that do hold. *)
Theorem floatrand_range : forall x, 0 <= snd (floatrand x) <= 1 + 3 / 1000000000000000.
Proof.
  intros x. rewrite floatrand_eq. cbn [snd]. destruct (word_range x) as [A B]. unfold invrandmax.
  assert (P : 0 < 1 / 18446744073709500000) by lra. split; [apply Rmult_le_pos; lra|].
  apply Rle_trans with (1 / 18446744073709500000 * 18446744073709551616).
  - apply Rmult_le_compat_l; [lra|]. change (2 ^ 64)%Z with 18446744073709551616%Z in B. lra.
  - lra.
Qed.
Theorem floatrand_positive : forall seed, (seed < w64)%N -> seed <> 0%N -> forall n,
  0 < snd (floatrand (N.iter n rng_state seed)).
Proof.
  intros seed H N0 n. rewrite floatrand_eq. cbn [snd]. unfold invrandmax.
  apply Rmult_lt_0_compat; [lra|]. apply IZR_lt. unfold xorshiftrand. cbn [snd].
  assert (O := out_nonzero (rng_state (N.iter n rng_state seed))
     (rng_state_small _ (iter_small n seed H)) (rng_state_nonzero _ (iter_small n seed H) (iter_nonzero n seed H N0))).
  lia.
Qed.
(** A seed whose first uniform deviate exceeds one. *)
Definition bad_seed : N := N.iter 11 rng_back ((18446744073709551615 * amod_inv) mod w64)%N.
Theorem floatrand_exceeds_one : (0 < bad_seed < w64)%N /\ 1 < snd (floatrand (rng_seed bad_seed)).
Proof.
  split; [vm_compute; split; reflexivity|]. rewrite floatrand_eq. cbn [snd].
  replace (snd (xorshiftrand (rng_seed bad_seed))) with 18446744073709551615%N by (vm_compute; reflexivity).
  unfold invrandmax. cbn [Z.of_N]. lra.
Qed.
Lemma gauss_eq : forall x mean sigma, (x < w64)%N -> x <> 0%N -> forall fuel, gaussrand (S fuel) mean sigma x =
  let U := snd (floatrand x) in let V := snd (floatrand (rng_state x)) in
  Ok (rng_state (rng_state x), sqrt (-2 * ln U) * cos (2 * PI * V)).
Proof.
  intros x mean sigma H N0 fuel. unfold gaussrand. cbn [gauss_loop].
  assert (P := floatrand_positive x H N0 0). cbn [N.iter] in P. revert P. rewrite !floatrand_eq. cbn [snd]. intros P.
  destruct (Req_EM_T _ 0) as [E|]; [lra|]. reflexivity.
Qed.
(** Whatever the seed, a deviate of mean 10^10 and width 0 is not 10^10. *)
Theorem gaussrand_ignores : forall seed, (seed < w64)%N -> seed <> 0%N -> forall fuel x g,
  gaussrand (S fuel) 10000000000 0 seed = Ok (x, g) -> g <> 10000000000.
Proof.
  intros seed H N0 fuel x g. rewrite gauss_eq by assumption. cbv zeta. intros [= _ <-].
  set (U := snd (floatrand seed)). set (c := cos _). assert (C : c <= 1) by apply COS_bound.
  assert (U0 : 1 / 18446744073709500000 <= U).
  { unfold U. rewrite floatrand_eq. cbn [snd]. unfold invrandmax. rewrite <- (Rmult_1_r (1 / _)) at 1.
    apply Rmult_le_compat_l; [lra|]. apply IZR_le. unfold xorshiftrand. cbn [snd].
    assert (O := out_nonzero _ (rng_state_small _ H) (rng_state_nonzero _ H N0)). lia. }
  assert (S1 : sqrt (-2 * ln U) <= 7000000000).
  { rewrite <- (sqrt_Rsqr 7000000000) by lra. apply sqrt_le_1_alt. unfold Rsqr.
    assert (L : ln (/ U) <= / U).
    { assert (E := exp_ineq1_le (/ U)). assert (Pi : 0 < / U) by (apply Rinv_0_lt_compat; lra).
      assert (/ U < exp (/ U)) by lra. rewrite <- (ln_exp (/ U)) at 2. left. apply ln_increasing; lra. }
    rewrite ln_Rinv in L by lra. assert (/ U <= 18446744073709500000).
    { rewrite <- (Rinv_inv 18446744073709500000). apply Rinv_le_contravar; [|]; lra. }
    lra. }
  assert (0 <= sqrt (-2 * ln U)) by apply sqrt_pos.
  assert (sqrt (-2 * ln U) * c <= sqrt (-2 * ln U) * 1) by (apply Rmult_le_compat_l; assumption). intros G. change (sqrt (-2 * ln U) * c = 10000000000) in G. lra.
Qed.
