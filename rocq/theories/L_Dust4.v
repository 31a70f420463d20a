From Verif Require Import Prelude Vec M_Box L_Box M_Dust S_Diag S_Dust L_Diag L_Dust L_Dust2.
From Coq Require Import Reals Lra Lia List.
Local Open Scope R_scope.

Lemma wsum_lsum f l : wsum f l = lsum f l.
Proof. induction l; cbn [wsum lsum]; congruence. Qed.

Section Test.
Variables (ndim : nat) (sch : scheme) (lw : law) (Kd : R) (w0_s2 : R -> R) (h_fac h_converge : R) (rnd : R -> R).
Notation at_h := (at_h ndim sch w0_s2).
Notation hloop := (hloop ndim sch w0_s2 h_fac h_converge rnd).
Hypothesis mid : forall lo up, 0 <= lo < up -> lo < rnd (1 / 2 * (lo + up)) < up.
Hypothesis hf : 0 < h_fac.

Lemma hloop_ok : forall fuel p l hmax it h lo up h' s, 0 < hmax -> (0 <= it)%Z ->
  ((it <= 99)%Z -> lo = 0 /\ up = hmax /\ 0 < h <= hmax) -> ((100 <= it)%Z -> 0 <= lo < h /\ h < up <= hmax) ->
  hloop fuel p l hmax it h lo up = Ok (Some (h', s)) ->
  0 < h' <= hmax /\ s = at_h p l h' /\ 0 < u_n s /\ Rabs (h' - h_fac * Rpower (u_n s) (- (1 / INR ndim))) < h_converge.
Proof.
  induction fuel as [|fuel IH]; intros p l hmax it h lo up h' s HM I0 I1 I2; cbn [M_Dust.hloop]; [discriminate|]. cbv zeta.
  set (sm := at_h p l h).
  assert (HR : 0 < h <= hmax). { destruct (Z_le_gt_dec it 99) as [L|L]; [apply I1 in L; tauto|]. destruct (I2 ltac:(lia)). lra. }
  assert (LO : 0 <= lo < h). { destruct (Z_le_gt_dec it 99) as [L|L]; [apply I1 in L; destruct L as (-> & _); lra|]. destruct (I2 ltac:(lia)). lra. }
  assert (UP : h <= up <= hmax). { destruct (Z_le_gt_dec it 99) as [L|L]; [apply I1 in L; destruct L as (_ & -> & _); lra|]. destruct (I2 ltac:(lia)). lra. }
  destruct (_ && _ && _)%bool eqn:AC.
  { apply andb_prop in AC. destruct AC as (AC & C3). apply andb_prop in AC. destruct AC as (C1 & C2). rewrite rltb_true in *.
    intros E. injection E as <- <-. auto. }
  clear AC.
  assert (NX : forall h2 lo2 up2, ((it + 1 <= 99)%Z -> lo2 = 0 /\ up2 = hmax /\ 0 < h2) -> ((100 <= it + 1)%Z -> 0 <= lo2 < h2 /\ h2 < up2 <= hmax) ->
    (if (it + 1 =? 500)%Z then Raise else if rltb hmax h2 then Ok None else if rltb lo2 h2 && rleb h2 up2 then hloop fuel p l hmax (it + 1) h2 lo2 up2 else Ok (Some (h2, sm))) = Ok (Some (h', s)) ->
    0 < h' <= hmax /\ s = at_h p l h' /\ 0 < u_n s /\ Rabs (h' - h_fac * Rpower (u_n s) (- (1 / INR ndim))) < h_converge).
  { intros h2 lo2 up2 N1 N2. destruct (_ =? _)%Z; [discriminate|]. destruct (rltb hmax h2) eqn:X; [discriminate|]. apply rltb_false in X.
    assert (Y : rltb lo2 h2 && rleb h2 up2 = true).
    { apply andb_true_intro. rewrite rltb_true, rleb_true. destruct (Z_le_gt_dec (it + 1) 99) as [L|L].
      - destruct (N1 L) as (-> & -> & ?). lra. - destruct (N2 ltac:(lia)). lra. }
    rewrite Y. apply IH; auto; [lia|]. intros L. destruct (N1 L) as (? & ? & ?). repeat split; auto. }
  destruct (it + 1 <? 100)%Z eqn:B1; [apply Z.ltb_lt in B1|apply Z.ltb_ge in B1].
  - destruct (I1 ltac:(lia)) as (-> & -> & _). destruct (rltb 0 (u_n sm)).
    + apply NX; [|lia]. intros _. repeat split; auto. apply Rmult_lt_0_compat; auto. unfold Rpower. apply exp_pos.
    + destruct (rltb h hmax); [|discriminate]. apply NX; [|lia]. auto.
  - destruct (it + 1 =? 100)%Z eqn:B2; [apply Z.eqb_eq in B2|apply Z.eqb_neq in B2].
    + destruct (I1 ltac:(lia)) as (-> & -> & _). apply NX; [lia|]. intros _. pose proof (mid 0 hmax ltac:(lra)). lra.
    + destruct (it + 1 <? 500)%Z eqn:B3.
      * destruct (I2 ltac:(lia)). destruct (rltb _ _).
        -- apply NX; [lia|]. intros _. pose proof (mid lo h ltac:(lra)). lra.
        -- apply NX; [lia|]. intros _. pose proof (mid h up ltac:(lra)). lra.
      * apply NX; [lia|]. intros _. destruct (I2 ltac:(lia)). lra.
Qed.

Lemma hloop_none : forall fuel p l hmax it h lo up, 0 < hmax -> (0 <= it)%Z ->
  ((it <= 99)%Z -> lo = 0 /\ up = hmax /\ 0 < h <= hmax) -> ((100 <= it)%Z -> 0 <= lo < h /\ h < up <= hmax) ->
  hloop fuel p l hmax it h lo up = Ok None ->
  u_n (at_h p l hmax) <= 0 \/ exists h', 0 < h' <= hmax /\ 0 < u_n (at_h p l h') /\ hmax < h_fac * Rpower (u_n (at_h p l h')) (- (1 / INR ndim)).
Proof.
  induction fuel as [|fuel IH]; intros p l hmax it h lo up HM I0 I1 I2; cbn [M_Dust.hloop]; [discriminate|]. cbv zeta.
  set (sm := at_h p l h).
  assert (HR : 0 < h <= hmax). { destruct (Z_le_gt_dec it 99) as [L|L]; [apply I1 in L; tauto|]. destruct (I2 ltac:(lia)). lra. }
  destruct (_ && _ && _)%bool; [discriminate|].
  assert (NX : forall h2 lo2 up2, ((it + 1 <= 99)%Z -> lo2 = 0 /\ up2 = hmax /\ 0 < h2) -> ((100 <= it + 1)%Z -> 0 <= lo2 < h2 /\ h2 < up2 <= hmax) ->
    (hmax < h2 -> exists h', 0 < h' <= hmax /\ 0 < u_n (at_h p l h') /\ hmax < h_fac * Rpower (u_n (at_h p l h')) (- (1 / INR ndim))) ->
    (if (it + 1 =? 500)%Z then Raise else if rltb hmax h2 then Ok None else if rltb lo2 h2 && rleb h2 up2 then hloop fuel p l hmax (it + 1) h2 lo2 up2 else Ok (Some (h2, sm))) = Ok None ->
    u_n (at_h p l hmax) <= 0 \/ exists h', 0 < h' <= hmax /\ 0 < u_n (at_h p l h') /\ hmax < h_fac * Rpower (u_n (at_h p l h')) (- (1 / INR ndim))).
  { intros h2 lo2 up2 N1 N2 N3. destruct (_ =? _)%Z; [discriminate|]. destruct (rltb hmax h2) eqn:X; [apply rltb_true in X; auto|]. apply rltb_false in X.
    destruct (rltb lo2 h2 && rleb h2 up2); [|discriminate].
    apply IH; auto; [lia|]. intros L. destruct (N1 L) as (? & ? & ?). repeat split; auto. }
  destruct (it + 1 <? 100)%Z eqn:B1; [apply Z.ltb_lt in B1|apply Z.ltb_ge in B1].
  - destruct (I1 ltac:(lia)) as (-> & -> & _). destruct (rltb 0 (u_n sm)) eqn:UN; [apply rltb_true in UN|apply rltb_false in UN].
    + apply NX; [|lia|].
      * intros _. repeat split; auto. apply Rmult_lt_0_compat; auto. unfold Rpower. apply exp_pos.
      * intros X. exists h. auto.
    + destruct (rltb h hmax) eqn:HH; [apply NX; [auto|lia|lra]|]. apply rltb_false in HH. intros _. left. replace hmax with h by lra. exact UN.
  - destruct (it + 1 =? 100)%Z eqn:B2; [apply Z.eqb_eq in B2|apply Z.eqb_neq in B2].
    + destruct (I1 ltac:(lia)) as (-> & -> & _). pose proof (mid 0 hmax ltac:(lra)). apply NX; [lia| |lra]. intros _. lra.
    + destruct (it + 1 <? 500)%Z eqn:B3.
      * destruct (I2 ltac:(lia)). destruct (rltb _ _).
        -- pose proof (mid lo h ltac:(lra)). apply NX; [lia| |lra]. intros _. lra.
        -- pose proof (mid h up ltac:(lra)). apply NX; [lia| |lra]. intros _. lra.
      * destruct (I2 ltac:(lia)). apply NX; [lia| |lra]. intros _. lra.
Qed.
(** Loops end. *)
Lemma hloop_ends : forall fuel p l hmax it h lo up, hloop fuel p l hmax it h lo up <> NoFuel /\ hloop fuel p l hmax it h lo up <> UB.
Proof.
  induction fuel as [|fuel IH]; intros p l hmax it h lo up; cbn [M_Dust.hloop]; [split; discriminate|]. cbv zeta.
  repeat match goal with |- context [if ?b then _ else _] => destruct b; try (split; discriminate); try apply IH end.
Qed.

End Test.
Lemma sum_pos (l : list (R * R * idata)) w : (forall x, In x l -> 0 < fst (fst x) /\ 0 <= w x) -> 0 < lsum w l -> 0 < lsum (fun x => fst (fst x) * w x) l.
Proof.
  induction l as [|a l IH]; cbn [lsum]; intros H P; [lra|].
  destruct (H a) as (M & W); [left; reflexivity|].
  assert (NN : 0 <= lsum w l). { clear -H. induction l as [|b l IH]; cbn [lsum]; [lra|]. destruct (H b) as (_ & ?); [right; left; reflexivity|].
    assert (0 <= lsum w l); [|lra]. apply IH. intros x [->|X]; apply H; [left; reflexivity|right; right; auto]. }
  assert (N2 : 0 <= lsum (fun x => fst (fst x) * w x) l). { clear -H. induction l as [|b l IH]; cbn [lsum]; [lra|]. destruct (H b) as (? & ?); [right; left; reflexivity|].
    assert (0 <= lsum (fun x => fst (fst x) * w x) l); [|pose proof (Rmult_le_pos _ _ (Rlt_le _ _ H0) H1); lra]. apply IH. intros x [->|X]; apply H; [left; reflexivity|right; right; auto]. }
  destruct W as [W|W].
  - pose proof (Rmult_lt_0_compat _ _ M W). lra.
  - rewrite <- W in *. rewrite Rmult_0_r. assert (0 < lsum (fun x => fst (fst x) * w x) l); [|lra]. apply IH; [|lra]. intros x X. apply H. right. auto.
Qed.
Lemma mean_is (l : list (R * R * idata)) (w f : R * R * idata -> R) c : lsum w l <> 0 -> c <> 0 ->
  mean_of w f l (lsum (fun x => w x * f x) l * (1 / (lsum w l * c) * c)).
Proof.
  intros Z C. unfold mean_of. set (X := _ * (_ * c)).
  rewrite (lsum_ext _ _ (fun x => X * w x + - (w x * f x))) by (intros; ring). rewrite lsum_plus, lsum_scal, lsum_opp. unfold X. field. auto.
Qed.
Lemma mean_const (l : list (R * R * idata)) (w f : R * R * idata -> R) c x : lsum w l <> 0 -> (forall a, In a l -> f a = c) -> mean_of w f l x -> x = c.
Proof.
  intros Z C M. unfold mean_of in M. rewrite (lsum_ext _ _ (fun a => (x - c) * w a)) in M. 2:{ intros a A. rewrite (C a A). ring. }
  rewrite lsum_scal in M. apply Rmult_integral in M. destruct M; [lra|contradiction].
Qed.

Lemma test_damped dv da dt ts k x : ts > 0 -> dt >= 0 -> damped ts (da k) x -> x 0 = dv k ->
  Rabs (dv k + da k * dt + test_accel dv da dt ts k * dt - x dt) <= (if rltb (1 / 1000) (dt / ts) then 0 else (dt / ts) ^ 4 / 24) * Rabs (dv k - da k * ts).
Proof.
  intros T D X X0. rewrite (damped_unique ts (da k) x ltac:(lra) X dt), X0.
  pose proof (coeffs_loss dt ts (dv k) (da k) T D) as C. unfold test_accel. destruct (test_coeffs dt ts) as (Xi, La).
  replace (dv k + da k * dt + _ * dt - _) with ((dv k + da k * dt - ((dv k + da k * dt) * Xi - da k * La) * dt) - (da k * ts + (dv k - da k * ts) * exp (- (dt / ts)))) by ring.
  rewrite C. replace (_ - _) with (- (loss dt ts - (1 - exp (- (dt / ts)))) * (dv k - da k * ts)) by ring.
  rewrite Rabs_mult, Rabs_Ropp. apply Rmult_le_compat_r; [apply Rabs_pos|]. apply loss_exact; auto.
Qed.
Lemma test_stable dv da dt ts k : ts > 0 -> dt >= 0 -> let u := dv k - da k * ts in
  let u' := dv k + da k * dt + test_accel dv da dt ts k * dt - da k * ts in exists f, 0 <= f <= 1 /\ u' = f * u.
Proof.
  intros T D u u'. exists (1 - loss dt ts). split; [pose proof (loss_range dt ts T D); lra|].
  pose proof (coeffs_loss dt ts (dv k) (da k) T D) as C. unfold u', u, test_accel. destruct (test_coeffs dt ts) as (Xi, La).
  replace (dv k + da k * dt + _ * dt - _) with ((dv k + da k * dt - ((dv k + da k * dt) * Xi - da k * La) * dt) - da k * ts) by ring.
  rewrite C. ring.
Qed.

(** * Neighbour copies *)
Lemma copy_ok : forall sch fuel ps neiblist jj j arr, (jj + fuel = length neiblist)%nat -> d_dead (ps j) = false ->
  (forall i, In i neiblist -> d_dead (ps i) = false) ->
  fst (copy sch fuel ps neiblist jj j (length neiblist) arr) = length neiblist /\
  forall x, snd (copy sch fuel ps neiblist jj j (length neiblist) arr) x = if Nat.leb jj x && Nat.ltb x (length neiblist) then entry_of sch (ps (nth x neiblist O)) else arr x.
Proof.
  intros sch; induction fuel as [|fuel IH]; intros ps nl jj j arr L DJ DN; cbn [copy].
  - cbn [fst snd]. split; auto. intros x. destruct (Nat.leb_spec jj x), (Nat.ltb_spec x (length nl)); cbn [andb]; auto. lia.
  - destruct (Nat.ltb_spec jj (length nl)); [|lia]. rewrite DJ.
    destruct (IH ps nl (S jj) (nth jj nl O) (fun x => if Nat.eqb x jj then entry_of sch (ps (nth jj nl O)) else arr x)) as (A & B); auto; [lia|apply DN, nth_In; lia|].
    split; auto. intros x. rewrite B.
    destruct (Nat.leb_spec (S jj) x), (Nat.ltb_spec x (length nl)), (Nat.leb_spec jj x), (Nat.eqb_spec x jj); cbn [andb]; subst; auto; try lia; try reflexivity.
Qed.
Lemma gather_ok ndim sch small krs r hmax nl ps arr : (forall x, (x < length nl)%nat -> arr x = entry_of sch (ps (nth x nl O))) ->
  gather ndim small krs r hmax (length nl) arr =
  map (fun j => (d_m (ps j), dot ndim (vsub (d_r (ps j)) r) (vsub (d_r (ps j)) r) + small, interp_data sch (ps j)))
    (filter (fun j => kind_eqb (d_kind (ps j)) Gas && rleb (dot ndim (vsub (d_r (ps j)) r) (vsub (d_r (ps j)) r) + small) (krs * hmax * hmax)) nl).
Proof.
  intros H. unfold gather.
  set (g := fun e : entry => match e_kind e with Gas => let drsqd := dot ndim (vsub (e_pos e) r) (vsub (e_pos e) r) + small in
             if rleb drsqd (krs * hmax * hmax) then [(e_m e, drsqd, e_data e)] else [] | _ => [] end).
  match goal with |- _ = ?X => change (flat_map (fun jj => g (arr jj)) (seq 0 (length nl)) = X) end.
  transitivity (flat_map (fun j => g (entry_of sch (ps j))) nl).
  - clear -H. revert arr H. induction nl as [|a l IH]; intros arr H; [reflexivity|]. cbn [length seq flat_map]. rewrite (H O) by (cbn; lia). cbn [nth]. f_equal.
    rewrite <- (IH (fun x => arr (S x))). 2:{ intros x X. apply (H (S x)). cbn. lia. }
    rewrite <- seq_shift, !flat_map_concat_map, map_map. reflexivity.
  - clear H. induction nl as [|a l IH]; [reflexivity|]. cbn [flat_map filter]. rewrite IH.
    unfold g. cbn [entry_of e_kind e_pos e_m e_data]. cbv zeta. destruct (d_kind (ps a)); cbn [kind_eqb andb]; try reflexivity. destruct (rleb _ _); reflexivity.
Qed.
