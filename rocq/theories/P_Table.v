(** C26: tabulated kernels never index outside their table. *)
From Verif Require Import Prelude M_Table S_Table L_Table.
From Coq Require Import Reals Lra.
From Flocq Require Import Core BinarySingleNaN.
Local Open Scope R_scope.

Lemma kernrange_in k : In (kernrange k) ranges. Proof. destruct k; cbn; tauto. Qed.
Lemma kernrangesqd_in k : In (kernrangesqd k) ranges. Proof. destruct k; cbn; tauto. Qed.
Lemma leb_false_lt p K (s : FLOAT p) : In K ranges -> is_finite s = true ->
  Bleb (of_int (prec_of p) (emax_of p) K) s = false -> B2R s < IZR K.
Proof. intros H F E. apply Rnot_le_lt. intros C. apply (outside_iff p K s H F) in C. congruence. Qed.

(** In single and in double precision, for every kernel, every tabulated function and every finite
    separation that is not negative: below the range the look-up returns the value of the function
    at a point of the grid next to the separation; at the range and beyond, zero. *)
Theorem C26_table : forall p k f (s : FLOAT p), separation s ->
  (B2R s < IZR (kernrange k) -> exists a, tab_w p k f s = Ok (f a) /\ grid_point (IZR (kernrange k)) s a)
  /\ (IZR (kernrange k) <= B2R s -> exists z, tab_w p k f s = Ok z /\ is_finite z = true /\ B2R z = 0).
Proof.
  intros p k f s [F P]. pose proof (outside_iff p (kernrange k) s (kernrange_in k) F) as O. split; intros H.
  - unfold tab_w, tableLookup. destruct (Bleb _ s) eqn:E; [rewrite ?E in O; pose proof (proj1 O eq_refl); lra|].
    apply inside_entry; [apply kernrange_in|exact F|lra].
  - unfold tab_w, tableLookup. rewrite (proj2 O H). eexists; split; [reflexivity|]. apply int_ok; [apply big_all|lia].
Qed.
Print Assumptions C26_table.

(** The same for the tables in the square of the separation. *)
Theorem C26_table_sqd : forall p k f (s : FLOAT p), separation s ->
  (B2R s < IZR (kernrangesqd k) ->
     exists a, tab_w_s2 p k f s = Ok (f (Bsqrt mode_NE a)) /\ grid_point (IZR (kernrangesqd k)) s a)
  /\ (IZR (kernrangesqd k) <= B2R s -> exists z, tab_w_s2 p k f s = Ok z /\ is_finite z = true /\ B2R z = 0).
Proof.
  intros p k f s [F P]. pose proof (outside_iff p (kernrangesqd k) s (kernrangesqd_in k) F) as O. split; intros H.
  - unfold tab_w_s2, tableLookupSqd. destruct (Bleb _ s) eqn:E; [rewrite ?E in O; pose proof (proj1 O eq_refl); lra|].
    apply (inside_entry p (kernrangesqd k) (fun x => f (Bsqrt mode_NE x)) s); [apply kernrangesqd_in|exact F|lra].
  - unfold tab_w_s2, tableLookupSqd. rewrite (proj2 O H). eexists; split; [reflexivity|]. apply int_ok; [apply big_all|lia].
Qed.
Print Assumptions C26_table_sqd.

(** The gravity tables: outside the range the point mass values, as computed by the machine. *)
Theorem C26_table_gravity : forall p k f (s : FLOAT p), separation s ->
  (B2R s < IZR (kernrange k) ->
     (exists a, tab_wgrav p k f s = Ok (f a) /\ grid_point (IZR (kernrange k)) s a)
     /\ (exists a, tab_wpot p k f s = Ok (f a) /\ grid_point (IZR (kernrange k)) s a))
  /\ (IZR (kernrange k) <= B2R s ->
     exists one : FLOAT p, is_finite one = true /\ B2R one = 1
       /\ tab_wgrav p k f s = Ok (Bdiv mode_NE one (Bmult mode_NE s s)) /\ tab_wpot p k f s = Ok (Bdiv mode_NE one s)).
Proof.
  intros p k f s [F P]. pose proof (outside_iff p (kernrange k) s (kernrange_in k) F) as O. split; intros H.
  - unfold tab_wgrav, tab_wpot, GravTableLookup, GravPotTableLookup. destruct (Bleb _ s) eqn:E; [rewrite ?E in O; pose proof (proj1 O eq_refl); lra|].
    split; (apply inside_entry; [apply kernrange_in|exact F|lra]).
  - unfold tab_wgrav, tab_wpot, GravTableLookup, GravPotTableLookup. rewrite (proj2 O H).
    exists (of_int (prec_of p) (emax_of p) 1). destruct (int_ok (prec_of p) (emax_of p) (big_all p) 1 ltac:(lia)) as [A B]. auto.
Qed.
Print Assumptions C26_table_gravity.

(** The standard resolution matters: the constructor accepts any, and with 17 entries a quintic
    table is read past its end, by the greatest double below the range. *)
Theorem C26_resolution_refuted : exists (s : FLOAT Double) table, separation s /\ B2R s < 3 /\ length table = 17%nat
  /\ tableLookup _ _ (of_int (prec_of Double) (emax_of Double) (kernrange Quintic)) 17 table s = UB.
Proof.
  set (K := of_int (prec_of Double) (emax_of Double) (kernrange Quintic)).
  exists (Bpred K), (repeat (of_int (prec_of Double) (emax_of Double) 0) 17).
  destruct (range_real Double 3 ltac:(cbn; tauto)) as [FK EK]. change (of_int (prec_of Double) (emax_of Double) 3) with K in FK, EK.
  assert (F : is_finite (Bpred K) = true) by (vm_compute; reflexivity).
  assert (L : Bltb (Bpred K) K = true) by (vm_compute; reflexivity).
  assert (Z0 : Bleb (of_int (prec_of Double) (emax_of Double) 0) (Bpred K) = true) by (vm_compute; reflexivity).
  destruct (int_ok (prec_of Double) (emax_of Double) (big_all Double) 0 ltac:(lia)) as [F0 E0].
  split; [split; [exact F|]|].
  - rewrite Bleb_correct in Z0 by assumption. rewrite E0 in Z0. revert Z0. now case Rle_bool_spec.
  - split; [|split; [reflexivity|vm_compute; reflexivity]].
    rewrite Bltb_correct in L by assumption. rewrite EK in L. revert L. now case Rlt_bool_spec.
Qed.
Print Assumptions C26_resolution_refuted.

(** The greatest doubles below the ranges, with the identity as tabulated function: the entries
    999, i.e. points just below the range; and the range itself. *)
Definition top (K : Z) : FLOAT Double := Bpred (of_int (prec_of Double) (emax_of Double) K).
Example C26_ex :
  let ok r := match r with Ok x => Btrunc (Bmult mode_NE x (of_int (prec_of Double) (emax_of Double) 1000)) | _ => (-1)%Z end in
  map (fun k => ok (tab_w Double k (fun x => x) (top (kernrange k)))) [M4; Quintic; Gaussian] = [1998; 2997; 2997]%Z
  /\ ok (tab_w Double M4 (fun x => x) (of_int (prec_of Double) (emax_of Double) 2)) = 0%Z
  /\ separation (top 3).
Proof.
  split; [vm_compute; reflexivity|]. split; [vm_compute; reflexivity|].
  split; [vm_compute; reflexivity|]. unfold top. vm_compute B2R. lra.
Qed.
