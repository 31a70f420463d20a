(** C34, C35, C36, C37, C38, C39, C40: utilities and storage. *)
From Verif Require Import Prelude Vec M_Util S_Util L_Util M_Lookup L_Lookup M_Matrix L_Matrix M_Store L_Store.
From Coq Require Import NArith Reals Lra Permutation Sorted.
Local Open Scope Z_scope.

(** * C34 *)
(** After any history of set / unset / reset calls on elementary flags, each flag reads as
    the last value written to it. *)
Theorem C34_flags_history : forall h x f, In f elementary ->
  Forall (fun o => match o with SetTo g _ => In g elementary | Reset => True end) h ->
  fl_check (fold_left run_op h x) f = expected f (fl_check x f) h.
Proof. exact flags_history. Qed.
Print Assumptions C34_flags_history.
Theorem C34_flags_composite : forall x,
  is_periodic x = existsb (fl_check x) periodic_flags /\
  is_mirror x = existsb (fl_check x) mirror_flags /\
  is_boundary x = is_periodic x || is_mirror x.
Proof. exact flags_composite. Qed.
Print Assumptions C34_flags_composite.
(** The tables indexed by direction and side name each boundary flag once. *)
Theorem C34_flags_tables : forall (tab : list (list N)) j side,
  (tab = periodic_bound_flags \/ tab = mirror_bound_flags) -> (j < 3)%nat -> (side < 2)%nat ->
  exists f, nth side (nth j tab []) 0%N = f /\ In f elementary /\
    (forall j' side', (j' < 3)%nat -> (side' < 2)%nat -> nth side' (nth j' tab []) 0%N = f -> j' = j /\ side' = side) /\
    (In f periodic_flags <-> tab = periodic_bound_flags) /\ (In f mirror_flags <-> tab = mirror_bound_flags).
Proof. exact flags_tables. Qed.
(** and it is the flag of that direction and side. *)
Theorem C34_flags_named : forall j side, (j < 3)%nat -> (side < 2)%nat ->
  nth side (nth j periodic_bound_flags []) 0%N = (if (side =? 0)%nat then nth j [x_periodic_lhs; y_periodic_lhs; z_periodic_lhs] 0%N
                                                  else nth j [x_periodic_rhs; y_periodic_rhs; z_periodic_rhs] 0%N) /\
  nth side (nth j mirror_bound_flags []) 0%N = (if (side =? 0)%nat then nth j [x_mirror_lhs; y_mirror_lhs; z_mirror_lhs] 0%N
                                                else nth j [x_mirror_rhs; y_mirror_rhs; z_mirror_rhs] 0%N).
Proof. intros [|[|[|j]]] [|[|s]] Hj Hs; try lia; split; reflexivity. Qed.
Print Assumptions C34_flags_named.
Print Assumptions C34_flags_tables.
Example C34_example :
  let x := fold_left run_op [SetTo active true; SetTo z_mirror_rhs true; SetTo dead true; SetTo active false] 0%N in
  is_dead x = true /\ is_mirror x = true /\ is_periodic x = false /\ fl_check x active = false.
Proof. vm_compute. auto. Qed.

(** * C35 *)
(** A list with a repeated id is accepted: the second loop tests the wrong counter. *)
Theorem C35_VerifyUniqueIds_refuted : exists vals,
  ~ NoDup vals /\ (forall v, In v vals -> 0 <= v < 3) /\ VerifyUniqueIds 3 vals = Ok true.
Proof.
  exists [0;0;1]. split; [intros H; inversion H; apply H2; now left|]. split; [intros v [<-|[<-|[<-|[]]]]; lia|reflexivity].
Qed.
Print Assumptions C35_VerifyUniqueIds_refuted.
(** What it decides: range errors, and whether the last id occurred before (an assertion). *)
Theorem C35_VerifyUniqueIds_exact : forall Nrange vals, 0 <= Nrange ->
  VerifyUniqueIds Nrange vals =
    if forallb (fun v => (0 <=? v) && (v <? Nrange)) vals
    then match rev vals with [] => Ok true | x :: r => if in_dec Z.eq_dec x r then Raise else Ok true end
    else Ok false.
Proof. exact VerifyUniqueIds_exact. Qed.
Print Assumptions C35_VerifyUniqueIds_exact.
Theorem C35_VerifyUniqueIds_partial : forall Nrange vals, 0 <= Nrange ->
  (NoDup vals -> (forall v, In v vals -> 0 <= v < Nrange) -> VerifyUniqueIds Nrange vals = Ok true) /\
  (VerifyUniqueIds Nrange vals = Ok true -> forall v, In v vals -> 0 <= v < Nrange) /\
  (VerifyUniqueIds Nrange vals <> UB).
Proof. exact VerifyUniqueIds_positive. Qed.
Print Assumptions C35_VerifyUniqueIds_partial.
Example C35_example : VerifyUniqueIds 5 [4;0;2] = Ok true /\ VerifyUniqueIds 5 [4;5;2] = Ok false /\ VerifyUniqueIds 5 [2;4;2] = Raise.
Proof. vm_compute. auto. Qed.

(** * C36 *)
Theorem C36_InvertMatrix : forall n A, (1 <= n <= 3)%nat ->
  (exists B, is_id n (mmul n A B)) ->
  is_id n (mmul n A (InvertMatrix n A)) /\ is_id n (mmul n (InvertMatrix n A) A).
Proof. exact InvertMatrix_correct. Qed.
Print Assumptions C36_InvertMatrix.
Theorem C36_Euler_dot : forall phi theta psi v w,
  dot 3 (EulerAngleRotation phi theta psi v) (EulerAngleRotation phi theta psi w) = dot 3 v w.
Proof. exact Euler_dot. Qed.
Print Assumptions C36_Euler_dot.
Theorem C36_Euler_norm : forall phi theta psi v, norm 3 (EulerAngleRotation phi theta psi v) = norm 3 v.
Proof. exact Euler_norm. Qed.
Print Assumptions C36_Euler_norm.
Theorem C36_Euler_det : forall phi theta psi, det3 (EulerAngleMatrix phi theta psi) = 1%R.
Proof. exact Euler_det. Qed.
Print Assumptions C36_Euler_det.
Theorem C36_EulerArray : forall N phi theta psi v, (3 * Z.of_nat N <= zlen v)%Z ->
  exists v', EulerAngleArrayRotation N phi theta psi v = Ok v' /\ zlen v' = zlen v /\
   (forall j, (3 * Z.of_nat N <= j)%Z -> aget v' j = aget v j) /\
   (forall m a, (0 <= m < Z.of_nat N)%Z ->
     (forall k, (k < 3)%nat -> aget v (3 * m + Z.of_nat k) = Ok (a k)) ->
     forall k, (k < 3)%nat -> aget v' (3 * m + Z.of_nat k) = Ok (EulerAngleRotation phi theta psi a k)).
Proof. exact EulerArray_correct. Qed.
Print Assumptions C36_EulerArray.
(** An invertible 3x3 matrix that is neither triangular nor symmetric. *)
Example C36_example : exists B, is_id 3 (mmul 3 (mat3 0 1 0  0 0 2  4 0 0) B).
Proof.
  exists (mat3 0 0 (1/4)  1 0 0  0 (1/2) 0). intros i j Hi Hj.
  destruct i as [|[|[|i]]]; try lia; destruct j as [|[|[|j]]]; try lia; unfold mmul; cbn; lra.
Qed.
(** Rotation by 90 degrees about one axis. *)
Example C36_example_rot : EulerAngleRotation 0 0 (PI/2) (fun k => match k with O => 1%R | _ => 0%R end) 1%nat = (-1)%R.
Proof. unfold EulerAngleRotation, apply_rot, EulerAngleMatrix. cbn. rewrite cos_0, sin_0, sin_PI2, cos_PI2. lra. Qed.

(** * C37 *)
(** Any number of new particles, once there is storage for five. *)
Theorem C37_create_partial : forall (P : Type) (default : P) ps (s : store),
  zlen (data s) = Nhydromax s -> 0 <= Nhydro s <= Nhydromax s -> 5 <= Nhydromax s ->
  exists s', create_all default ps s = Ok s' /\ zlen (data s') = Nhydromax s' /\ Nhydro s' <= Nhydromax s' /\
    Nhydro s' = Nhydro s + zlen ps /\
    firstn (Z.to_nat (Nhydro s')) (data s') = firstn (Z.to_nat (Nhydro s)) (data s) ++ ps.
Proof. intros P default. exact (create_history default). Qed.
Print Assumptions C37_create_partial.
(** With storage for one to four particles, all in use, the new particle is written past the
    end of the array. *)
Theorem C37_create_refuted : forall (P : Type) (default p : P) (s : store),
  zlen (data s) = Nhydromax s -> 1 <= Nhydromax s <= 4 -> Nhydro s = Nhydromax s ->
  CreateNewParticle default p s = UB.
Proof. intros P default. exact (create_small_refuted default). Qed.
Print Assumptions C37_create_refuted.
(** Ghosts: any number of requests, each copying an existing entry, for any storage. *)
Theorem C37_ghosts : forall (P : Type) (default : P) gs (s : store), good s ->
  (forall k i f, nth_error gs k = Some (i, f) -> 0 <= i < Nhydro s + Nghost s + Z.of_nat k) ->
  exists s', ghost_all default gs s = Ok s' /\ good s' /\ Nhydro s' = Nhydro s /\ ghosts_of gs (live s) (live s').
Proof. intros P default. exact (ghost_history default). Qed.
Print Assumptions C37_ghosts.
Example C37_example :
  create_all 0 [7;8;9] (mkstore 5 0 5 [1;2;3;4;5]) = Ok (mkstore 8 0 8 [1;2;3;4;5;7;8;9]) /\
  CreateNewParticle 0 9 (mkstore 4 0 4 [1;2;3;4]) = UB /\
  ghost_all 0 [(0, Z.opp); (1, Z.opp)] (mkstore 1 0 1 [3]) = Ok (mkstore 1 2 3 [3;-3;3]).
Proof. vm_compute. auto. Qed.

(** * C38 *)
Theorem C38_delete_dead : forall (P : Type) (isdead : P -> bool) (kill : P -> P) n d, 0 <= n <= zlen d ->
  exists d' n' Ndead, DoDeleteDeadParticles isdead kill n d = Ok (d', n', Ndead) /\
    n' + Ndead = n /\ zlen d' = zlen d /\
    Permutation (firstn (Z.to_nat n') d') (filter (alive isdead) (firstn (Z.to_nat n) d)) /\
    n' = zlen (filter (alive isdead) (firstn (Z.to_nat n) d)) /\
    skipn (Z.to_nat n) d' = skipn (Z.to_nat n) d.
Proof. intros P isdead kill. exact (DeleteDead_correct isdead kill). Qed.
Print Assumptions C38_delete_dead.
Example C38_example :
  DoDeleteDeadParticles (fun x => x <? 0) (fun _ => -1) 6 [-5;1;2;-6;3;-7;99] = Ok ([3;1;2;-6;-1;-1;99], 3, 3).
Proof. vm_compute. reflexivity. Qed.

(** * C39 *)
Theorem C39_pack_unpack : forall {byte} (es : list (list byte)) buf post,
  unpack_all (map (@length byte) es) (pack_all es buf ++ post) (length buf) = Ok (es, length (pack_all es buf)).
Proof. intros byte. exact pack_unpack. Qed.
Print Assumptions C39_pack_unpack.
Theorem C39_unpack_overrun : forall {byte} n (buf : list byte) it,
  (length buf < it + n)%nat <-> unpack_bytes n buf it = UB.
Proof. intros byte. exact unpack_overrun. Qed.
Print Assumptions C39_unpack_overrun.
Theorem C39_displs : forall displs counts, zlen displs <= zlen counts + 1 ->
  exists d, compute_displs displs counts = Ok d /\ zlen d = zlen displs /\
    forall j, 0 <= j < zlen d -> aget d j = Ok (zsum (firstn (Z.to_nat j) counts)).
Proof. exact compute_displs_spec. Qed.
Print Assumptions C39_displs.
Theorem C39_displs_blocks : forall displs counts d, zlen displs <= zlen counts + 1 ->
  compute_displs displs counts = Ok d ->
  (forall j c, 0 <= j -> j + 1 < zlen d -> aget counts j = Ok c ->
     exists a, aget d j = Ok a /\ aget d (j + 1) = Ok (a + c)) /\
  ((forall c, In c counts -> 0 <= c) ->
   forall i j a b ci cj, i < j -> aget d i = Ok a -> aget d j = Ok b -> aget counts i = Ok ci -> aget counts j = Ok cj ->
     forall x y, 0 <= x < ci -> 0 <= y < cj -> a + x <> b + y).
Proof. exact compute_displs_blocks. Qed.
Print Assumptions C39_displs_blocks.
Theorem C39_isPowerOfTwo : forall x, exists b, isPowerOfTwo x = Ok b /\ (b = true <-> exists k, 0 <= k /\ x = 2 ^ k).
Proof. exact isPowerOfTwo_spec. Qed.
Print Assumptions C39_isPowerOfTwo.
Example C39_example : compute_displs [9;9;9;9] [3;0;5;2] = Ok [0;3;3;8] /\
  unpack_all [2;0;1]%nat (pack_all [[1;2];[];[3]] [9;9]) 2 = Ok ([[1;2];[];[3]], 5%nat).
Proof. vm_compute. auto. Qed.

(** * C40 *)
Theorem C40_getClosestIndex : forall l v, l <> [] -> StronglySorted Rle l ->
  exists i x, getClosestIndex l v = Ok i /\ aget l i = Ok x /\ forall y, In y l -> (Rabs (x - v) <= Rabs (y - v))%R.
Proof. exact getClosestIndex_correct. Qed.
Print Assumptions C40_getClosestIndex.
Example C40_example : getClosestIndex [1;2;4;8]%R 3 = Ok 1 /\ StronglySorted Rle [1;2;4;8]%R.
Proof.
  split.
  - unfold getClosestIndex, lower_bound, M_Box.rltb. repeat (destruct (Rlt_dec _ _); try lra).
    cbn [Z.of_nat Pos.of_succ_nat Pos.succ Z.eqb]. change (2 =? zlen [1;2;4;8]%R) with false. cbn iota.
    change (aget [1;2;4;8]%R 2) with (Ok 4%R). change (aget [1;2;4;8]%R (2 - 1)) with (Ok 2%R). cbn [bind].
    destruct (Rlt_dec _ _); [lra|]. reflexivity.
  - repeat (constructor; [|repeat (constructor; try lra)]); constructor.
Qed.
