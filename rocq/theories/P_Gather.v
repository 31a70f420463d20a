(** C05: neighbour searches on a stocked tree. *)
From Verif Require Import Prelude Vec S_Tree M_KDTree L_KDStruct M_Stock S_Stock S_Search M_Box L_Box M_Gather L_Gather L_ExTree.
From Coq Require Import Reals Lra Permutation.
Local Open Scope Z_scope.

(** Gather search around a point: exactly the live particles strictly inside the radius, in
    tree order, after what was in the buffer; or -1, and then the buffer was full up to
    less than one leaf.  No out-of-range write happens (the result is never [UB]). *)
Theorem C05_gather_point : forall ndim kr th2 quad pd Nl s Ncell t ps,
  stocked ndim kr th2 quad pd Nl s Ncell t ps -> (0 <= kr)%R ->
  (forall p x, In p ps -> aget pd p = Ok x -> (0 <= p_h x)%R) ->
  forall Nneibmax rp rsearch neib, (0 <= rsearch)%R -> zlen neib <= Nneibmax ->
  let inside i := match aget pd i with
                  | Ok p => negb (p_dead p) && rltb (norm ndim (vsub (p_r p) rp)) rsearch
                  | _ => false end in
  exists r, gather_point ndim pd s Ncell Nl Nneibmax rp rsearch neib = Ok r /\
    match r with
    | Some l => l = neib ++ filter inside ps /\ zlen l <= Nneibmax
    | None => Nneibmax <= zlen neib + Nl + zlen (filter inside ps)
    end.
Proof. exact gather_point_correct. Qed.
Print Assumptions C05_gather_point.

(** Gather search for a cell: no particle twice; all within reach of the cell's sphere; and
    every live particle closer than kernrange*hmax to any position covered by the cell. *)
Theorem C05_gather_cell : forall ndim kr th2 quad pd Nl s Ncell t ps,
  stocked ndim kr th2 quad pd Nl s Ncell t ps -> (0 <= kr)%R ->
  (forall p x, In p ps -> aget pd p = Ok x -> (0 <= p_h x)%R) -> (1 <= ndim <= 3)%nat ->
  forall Nneibmax g0 hmax neib, zlen neib <= Nneibmax -> (0 <= hmax)%R -> (0 <= grmax g0)%R ->
  exists r, gather_cell ndim kr pd s Ncell Nl Nneibmax g0 hmax neib = Ok r /\
    match r with
    | Some l => zlen l <= Nneibmax /\ exists l', l = neib ++ l' /\ subseq l' ps /\
        (forall i, In i l' -> exists p, aget pd i = Ok p /\ p_dead p = false /\
            (norm ndim (vsub (p_r p) (grcell g0)) < grmax g0 + kr * hmax)%R) /\
        (forall i p x, In i ps -> aget pd i = Ok p -> p_dead p = false -> covers ndim g0 x ->
            (norm ndim (vsub (p_r p) x) < kr * hmax)%R -> In i l')
    | None => Nneibmax <= zlen neib + Nl + zlen ps
    end.
Proof. exact gather_cell_correct. Qed.
Print Assumptions C05_gather_cell.

(** Gather-scatter list of a cell: every live particle within kernrange times the larger of
    the two smoothing lengths of a particle of the cell. *)
Theorem C05_neighbour_list : forall ndim kr th2 quad pd Nl s Ncell t ps,
  stocked ndim kr th2 quad pd Nl s Ncell t ps -> (0 <= kr)%R ->
  (forall p x, In p ps -> aget pd p = Ok x -> (0 <= p_h x)%R) -> (1 <= ndim <= 3)%nat ->
  forall Nneibmax g0 neib, zlen neib <= Nneibmax -> (0 <= ghmax g0)%R -> (0 <= grmax g0)%R ->
  exists r, neighbour_list ndim kr pd s Ncell Nl Nneibmax g0 neib = Ok r /\
    match r with
    | Some l => zlen l <= Nneibmax /\ exists l', l = neib ++ l' /\ subseq l' ps /\
        (forall i, In i l' -> exists p, aget pd i = Ok p /\ p_dead p = false /\
            (norm ndim (vsub (p_r p) (grcell g0)) < grmax g0 + kr * Rmax (ghmax g0) (p_h p))%R) /\
        (forall i p x hx, In i ps -> aget pd i = Ok p -> p_dead p = false -> cell_member ndim kr g0 x hx ->
            (norm ndim (vsub (p_r p) x) < kr * Rmax hx (p_h p))%R -> In i l')
    | None => Nneibmax <= zlen neib + Nl + zlen ps
    end.
Proof. exact neighbour_list_correct. Qed.
Print Assumptions C05_neighbour_list.

(** The same search through the neighbour manager. *)
Theorem C05_neighbour_manager : forall ndim kr th2 quad pd Nl s Ncell t ps,
  stocked ndim kr th2 quad pd Nl s Ncell t ps -> (0 <= kr)%R ->
  (forall p x, In p ps -> aget pd p = Ok x -> (0 <= p_h x)%R) -> (1 <= ndim <= 3)%nat ->
  forall g0 neib,
  exists l', neighbour_manager ndim s Ncell g0 neib = Ok (neib ++ l') /\ subseq l' ps /\
    (forall i p x hx, In i ps -> aget pd i = Ok p -> cell_member ndim kr g0 x hx ->
       (norm ndim (vsub (p_r p) x) <= kr * Rmax hx (p_h p))%R -> In i l').
Proof. exact neighbour_manager_correct. Qed.
Print Assumptions C05_neighbour_manager.

(** Four particles at 0,1,2,3: the search around 1.5 with radius 1 finds 1 and 2; with a
    buffer of three entries it reports overflow or the same answer. *)
Example C05_example : exists s, stocked 1 2 1 true (ex_pd false) 2 s 3 (ptree 1 0) [0;1;2;3] /\
  exists r, gather_point 1 (ex_pd false) s 3 2 10 (fun _ => 3/2)%R 1 [] = Ok r /\ (r = Some [1;2] \/ r = None) /\
    r <> None.
Proof.
  destruct ex_stocked as (s & _ & S). exists s. split; [exact S|].
  assert (N : forall x, rltb (norm 1 (vsub (fun _ => x) (fun _ => 3/2)%R)) 1 = rltb ((x - 3/2) * (x - 3/2)) 1).
  { intros x. apply Bool.eq_iff_eq_true. rewrite !rltb_true. rewrite <- norm_lt_sqr by lra. unfold dot, vsub. cbn.
    rewrite Rplus_0_l, Rmult_1_r. reflexivity. }
  assert (F : filter (fun i => match aget (ex_pd false) i with
                  | Ok p => negb (p_dead p) && rltb (norm 1 (vsub (p_r p) (fun _ => 3/2)%R)) 1
                  | _ => false end) [0;1;2;3] = [1;2]).
  { cbn [filter].
    change (aget (ex_pd false) 0) with (Ok (ex_part 0 false)). change (aget (ex_pd false) 1) with (Ok (ex_part 1 false)).
    change (aget (ex_pd false) 2) with (Ok (ex_part 2 false)). change (aget (ex_pd false) 3) with (Ok (ex_part 3 false)).
    cbn [ex_part p_r p_dead negb andb]. rewrite !N. unfold rltb. repeat (destruct (Rlt_dec _ _); try lra). reflexivity. }
  destruct (C05_gather_point 1 2 1 true (ex_pd false) 2 s 3 (ptree 1 0) [0;1;2;3] S ltac:(lra)
     ltac:(intros; eapply ex_h; eauto) 10 (fun _ => 3/2)%R 1%R [] ltac:(lra) ltac:(unfold zlen; cbn; lia)) as (r & E & H).
  cbv zeta in H. rewrite F in H. exists r. split; [exact E|].
  destruct r as [l|]; [|unfold zlen in H; cbn in H; lia]. destruct H as [-> _]. split; [now left|discriminate].
Qed.
