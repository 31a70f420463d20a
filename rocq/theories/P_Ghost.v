(** C13: ghost images built on the fly. *)
From Verif Require Import Prelude Vec M_Box S_Box L_Box M_Util M_Periodic S_Periodic M_Ghost S_Ghost L_Ghost L_Ghost2.
From Coq Require Import Reals Lra NArith.
Local Open Scope R_scope.

(** A caller's buffer of MaxNumGhosts elements is never overrun; it receives the nearest
    periodic image and, when the kernel-extended box of the cell reaches over a mirror face,
    every combination of reflections in the mirror faces, each exactly once. *)
Theorem C13_ConstructAllGhosts : forall n lo hi bl br' f rc b1 b2 hmin hmax,
  (n <= 3)%nat -> (forall k, (k < n)%nat -> lo k < hi k) ->
  mk_finder n (mkbox lo hi bl br') = Ok f -> in_box n lo hi rc ->
  forall p buf, in_box n lo hi (gp_r p) -> zlen buf = MaxNumGhosts n f ->
  exists p0 buf' nc cs,
    ConstructAllGhosts n (SetTargetCell n f rc b1 b2 hmin hmax) p buf = Ok (buf', nc) /\ zlen buf' = zlen buf /\
    (1 <= nc <= MaxNumGhosts n f)%Z /\ nearest_image n (mkbox lo hi bl br') rc p p0 /\
    Forall2 (is_image lo hi p0) cs (firstn (Z.to_nat nc) buf') /\ NoDup cs /\ In (repeat No n) (firstn 1 cs) /\
    (reaches_mirror n (mkbox lo hi bl br') hmin hmax ->
       forall c, In c cs <-> allowed n (fun k => is_mirrorB (bl k)) (fun k => is_mirrorB (br' k)) c) /\
    (~ reaches_mirror n (mkbox lo hi bl br') hmin hmax -> cs = [repeat No n]).
Proof. exact ConstructAllGhosts_spec. Qed.
Print Assumptions C13_ConstructAllGhosts.

(** With room in the output vector no image that can interact with the cell is left out, and
    only images in the mirror faces are produced.  Missing: the case without room, where the
    statement is false (next theorem). *)
Theorem C13_ScatterGather_partial : forall n lo hi bl br' f rc b1 b2 hmin hmax,
  (n <= 3)%nat -> (forall k, (k < n)%nat -> lo k < hi k) ->
  mk_finder n (mkbox lo hi bl br') = Ok f -> in_box n lo hi rc ->
  forall p v, in_box n lo hi (gp_r p) ->
  (forall k, (k < n)%nat -> lo k <= b1 k <= b2 k /\ b2 k <= hi k) ->
  (zlen (vdata v) + MaxNumGhosts n f <= vcap v)%Z ->
  exists p0 cs gs v', nearest_image n (mkbox lo hi bl br') rc p p0 /\
    ConstructGhostsScatterGather n (SetTargetCell n f rc b1 b2 hmin hmax) p v = Ok (v', zlen gs) /\ vdata v' = vdata v ++ gs /\
    Forall2 (is_image lo hi p0) cs gs /\ NoDup cs /\ In (repeat No n) cs /\
    (forall c, In c cs -> allowed n (fun k => is_mirrorB (bl k)) (fun k => is_mirrorB (br' k)) c) /\
    (forall c q, allowed n (fun k => is_mirrorB (bl k)) (fun k => is_mirrorB (br' k)) c ->
       is_image lo hi p0 c q -> touches n b1 b2 hmin hmax q -> In c cs).
Proof. exact ScatterGather_spec. Qed.
Print Assumptions C13_ScatterGather_partial.

(** From an empty vector, as at the first call of _EndSearch, in two dimensions with mirrors in
    both, the reference real_particle (GhostNeighbours.hpp:417) is read after push_back has
    moved the elements. *)
Theorem C13_ScatterGather_refuted : exists f, mk_finder 2 ex_box = Ok f /\
  ConstructGhostsScatterGather 2 (SetTargetCell 2 f (fun _ => 1/4) (fun _ => 0) (fun _ => 1/2) (fun _ => -1/4) (fun _ => 3/4))
    ex_p {| vdata := []; vcap := 0; vgen := 0 |} = UB.
Proof. exact ScatterGather_dangling. Qed.
Print Assumptions C13_ScatterGather_refuted.

(** The hypotheses can be met with a mirror that is reached: four images in two dimensions. *)
Example C13_example : exists f, mk_finder 2 ex_box = Ok f /\ in_box 2 (fun _ => 0) (fun _ => 1) (gp_r ex_p) /\
  MaxNumGhosts 2 f = 4%Z /\ reaches_mirror 2 ex_box (fun _ => -1/4) (fun _ => 3/4) /\
  in_box 2 (fun _ => 0) (fun _ => 1) (fun _ => 1/4) /\
  touches 2 (fun _ => 0) (fun _ => 1/2) (fun _ => -1/4) (fun _ => 3/4) (reflect ex_p 0 0).
Proof.
  eexists. split; [reflexivity|]. split; [intros k Hk; cbn; lra|]. split; [reflexivity|]. split.
  - exists 0%nat. split; [lia|]. left. split; [reflexivity|]. cbn. lra.
  - split; [intros k Hk; lra|]. right. intros k Hk. cbn. unfold vset. destruct (k =? 0)%nat; lra.
Qed.
