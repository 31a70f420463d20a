(** C52, C53: which cells are sent to other processes. *)
From Verif Require Import Prelude L_Prelude Vec S_Tree L_Tree M_Walk S_Box M_Box L_Box M_Periodic S_Periodic L_Periodic M_Prune S_Prune L_Prune M_Export S_Export L_Export L_Export2 L_Export3.
From Coq Require Import Reals Lra.
Local Open Scope Z_scope.

(** One walk of the pruned tree of another process for the hydrodynamical forces.  It ends, reads no cell that does not
    exist, and answers "no overlap" only if no particle of that process (in any periodic image) is within kernel range of
    a particle of the cell; it answers "overlap" only because of a leaf with particles. *)
Theorem C52_overlap : forall ndim lo hi bl br kernrange pos hsm cells Ncell t content pos0 hsm0 l0 cell,
  let b := mkbox lo hi bl br in
  (forall j, (j < ndim)%nat -> (lo j < hi j)%R) -> (0 <= kernrange)%R ->
  described ndim pos hsm cells Ncell t content -> encloses ndim pos0 hsm0 l0 cell ->
  (forall c k, In c (preorder t) -> aget cells c = Ok k -> within ndim b (k_r cell) (k_r k)) ->
  exists overlap, ComputeHydroTreeCellOverlap ndim b kernrange cells Ncell cell = Ok overlap /\
    (overlap = false -> clear_of ndim b kernrange pos0 hsm0 l0 pos hsm (content 0)) /\
    (overlap = true -> leaf_touches ndim b kernrange cell cells t content).
Proof.
  intros ndim lo hi bl br kernrange pos hsm cells Ncell t content pos0 hsm0 l0 cell b Hd Hk HD HC HW.
  destruct (overlap_correct ndim lo hi bl br Hd kernrange Hk pos hsm cells content cell l0 pos0 hsm0 HC (fun _ => 0%R) Ncell t HD HW) as (st & E & S1 & S2).
  exists st. split; [exact E|]. split; [exact S1|]. intros Hst. destruct (S2 Hst) as (c & Hc & k & K1 & K2 & K3).
  exists c, k, (sep ndim lo hi bl br cell k). repeat split; try easy. all: apply sep_shortest; [exact Hd|]; eapply HW; eauto using leaves_incl.
Qed.
Print Assumptions C52_overlap.

(** The same for gravity: 0 is returned only when the tree was replaced by multipoles that hold every particle once and
    are all far enough, -1 only when a leaf is too near (what was appended before is then dropped by the caller). *)
Theorem C53_distant : forall ndim lo hi bl br kernrange pos hsm cells Ncell t content pos0 hsm0 l0 cell mac macerror cm amin macf gl,
  let b := mkbox lo hi bl br in
  (forall j, (j < ndim)%nat -> (lo j < hi j)%R) -> (0 <= kernrange)%R ->
  described ndim pos hsm cells Ncell t content -> encloses ndim pos0 hsm0 l0 cell ->
  (forall c k, In c (preorder t) -> aget cells c = Ok k -> within ndim b (k_r cell) (k_r k)) ->
  exists ks r, ComputeDistantGravityInteractionList ndim b kernrange mac macerror cm cells Ncell cell amin macf gl = Ok (gl ++ ks, r) /\
    ((r = 0 /\ replaced ndim b kernrange mac macerror cm amin macf cell cells t content ks /\
        clear_of ndim b kernrange pos0 hsm0 l0 pos hsm (content 0)) \/
     (r = -1 /\ leaf_too_near ndim b kernrange mac macerror cm amin macf cell cells t content)).
Proof.
  intros ndim lo hi bl br kernrange pos hsm cells Ncell t content pos0 hsm0 l0 cell mac macerror cm amin macf gl b Hd Hk HD HC HW.
  destruct (distant_correct ndim lo hi bl br Hd kernrange Hk pos hsm cells content cell l0 pos0 hsm0 HC mac macerror cm amin macf Ncell t HD HW gl)
    as (r & E & [(acc & ks & -> & S1 & S2 & S3 & S4)|(ks & c & -> & S1 & k & K1 & K2 & K3)]).
  - exists ks, 0. split; [exact E|]. left. split; [reflexivity|]. split; [|exact S3]. exists acc. split; [exact S2|]. split; [exact S4|].
    clear - S1 S4 HW Hd. induction S1 as [|c k acc ks (A & B & C) S1 IH]; [constructor|]. inversion S4; subst. constructor; [|now apply IH].
    split; [exact A|]. exists (sep ndim lo hi bl br cell k). split; [|easy]. apply sep_shortest; [exact Hd|]. eapply HW; eauto. tauto.
  - exists ks, (-1). split; [exact E|]. right. split; [reflexivity|]. exists c, k, (sep ndim lo hi bl br cell k). split; [exact S1|]. split; [exact K2|]. split; [exact K1|].
    split; [|exact K3]. apply sep_shortest; [exact Hd|]. eapply HW; eauto using leaves_incl.
Qed.
Print Assumptions C53_distant.

Lemma Forall2_weaken : forall A B (P P' : A -> B -> Prop) l l', (forall x y, P x y -> P' x y) -> Forall2 P l l' -> Forall2 P' l l'.
Proof. intros A B P P' l l' H. induction 1; constructor; auto. Qed.
Lemma aget_repeat : forall A (x : A) n i, 0 <= i < Z.of_nat n -> aget (repeat x n) i = Ok x.
Proof.
  intros A x n i H. unfold aget. destruct (Z.ltb_spec i 0); [lia|]. rewrite (nth_error_nth' _ x) by (rewrite repeat_length; lia). now rewrite nth_repeat.
Qed.

(** The whole export list for the hydrodynamical forces.  [M] holds the answer for every active cell and process: a cell goes
    to the list of process [j] exactly when its answer is true, and Npartexport counts the active particles of those cells;
    nothing is sent to the process itself; whenever a cell is not sent to a process, none of that process's
    particles is within range of the cell's particles. *)
Theorem C52_exports : forall ndim lo hi bl br kernrange rank trees celllist pos hsm tr content pos0 hsm0 l0,
  let b := mkbox lo hi bl br in
  (forall j, (j < ndim)%nat -> (lo j < hi j)%R) -> (0 <= kernrange)%R ->
  (forall j cells Ncell, j <> rank -> aget trees j = Ok (cells, Ncell) ->
     described ndim (pos j) (hsm j) cells Ncell (tr j) (content j) /\
     forall a c k, In a celllist -> In c (preorder (tr j)) -> aget cells c = Ok k -> within ndim b (k_r (a_cell a)) (k_r k)) ->
  (forall a, In a celllist -> encloses ndim pos0 hsm0 (l0 a) (a_cell a)) ->
  exists M exps np, UpdateHydroExportList ndim b kernrange trees rank celllist = Ok (exps, np) /\
    zlen exps = zlen trees /\ zlen np = zlen trees /\
    (forall j, 0 <= j < zlen trees ->
       let sent := marked (flag_at (fun o => o) j) celllist M in
       aget exps j = Ok (map a_id sent) /\ aget np j = Ok (total (map a_Nactive sent))) /\
    Forall2 (fun a row => zlen row = zlen trees /\ forall j answer, aget row j = Ok answer ->
       (j = rank -> answer = false) /\
       (j <> rank -> answer = false -> clear_of ndim b kernrange pos0 hsm0 (l0 a) (pos j) (hsm j) (content j 0)) /\
       (answer = true -> exists cells Ncell, aget trees j = Ok (cells, Ncell) /\ leaf_touches ndim b kernrange (a_cell a) cells (tr j) (content j)))
      celllist M.
Proof.
  intros ndim lo hi bl br kernrange rank trees celllist pos hsm tr content pos0 hsm0 l0 b Hd Hk HT HC.
  set (Q := fun (a : acell) (j : Z) (o : bool) =>
     (o = false -> clear_of ndim b kernrange pos0 hsm0 (l0 a) (pos j) (hsm j) (content j 0)) /\
     (o = true -> exists cells Ncell, aget trees j = Ok (cells, Ncell) /\ leaf_touches ndim b kernrange (a_cell a) cells (tr j) (content j))).
  assert (LR : forall A (x : A), zlen (repeat x (length trees)) = zlen trees) by (intros; unfold zlen; now rewrite repeat_length).
  destruct (hydro_cells_ok ndim b kernrange (fun _ => 0%R) rank Q trees celllist (repeat [] (length trees)) (repeat 0 (length trees)) (zlen trees)) as (M & exps & np & E & S1 & S2 & S3 & S4); auto.
  { intros a i [cells Nc] Ha Ei Hr. cbn [fst snd]. destruct (HT i cells Nc Hr Ei) as [D W].
    destruct (C52_overlap ndim lo hi bl br kernrange (pos i) (hsm i) cells Nc (tr i) (content i) pos0 hsm0 (l0 a) (a_cell a) Hd Hk D (HC a Ha)) as (r & E & R1 & R2).
    { intros c k. now apply W. } exists r. split; [exact E|]. split; [exact R1|]. intros Hr'. exists cells, Nc. auto. }
  exists M, exps, np. split; [exact E|]. split; [exact S2|]. split; [exact S3|]. split.
  - intros j Hj. destruct (S4 j [] 0 Hj) as [A B]; [apply aget_repeat; exact Hj|apply aget_repeat; exact Hj|]. split; [exact A|exact B].
  - eapply Forall2_weaken; [|exact S1]. cbn beta. intros a row [R1 R2]. split; [exact R1|]. intros j o Ej. specialize (R2 j o Ej). unfold hans_ok in R2.
    destruct (Z.eqb_spec j rank) as [Er|Er].
    + split; [easy|]. split; [easy|]. congruence.
    + destruct R2 as [R2 R3]. split; [easy|]. split; [auto|exact R3].
Qed.
Print Assumptions C52_exports.

(** The same for gravity: for every active cell and every other process either the cell is in the export list of that process
    or the process's particles are all contained in the multipoles used for the cell, each exactly once; the multipole list
    of a cell is made of these parts and nothing else (what an abandoned walk had added is dropped). *)
Theorem C53_exports : forall ndim lo hi bl br kernrange mac macerror cm rank trees celllist pos hsm tr content pos0 hsm0 l0,
  let b := mkbox lo hi bl br in
  (forall j, (j < ndim)%nat -> (lo j < hi j)%R) -> (0 <= kernrange)%R ->
  (forall j cells Ncell, j <> rank -> aget trees j = Ok (cells, Ncell) ->
     described ndim (pos j) (hsm j) cells Ncell (tr j) (content j) /\
     forall a c k, In a celllist -> In c (preorder (tr j)) -> aget cells c = Ok k -> within ndim b (k_r (a_cell a)) (k_r k)) ->
  (forall a, In a celllist -> encloses ndim pos0 hsm0 (l0 a) (a_cell a)) ->
  exists M exps np, UpdateGravityExportList ndim b kernrange mac macerror cm trees rank celllist =
      Ok (map (fun row => concat (map kept_cells row)) M, exps, np) /\
    zlen exps = zlen trees /\ zlen np = zlen trees /\
    (forall j, 0 <= j < zlen trees ->
       let sent := marked (flag_at is_none j) celllist M in
       aget exps j = Ok (map a_id sent) /\ aget np j = Ok (total (map a_Nactive sent))) /\
    Forall2 (fun a row => zlen row = zlen trees /\ forall j answer, aget row j = Ok answer ->
       (j = rank -> answer = Some []) /\
       (j <> rank -> exists cells Ncell, aget trees j = Ok (cells, Ncell) /\
          match answer with
          | Some ks => replaced ndim b kernrange mac macerror cm (a_amin a) (a_macf a) (a_cell a) cells (tr j) (content j) ks /\
                       clear_of ndim b kernrange pos0 hsm0 (l0 a) (pos j) (hsm j) (content j 0)
          | None => leaf_too_near ndim b kernrange mac macerror cm (a_amin a) (a_macf a) (a_cell a) cells (tr j) (content j)
          end))
      celllist M.
Proof.
  intros ndim lo hi bl br kernrange mac macerror cm rank trees celllist pos hsm tr content pos0 hsm0 l0 b Hd Hk HT HC.
  set (Q := fun (a : acell) (j : Z) (o : option (list pcell)) => exists cells Ncell, aget trees j = Ok (cells, Ncell) /\
          match o with
          | Some ks => replaced ndim b kernrange mac macerror cm (a_amin a) (a_macf a) (a_cell a) cells (tr j) (content j) ks /\
                       clear_of ndim b kernrange pos0 hsm0 (l0 a) (pos j) (hsm j) (content j 0)
          | None => leaf_too_near ndim b kernrange mac macerror cm (a_amin a) (a_macf a) (a_cell a) cells (tr j) (content j)
          end).
  assert (LR : forall A (x : A), zlen (repeat x (length trees)) = zlen trees) by (intros; unfold zlen; now rewrite repeat_length).
  destruct (grav_cells_ok ndim b kernrange mac macerror cm rank Q trees celllist (repeat [] (length trees)) (repeat 0 (length trees)) (zlen trees)) as (M & exps & np & E & S1 & S2 & S3 & S4); auto.
  { intros a i [cells Nc] Ha Ei Hr gl. cbn [fst snd]. destruct (HT i cells Nc Hr Ei) as [D W].
    destruct (C53_distant ndim lo hi bl br kernrange (pos i) (hsm i) cells Nc (tr i) (content i) pos0 hsm0 (l0 a) (a_cell a) mac macerror cm (a_amin a) (a_macf a) gl Hd Hk D (HC a Ha)) as (ks & r & E & R).
    { intros c k. now apply W. } exists ks, r. split; [exact E|]. destruct R as [(-> & R1 & R2)|(-> & R)]; [left|right]; (split; [reflexivity|]); exists cells, Nc; auto. }
  exists M, exps, np. split; [exact E|]. split; [exact S2|]. split; [exact S3|]. split.
  - intros j Hj. destruct (S4 j [] 0 Hj) as [A B]; [apply aget_repeat; exact Hj|apply aget_repeat; exact Hj|]. split; [exact A|exact B].
  - eapply Forall2_weaken; [|exact S1]. cbn beta. intros a row [R1 R2]. split; [exact R1|]. intros j o Ej. specialize (R2 j o Ej). unfold ans_ok in R2.
    destruct (Z.eqb_spec j rank) as [Er|Er]; [easy|]. split; [easy|]. intros _. exact R2.
Qed.
Print Assumptions C53_exports.

(** The trees walked here may be the pruned copies of C08: if every cell of the full tree of a process describes its
    particles then so does every cell of the pruned copy, whose root holds the same particles as the full tree's. *)
Theorem C52_pruned_trees : forall ndim pos hsm celldata p cells lf ll n op t content,
  pruned_copy celldata p cells lf ll n -> p = prune op t -> contents content t ->
  (forall c k, In c (preorder t) -> aget celldata c = Ok k -> k_N k = zlen (content c) /\ encloses ndim pos hsm (content c) k) ->
  let content' i := content (nth (Z.to_nat i) (preorder p) 0) in
  exists t', described ndim pos hsm cells n t' content' /\ content' 0 = content (root t) /\ leaves t' = lf.
Proof. exact pruned_described. Qed.
Print Assumptions C52_pruned_trees.

(** A concrete case: a periodic box [0,40] in one dimension; the other process has particles at 1 and 12, in two leaves.  A cell with one
    particle at 20 is not sent to it, one with a particle at 39 is (because of the image of the first particle at 41). *)
Definition xp (copen cnext N : Z) (x rm : R) : pcell := mkpcell copen cnext 0 N (fun _ => x) rm 1 4 0 0.
Definition x_cells : list pcell := [xp 1 3 2 (13/2) (11/2); xp (-1) 2 1 1 0; xp (-1) 3 1 12 0].
Definition x_tree : rtree := RNode 0 [RNode 1 []; RNode 2 []].
Definition x_content (c : Z) : list Z := if c =? 0 then [0; 1] else if c =? 1 then [0] else [1].
Definition x_pos (i : Z) : vec := fun _ => if i =? 0 then 1%R else 12%R.
Definition x_lo : vec := fun _ => 0%R.
Definition x_hi : vec := fun _ => 40%R.
Definition x_per : nat -> boundary := fun _ => periodicB.
Definition x_own (x : R) : pcell := xp (-1) 1 1 x 0.
Lemma norm1 : forall v, norm 1 v = Rabs (v 0%nat).
Proof. intros v. unfold norm, dot, sumf. replace (0 + v 0%nat * v 0%nat)%R with (Rsqr (v 0%nat)) by (unfold Rsqr; ring). apply sqrt_Rsqr_abs. Qed.
Ltac rabs := repeat match goal with
  | |- context [Rabs ?x] => unfold Rabs; destruct (Rcase_abs x)
  | H : context [Rabs ?x] |- _ => unfold Rabs in H; destruct (Rcase_abs x) end.
Example C52_example_tree : described 1 x_pos (fun _ => 1%R) x_cells 3 x_tree x_content.
Proof.
  constructor.
  - reflexivity.
  - cbn. repeat constructor; cbn; lia.
  - cbn. lia.
  - exists 3. split; [lia|]. cbn. repeat split; eexists; (split; [reflexivity|]); left; reflexivity.
  - constructor; [reflexivity|]. repeat constructor; cbn; congruence.
  - assert (D : forall x y, norm 1 (vsub (fun _ => x) (fun _ => y)) = Rabs (x - y)) by (intros; rewrite norm1; reflexivity).
    cbn. intros c [<-|[<-|[<-|[]]]]; eexists; (split; [reflexivity|]); (split; [reflexivity|]); unfold encloses; cbn.
    + split; [lra|]. split; [lra|]. intros i [<-|[<-|[]]]; unfold x_pos; cbn; rewrite D; (split; [|lra]); rabs; lra.
    + split; [lra|]. split; [lra|]. intros i [<-|[]]; unfold x_pos; cbn; rewrite D; (split; [|lra]); rabs; lra.
    + split; [lra|]. split; [lra|]. intros i [<-|[]]; unfold x_pos; cbn; rewrite D; (split; [|lra]); rabs; lra.
Qed.
Lemma x_walk : forall x, (0 <= x <= 40)%R -> exists overlap,
  ComputeHydroTreeCellOverlap 1 (mkbox x_lo x_hi x_per x_per) 2 x_cells 3 (x_own x) = Ok overlap /\
  (overlap = false -> clear_of 1 (mkbox x_lo x_hi x_per x_per) 2 (fun _ _ => x) (fun _ => 1%R) [0] x_pos (fun _ => 1%R) (x_content 0)) /\
  (overlap = true -> leaf_touches 1 (mkbox x_lo x_hi x_per x_per) 2 (x_own x) x_cells x_tree x_content).
Proof.
  intros x Hx. apply (C52_overlap 1 x_lo x_hi x_per x_per 2 x_pos (fun _ => 1%R) x_cells 3 x_tree x_content (fun _ _ => x) (fun _ => 1%R) [0] (x_own x)).
  - intros. unfold x_lo, x_hi. lra.
  - lra.
  - exact C52_example_tree.
  - unfold encloses, x_own. cbn. split; [lra|]. split; [lra|]. intros i _. split; [|lra]. rewrite norm1. unfold vsub. rabs; lra.
  - cbn. intros c k Hc. destruct Hc as [<-|[<-|[<-|[]]]]; cbn; intros [= <-]; intros j Hj _; unfold mkbox, x_lo, x_hi; cbn; rabs; lra.
Qed.
Example C52_example_out : ComputeHydroTreeCellOverlap 1 (mkbox x_lo x_hi x_per x_per) 2 x_cells 3 (x_own 20) = Ok false.
Proof.
  destruct (x_walk 20) as (o & E & _ & S); [lra|]. destruct o; [|exact E]. exfalso. destruct (S eq_refl) as (c & k & d & Hc & _ & Ek & [I _] & T).
  unfold may_touch in T. rewrite norm1 in T. specialize (I 0%nat ltac:(lia)). destruct I as [[_ (z & I)]|[NP _]]; [|apply NP; split; reflexivity].
  assert (Z3 : (IZR z <= -1)%R \/ z = 0 \/ (1 <= IZR z)%R). { destruct (Z.lt_trichotomy z 0) as [H|[H|H]]; [left; apply IZR_le; lia|tauto|right; right; apply IZR_le; lia]. }
  cbn in Hc. destruct Hc as [<-|[<-|[]]]; cbn in Ek; injection Ek as <-; unfold vsub, x_lo, x_hi in I; cbn in I, T;
    rewrite (Rmax_left 1 1) in T by lra; destruct Z3 as [Z3|[->|Z3]]; rabs; lra.
Qed.
Example C52_example_sent : ComputeHydroTreeCellOverlap 1 (mkbox x_lo x_hi x_per x_per) 2 x_cells 3 (x_own 39) = Ok true.
Proof.
  destruct (x_walk 39) as (o & E & S & _); [lra|]. destruct o; [exact E|]. exfalso.
  assert (IM : image_of 1 (mkbox x_lo x_hi x_per x_per) (x_pos 0) (fun _ => 41%R)).
  { intros k Hk. left. split; [split; reflexivity|]. exists 1. unfold x_pos, mkbox, x_lo, x_hi. cbn. lra. }
  specialize (S eq_refl 0 0 (or_introl eq_refl) (or_introl eq_refl) _ IM). rewrite norm1 in S. unfold vsub in S.
  rewrite (Rmax_left 1 1) in S by lra. rabs; lra.
Qed.
(** With gravity the particle at 20 may use the root or the leaves as multipoles. *)
Example C53_example : exists ks, ComputeDistantGravityInteractionList 1 (mkbox x_lo x_hi x_per x_per) 2 geometric 0 (fun _ => 1%R) x_cells 3 (x_own 20) 0 0 [] = Ok (ks, 0) /\
  replaced 1 (mkbox x_lo x_hi x_per x_per) 2 geometric 0 (fun _ => 1%R) 0 0 (x_own 20) x_cells x_tree x_content ks.
Proof.
  destruct (C53_distant 1 x_lo x_hi x_per x_per 2 x_pos (fun _ => 1%R) x_cells 3 x_tree x_content (fun _ _ => 20%R) (fun _ => 1%R) [0] (x_own 20) geometric 0 (fun _ => 1%R) 0 0 []) as (ks & r & E & S).
  - intros. unfold x_lo, x_hi. lra.
  - lra.
  - exact C52_example_tree.
  - unfold encloses, x_own. cbn. split; [lra|]. split; [lra|]. intros i _. split; [|lra]. rewrite norm1. unfold vsub. rabs; lra.
  - cbn. intros c k Hc. destruct Hc as [<-|[<-|[<-|[]]]]; cbn; intros [= <-]; intros j Hj _; unfold mkbox, x_lo, x_hi; cbn; rabs; lra.
  - exists ks. destruct S as [(-> & S & _)|(-> & c & k & d & Hc & _ & Ek & [I _] & T)]; [split; [exact E|exact S]|exfalso].
    unfold may_touch, too_coarse in T. rewrite norm1 in T. specialize (I 0%nat ltac:(lia)). destruct I as [[_ (z & I)]|[NP _]]; [|apply NP; split; reflexivity].
    assert (Z3 : (IZR z <= -1)%R \/ z = 0 \/ (1 <= IZR z)%R). { destruct (Z.lt_trichotomy z 0) as [H|[H|H]]; [left; apply IZR_le; lia|tauto|right; right; apply IZR_le; lia]. }
    cbn in Hc. destruct Hc as [<-|[<-|[]]]; cbn in Ek; injection Ek as <-; unfold vsub, x_lo, x_hi in I; cbn in I, T;
      rewrite (Rmax_left 1 1) in T by lra; assert (A : (3 < Rabs (d 0%nat))%R) by (destruct Z3 as [Z3|[->|Z3]]; rabs; lra); destruct T as [T|[T|[]]]; try lra; nra.
Qed.
