(** C41: tree cells describe exactly their live particles. *)
From Verif Require Import Prelude Vec S_Tree M_KDTree M_Stock S_Stock S_Search L_StockTop L_ExTree.
From Coq Require Import Reals Lra Permutation.
Local Open Scope Z_scope.

(** The tree is built over the particles first..first+N-1 and then re-stocked any number of
    times with arbitrary particle data (particles move, change and die in between).  After
    the last call the tree is linked, every cell describes the particles below it (counts,
    boxes, sphere, mass, centre of mass, quadrupole), and these are, each once, the
    particles that were alive at every call. *)
Theorem C41_build_and_stock : forall ndim kr th2 quad pos dead Nl Nmax first N bmin bmax s g2c gs pds pd,
  1 <= Nl -> 0 < N -> 0 <= first -> first + N <= Nmax ->
  zlen (ids s) = Nmax -> zlen (inext s) = Nmax ->
  (forall lmax gmax Ncellmax l g n,
     ComputeTreeSize (S (Z.to_nat (Z.max Nmax N))) Nl Nmax N = Ok (lmax, gmax, Ncellmax, l, g, n) ->
     Ncellmax <= zlen (cells s) /\ zlen g2c = gmax) ->
  zlen gs = zlen (cells s) ->
  0 < zlen pos -> zlen bmin = zlen pos -> zlen bmax = zlen pos ->
  (forall p, first <= p < first + N ->
     aget dead p = Ok false /\ forall key, In key pos -> exists v, aget key p = Ok v) ->
  (forall q p, In q (pds ++ [pd]) -> first <= p < first + N -> exists x, aget q p = Ok x /\ (0 <= gmass x)%R) ->
  exists s1 g2c' lm gm nm ltot g Ncell s2 t ps,
    BuildTree pos dead Nl Nmax first N bmin bmax s g2c = Ok (s1, g2c') /\
    ComputeTreeSize (S (Z.to_nat (Z.max Nmax N))) Nl Nmax N = Ok (lm, gm, nm, ltot, g, Ncell) /\
    stock_run ndim kr th2 quad ltot (pds ++ [pd]) (mkts s1 gs) = Ok s2 /\
    stocked ndim kr th2 quad pd Nl s2 Ncell t ps /\
    Permutation ps (filter (fun p => forallb (fun q => match aget q p with Ok x => negb (p_dead x) | _ => false end) (pds ++ [pd]))
                           (zseq first (Z.to_nat N))).
Proof. exact build_and_stock. Qed.
Print Assumptions C41_build_and_stock.

(** Four particles; one dies between two calls: the root describes the other three. *)
Example C41_example : exists s g,
  stock_run 1 2 1 true 1 [ex_pd false; ex_pd true] (mkts ex_s1 ex_gs) = Ok s /\
  aget (ts_g s) 0 = Ok g /\ gN g = 3 /\ gm g = 3%R /\ (gr g 0%nat = 5 / 3)%R /\ (gq g 0%nat = 28 / 3)%R.
Proof.
  destruct ex_stocked_dead as (s & E & S). exists s.
  assert (C := L_Search.ctree_root _ _ _ _ (st_desc _ _ _ _ _ _ _ _ _ _ S)). rewrite (st_root _ _ _ _ _ _ _ _ _ _ S) in C.
  destruct C as (k & g & xs & A & B & C & D & F). exists g. split; [exact E|]. split; [exact C|].
  cbn in D. injection D as <-. destruct F. cbn in d_m.
  assert (Hm : gm g = 3%R) by (rewrite d_m; cbn; unfold gmass; cbn; lra).
  assert (Hr : (gr g 0%nat = 5 / 3)%R).
  { specialize (d_com 0%nat). rewrite Hm in d_com. cbn in d_com. unfold gmass in d_com. cbn in d_com. lra. }
  split; [rewrite d_N; reflexivity|]. split; [exact Hm|]. split; [exact Hr|].
  rewrite (d_quad eq_refl ltac:(lia) 0%nat 0%nat 0%nat eq_refl) by lia.
  unfold second_moment, gmass, kron, dot, vsub. cbn. rewrite Hr. lra.
Qed.
