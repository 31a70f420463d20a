(** C03, C04: structure and contents of the KD-tree. *)
From Verif Require Import Prelude L_Prelude S_Tree S_KD M_Walk L_Tree M_KDTree L_KDStruct L_KDDivide L_KDTop.
From Coq Require Import Permutation.
Local Open Scope Z_scope.

(** C03.  For every depth: the cells 0..Ncell-1 form a perfect binary tree numbered in
    depth-first order, whose link fields describe that tree; every level, child pointer
    and leaf number is right.  Arrays may be larger than needed. *)
Theorem C03_CreateTreeStructure : forall (d : nat) ltot gmax Ncell cs g2c,
  ltot = Z.of_nat d -> Ncell = 2 * 2 ^ ltot - 1 ->
  Ncell <= zlen cs -> 2 ^ ltot <= gmax -> zlen g2c = gmax ->
  exists cs' g2c' t,
    CreateTreeStructure ltot gmax Ncell cs g2c = Ok (cs', g2c') /\
    perfect d t /\ root t = 0 /\ preorder t = zseq 0 (Z.to_nat Ncell) /\
    linked Ncell (co_of cs') (cn_of cs') t Ncell /\
    (forall c l, depth_of t c l -> exists k, aget cs' c = Ok k /\ level k = Some l) /\
    (forall c l r, child_of t c l r -> exists k, aget cs' c = Ok k /\ c1 k = l /\ c2 k = r) /\
    Z.of_nat (length (leaves t)) = 2 ^ ltot /\
    (forall j c, aget (leaves t) j = Ok c ->
        aget g2c' j = Ok c /\ exists k, aget cs' c = Ok k /\ c2g k = j).
Proof. exact CreateTreeStructure_tree. Qed.
Print Assumptions C03_CreateTreeStructure.

(** C03.  Any loop of the form used by the tree walks, over any linked cell array and
    with any opening rule that never opens a leaf, performs exactly the recursive
    depth-first traversal (each cell at most once, a cell exactly when all its ancestors
    were opened) within one iteration per cell. *)
Theorem C03_walk_is_traversal : forall (A : Type) (co cn : Z -> res Z) (Ncell : Z)
    (visit : Z -> A -> res (A * ctl)),
  (forall c s s', visit c s = Ok (s', Down) -> co c <> Ok (-1)) ->
  forall t next s x,
  (forall c, In c (preorder t) -> c < Ncell) ->
  linked Ncell co cn t next -> Ncell <= next ->
  twalk visit t s = Ok x ->
  walk co cn Ncell visit (length (preorder t)) (root t) s = Ok x.
Proof. exact (@walk_correct). Qed.
Print Assumptions C03_walk_is_traversal.

(** C04.  Building the tree over particles first..first+N-1 (all alive). *)
Theorem C04_BuildTree : forall pos dead Nl Nmax first N bmin bmax s g2c,
  1 <= Nl -> 0 < N -> 0 <= first -> first + N <= Nmax ->
  zlen (ids s) = Nmax -> zlen (inext s) = Nmax ->
  (forall lmax gmax Ncellmax l g n,
     ComputeTreeSize (S (Z.to_nat (Z.max Nmax N))) Nl Nmax N = Ok (lmax, gmax, Ncellmax, l, g, n) ->
     Ncellmax <= zlen (cells s) /\ zlen g2c = gmax) ->
  0 < zlen pos -> zlen bmin = zlen pos -> zlen bmax = zlen pos ->
  (forall p, first <= p < first + N ->
     aget dead p = Ok false /\ forall key, In key pos -> exists v, aget key p = Ok v) ->
  exists s' g2c' Ncell t ps,
    BuildTree pos dead Nl Nmax first N bmin bmax s g2c = Ok (s', g2c') /\
    preorder t = zseq 0 (Z.to_nat Ncell) /\ Ncell <= zlen (cells s') /\
    (exists d, perfect d t) /\
    linked Ncell (co_of (cells s')) (cn_of (cells s')) t Ncell /\
    Permutation ps (zseq first (Z.to_nat N)) /\
    kdcell (info_of (cells s')) (inext s') pos Nl t ps /\
    (forall i, 0 <= i -> ~ (first <= i < first + N) -> aget (inext s') i = aget (inext s) i).
Proof. exact BuildTree_correct. Qed.
Print Assumptions C04_BuildTree.

(** A build with five particles in two dimensions, at most two per leaf: hypotheses hold
    and the computed leaves are shown. *)
Definition blank := mkcell None 7 7 7 7 7 7 7 7 [] [].
Definition ex_pos := [[5;1;4;2;3]; [0;9;1;8;2]].
Definition ex_dead := [false;false;false;false;false].
Definition ex_s0 := mkst [0;0;0;0;0] [0;0;0;0;0] (repeat blank 7).
Example C04_example :
  match BuildTree ex_pos ex_dead 2 5 0 5 [0;0] [5;9] ex_s0 [0;0;0;0] with
  | Ok (s, g2c) => (g2c, inext s, map (fun k => (cN k, ifirst k, ilast k)) (cells s))
  | _ => ([], [], [])
  end = ([2;3;5;6], [4;2;0;1;3], [(5,2,1); (2,2,0); (1,2,2); (1,0,0); (3,4,1); (1,4,4); (2,3,1)]).
Proof. vm_compute. reflexivity. Qed.
Example C04_example_hyps :
  (forall lmax gmax Ncellmax l g n,
     ComputeTreeSize (S (Z.to_nat (Z.max 5 5))) 2 5 5 = Ok (lmax, gmax, Ncellmax, l, g, n) ->
     Ncellmax <= zlen (cells ex_s0) /\ zlen [0;0;0;0] = gmax) /\
  (forall p, 0 <= p < 0 + 5 ->
     aget ex_dead p = Ok false /\ forall key, In key ex_pos -> exists v, aget key p = Ok v).
Proof.
  split.
  - intros. vm_compute in H. inversion H; subst. vm_compute. split; congruence.
  - intros p Hp. assert (p = 0 \/ p = 1 \/ p = 2 \/ p = 3 \/ p = 4) as X by lia.
    repeat (destruct X as [X|X]; [subst p|]); [| | | |subst p]; (split; [reflexivity|]);
    intros key [<-|[<-|[]]]; eexists; reflexivity.
Qed.

(** The precondition "no dead particle" is needed: with a dead particle in the array the
    build stops in an assertion (KDTree.cpp:589). *)
Example C04_dead_particle_raises :
  BuildTree ex_pos [false;true;false;false;false] 2 5 0 5 [0;0] [5;9] ex_s0 [0;0;0;0] = Raise.
Proof. vm_compute. reflexivity. Qed.
