(** C55 and C56: load balancing between MPI processes. *)
From Verif Require Import Prelude L_Prelude Vec M_Util S_Box L_Box S_Tree L_Tree M_KDTree M_Search M_Stock S_Search L_KDStruct L_KDTop M_Box M_Store M_League S_League P_Util P_League L_ExTree
  M_Balance S_Balance L_Balance L_Balance2 L_Balance3 L_Balance4 L_Balance5.
From Coq Require Import Reals Lra Permutation.
Local Open Scope Z_scope.

(** * C55: the transfer of particles *)
(** Whatever domains each process has computed ([dom r q]: the domain of process [q] as process [r] sees it), and however
    the messages are delivered: every process succeeds in preparing its messages; the exchange cannot come to a stop
    before all messages are delivered; afterwards each process holds exactly those of its live particles that are in no
    other domain, and those particles of the others that they see in its domain. *)
Theorem C55_transfer : forall ndim kr th2 quad Nl Nmpi cal dom st ts Ncell t ps def, (1 <= ndim <= 3)%nat -> (0 <= kr)%R ->
  main_check Nmpi = Ok tt -> CreateLeagueCalendar Nmpi = Ok cal ->
  (forall r, 0 <= r < Nmpi -> ready ndim kr th2 quad Nl (st r) (ts r) (Ncell r) (t r) (ps r)) ->
  exists out all msg,
    (forall r, 0 <= r < Nmpi -> prepare ndim Nmpi r (dom r) (ts r) (Ncell r) (st r) = Ok (out r, all r) /\
       forall q, 0 <= q < Nmpi -> q <> r -> send_buffer (data (st r)) (out r q) = Ok (msg r q)) /\
    forall n s, steps msg n (start Nmpi cal) s ->
      (exists s', sure_step msg s s') \/
      forall r, 0 <= r < Nmpi -> exists s', finish_transfer def p_dead kill_slot set_dead (map snd (got s r)) (all r) (st r) = Ok s' /\
        zlen (data s') = Nhydromax s' /\ 0 <= Nhydro s' <= Nhydromax s' /\
        Permutation (firstn (Z.to_nat (Nhydro s')) (data s')) (after_exchange ndim Nmpi dom (fun r => live (st r)) r).
Proof.
  intros ndim kr th2 quad Nl Nmpi cal dom st ts Ncell t ps def Hn Hk HM HC RD.
  destruct (transfer_ok ndim kr th2 quad Nl Nmpi dom def st ts Ncell t ps Hn Hk RD) as (out & all & msg & A & B).
  exists out, all, msg. split; [exact A|]. intros n s H. destruct (C54_exchange Nmpi cal _ msg HM HC n s H) as [_ [F|F]]; [right; intros r Hr; exact (B s F r Hr)|now left].
Qed.
Print Assumptions C55_transfer.

(** If no process sees two other domains overlap, then no particle is lost and none is doubled. *)
Theorem C55_conserved : forall ndim Nmpi dom L,
  (forall r x, 0 <= r < Nmpi -> In x (L r) -> forall q q', 0 <= q < Nmpi -> 0 <= q' < Nmpi -> q <> r -> q' <> r ->
     inside ndim (dom r q) (p_r x) -> inside ndim (dom r q') (p_r x) -> q = q') ->
  Permutation (flat_map (after_exchange ndim Nmpi dom L) (zseq 0 (Z.to_nat Nmpi))) (flat_map L (zseq 0 (Z.to_nat Nmpi))).
Proof. exact conserved. Qed.
Print Assumptions C55_conserved.

(** If all processes see the same domains and these fill the box [B], then every particle in [B] is afterwards in the
    domain of its process. *)
Theorem C55_home_partial : forall ndim Nmpi doms B L r x, zlen doms = Nmpi -> tiles ndim doms B -> 0 <= r < Nmpi ->
  let dom := fun _ q => match aget doms q with Ok b => b | _ => B end in
  In x (after_exchange ndim Nmpi dom L r) -> inside ndim B (p_r x) -> inside ndim (dom r r) (p_r x).
Proof.
  intros ndim Nmpi doms B L r x HZ T Hr dom Hx Hin.
  assert (OW : forall q, 0 <= q < Nmpi -> owner ndim doms (p_r x) q <-> inside ndim (dom r q) (p_r x)).
  { intros q Hq. unfold owner, dom. destruct (aget_in doms q) as (b & Eb); [lia|]. rewrite Eb. split; [intros (b' & E & I); now injection E as <-|eauto]. }
  destruct (proj1 (T (p_r x)) Hin) as (g & G & U). assert (Rg : 0 <= g < Nmpi) by (destruct G as (b & E & _); apply aget_Ok_inv in E as [E _]; lia).
  unfold after_exchange in Hx. apply in_app_or in Hx as [Hx|Hx].
  - apply filter_In in Hx as [_ S]. unfold stays in S. rewrite forallb_forall in S. specialize (S g). rewrite zseq_in in S. specialize (S ltac:(lia)).
    destruct (Z.eqb_spec g r) as [Eg|N]; [rewrite Eg in G; now apply OW|]. cbn [orb] in S. apply negb_true_iff in S. apply OW in G; [|exact Rg]. apply insideb_true in G. unfold dom in *. congruence.
  - apply in_flat_map in Hx as (p & _ & Hx). destruct (p =? r); [easy|]. apply filter_In in Hx as [_ S]. now apply insideb_true in S.
Qed.
Print Assumptions C55_home_partial.

(** Missing there: the particles on the upper faces of the box of all particles.  Two processes hold particles at 0, 1, 2
    and 3; their domains fill the box from 0 to 3; the particle at 3 of process 0 stays with it, though the domain of
    process 0 ends at 3/2. *)
Definition ex_store : @store particle := mkstore 4 0 4 (ex_pd false).
Definition ex_doms : list box := [mkbox (fun _ => 0%R) (fun _ => 3/2)%R; mkbox (fun _ => 3/2)%R (fun _ => 3%R)].
Definition ex_dom (_ q : Z) : box := match aget ex_doms q with Ok b => b | _ => mkbox (fun _ => 0%R) (fun _ => 3%R) end.
Lemma ex_in : forall x, In x (ex_pd false) -> In x (live ex_store).
Proof. intros x H. exact H. Qed.
Lemma ex_ready2 : exists s, S_Balance.ready 1 2 1 true 2 ex_store s 3 (ptree 1 0) [0;1;2;3].
Proof.
  destruct ex_stocked as (s & _ & ST). exists s. constructor.
  - cbn. unfold zlen. cbn. lia.
  - exact ST.
  - reflexivity.
  - intros p Hp. unfold live, ex_store in Hp. cbn in Hp. destruct Hp as [<-|[<-|[<-|[<-|[]]]]]; cbn; lra.
Qed.
Lemma ex_tiles : tiles 1 ex_doms (mkbox (fun _ => 0%R) (fun _ => 3%R)).
Proof.
  set (c := mkmc 0 0 0 (3/2)%R (mkbox (fun _ => 0%R) (fun _ => 3%R))).
  intros x. assert (T : tiles 1 ([lbox c] ++ [rbox c]) (mbox c)). { apply tiles_two; [cbn; lia|cbn; lra|apply tiles_one|apply tiles_one]. }
  specialize (T x). cbn [mbox c app] in T.
  assert (E : forall g, owner 1 ex_doms x g <-> owner 1 [lbox c; rbox c] x g).
  { intros g. unfold owner, ex_doms. split; intros (b & A & I).
    - pose proof (aget_Ok_inv _ _ _ A) as [G _]. unfold zlen in G. cbn in G. assert (g = 0 \/ g = 1) as [->| ->] by lia; injection A as <-; eexists; (split; [reflexivity|]); intros k Hk; specialize (I k Hk); (assert (k = 0%nat) as -> by lia); cbn in *; unfold setv in *; cbn in *; lra.
    - pose proof (aget_Ok_inv _ _ _ A) as [G _]. unfold zlen in G. cbn in G. assert (g = 0 \/ g = 1) as [->| ->] by lia; injection A as <-; eexists; (split; [reflexivity|]); intros k Hk; specialize (I k Hk); (assert (k = 0%nat) as -> by lia); cbn in *; unfold setv in *; cbn in *; lra. }
  destruct T as [T1 T2]. split.
  - intros I. destruct (T1 I) as (g & G & U). exists g. split; [now apply E|]. intros g' G'. apply U. now apply E.
  - intros g G. apply (T2 g). now apply E.
Qed.
Lemma ex_boxes : forall k, bmin (global_box (mkbox (fun _ => 0%R) (fun _ => 0%R)) [particle_box (ex_pd false); particle_box (ex_pd false)]) k = 0%R /\
  bmax (global_box (mkbox (fun _ => 0%R) (fun _ => 0%R)) [particle_box (ex_pd false); particle_box (ex_pd false)]) k = 3%R.
Proof.
  intros k. unfold global_box, particle_box, ex_pd. cbn [fold_left merge_box grow_box bmin bmax ex_part p_r]. assert (big_number > 10)%R by (unfold big_number; lra). split; mm.
Qed.
Theorem C55_outermost_refuted : exists ts : tstate,
  (forall r, 0 <= r < 2 -> S_Balance.ready 1 2 1 true 2 ex_store ts 3 (ptree 1 0) [0;1;2;3]) /\
  tiles 1 ex_doms (mkbox (fun _ => 0%R) (fun _ => 3%R)) /\
  (forall k, bmin (global_box (mkbox (fun _ => 0%R) (fun _ => 0%R)) [particle_box (ex_pd false); particle_box (ex_pd false)]) k = 0%R /\
             bmax (global_box (mkbox (fun _ => 0%R) (fun _ => 0%R)) [particle_box (ex_pd false); particle_box (ex_pd false)]) k = 3%R) /\
  In (ex_part 3 false) (after_exchange 1 2 ex_dom (fun _ => live ex_store) 0) /\ ~ inside 1 (ex_dom 0 0) (p_r (ex_part 3 false)).
Proof.
  destruct ex_ready2 as (ts & R). exists ts. split; [intros r _; exact R|]. split; [exact ex_tiles|]. split; [exact ex_boxes|]. split.
  - unfold after_exchange. apply in_or_app. left. apply filter_In. split.
    + apply ex_in; unfold ex_pd; cbn [In]; auto 10.
    + unfold stays. apply forallb_forall. intros q Hq. apply zseq_in in Hq. assert (q = 0 \/ q = 1) as [->| ->] by (cbn in Hq; lia); [reflexivity|]. cbn [Z.eqb orb]. apply negb_true_iff.
      destruct (insideb 1 (ex_dom 0 1) (p_r (ex_part 3 false))) eqn:E; [|reflexivity]. apply insideb_true in E. specialize (E 0%nat ltac:(lia)). change (3/2 <= 3 < 3)%R in E. lra.
  - intros I. specialize (I 0%nat ltac:(lia)). change (0 <= 3 < 3/2)%R in I. lra.
Qed.
Print Assumptions C55_outermost_refuted.

(** The particle at 2 goes from process 0 to process 1 and the one at 1 from process 1 to process 0. *)
Example C55_example : In (ex_part 2 false) (after_exchange 1 2 ex_dom (fun _ => live ex_store) 1) /\ In (ex_part 1 false) (after_exchange 1 2 ex_dom (fun _ => live ex_store) 0) /\
  main_check 2 = Ok tt.
Proof.
  assert (I : forall p q x, (p <> q) -> 0 <= p < 2 -> insideb 1 (ex_dom p q) (p_r x) = true -> In x (live ex_store) -> In x (after_exchange 1 2 ex_dom (fun _ => live ex_store) q)).
  { intros p q x N Hp E Hx. unfold after_exchange. apply in_or_app. right. apply in_flat_map. exists p. split; [apply zseq_in; cbn; lia|]. destruct (Z.eqb_spec p q); [contradiction|]. apply filter_In. now split. }
  split; [|split; [|reflexivity]].
  - apply (I 0 1); [lia|lia| |apply ex_in; unfold ex_pd; cbn [In]; auto 10]. apply insideb_true. intros k Hk. change (3/2 <= 2 < 3)%R. lra.
  - apply (I 1 0); [lia|lia| |apply ex_in; unfold ex_pd; cbn [In]; auto 10]. apply insideb_true. intros k Hk. change (0 <= 1 < 3/2)%R. lra.
Qed.

(** * C56: the new domains *)
(** For every number of processes the program accepts, the tree of domains built by CreateTreeStructure, divided in any
    directions and at any old positions, and any box of particles with positive widths: if the search for the divisions
    ends, the domains fill the box without gaps and overlaps, one for each process, every division is strictly inside
    the box it divides, and has half of the work on each side up to one part in a thousand, or no work on either side. *)
Theorem C56_domains_partial : forall ndim Nmpi ltot Ncell cs0 cs1 g2c cs work partbox fuel,
  main_check Nmpi = Ok tt -> ComputeMpiTreeSize Nmpi = Ok (ltot, Ncell) -> zlen cs0 = Ncell -> (forall x, In x cs0 -> (mk x < ndim)%nat) ->
  CreateTreeStructure ltot Ncell cs0 = Ok (cs1, g2c) -> zlen cs = Ncell ->
  (forall i x, 0 <= i < Ncell -> aget cs1 i = Ok x -> exists y, aget cs i = Ok y /\ mlevel y = mlevel x /\ mc2 y = mc2 x /\ (mk y < ndim)%nat) ->
  (forall k, (k < ndim)%nat -> (bmin partbox k < bmax partbox k)%R) ->
  NewDomains work fuel Nmpi ltot Ncell partbox cs g2c = NoFuel \/
  exists cs' doms, NewDomains work fuel Nmpi ltot Ncell partbox cs g2c = Ok (cs', doms) /\ zlen doms = Nmpi /\ tiles ndim doms partbox /\
    forall i x, 0 <= i < Ncell -> aget cs' i = Ok x -> mlevel x < ltot ->
      (bmin (mbox x) (mk x) < mr x < bmax (mbox x) (mk x))%R /\ even work (mbox x) (mk x) (mr x).
Proof.
  intros ndim Nmpi ltot Ncell cs0 cs1 g2c cs work partbox fuel HM HS Z0 K0 HC Z1 SH PB.
  assert (exists D, Nmpi = p2 D) as (D & ED).
  { unfold main_check in HM. destruct (C39_isPowerOfTwo Nmpi) as (b & Eb & B). rewrite Eb in HM. cbn [bind] in HM. destruct b; [|discriminate].
    destruct (proj1 B eq_refl) as (k & Hk & Ek). exists (Z.to_nat k). rewrite p2_pow, Z2Nat.id by lia. exact Ek. }
  subst Nmpi. rewrite tree_size in HS. assert (ltot = Z.of_nat D /\ Ncell = 2 * p2 D - 1) as [-> ->] by (split; congruence).
  destruct (structure_top ndim (Z.of_nat D) D cs0) as (cs1' & E & Z2 & L); [lia| |reflexivity|].
  { intros i x X. apply K0. apply aget_Ok_inv in X as [_ X]. now apply nth_error_In in X. }
  rewrite E in HC. injection HC as <- <-.
  destruct (domains_ok ndim work (Z.of_nat D) fuel D cs partbox (2 * p2 D - 1) (p2 D)) as [N|(cs' & doms & EN & ZD & T & _ & C & _)]; try reflexivity; try lia; auto.
  { apply (layout_shape ndim (Z.of_nat D) D 0 (aget cs1')); [|exact L]. intros i x Hi. apply SH. lia. }
  right. exists cs', doms. split; [exact EN|]. split; [exact ZD|]. split; [exact T|]. intros i x Hi X Lv. exact (C i x Hi X Lv).
Qed.
Print Assumptions C56_domains_partial.

(** The search ends when the work in every box is spread out. *)
Theorem C56_ends_partial : forall work Nmpi ltot Ncell partbox cs g2c, (forall b k, (bmin b k < bmax b k)%R -> spread work b k) ->
  exists N, forall fuel, (N <= fuel)%nat -> NewDomains work fuel Nmpi ltot Ncell partbox cs g2c <> NoFuel.
Proof. intros work Nmpi ltot Ncell partbox cs g2c SP. exact (domains_end work SP Nmpi ltot Ncell partbox cs g2c). Qed.
Print Assumptions C56_ends_partial.
Example C56_spread_example : forall b k, (bmin b k < bmax b k)%R -> spread flat_work b k.
Proof. exact flat_spread. Qed.

(** Missing there: work found by FractionalBoxOverlap when a face of the box falls on a face of a cell.  With one cell
    from 0 to 1/2 and a box from 0 to 1 the search never ends. *)
Theorem C56_ends_refuted : exists tree b r, (bmin b 0%nat < r < bmax b 0%nat)%R /\ (forall lo hi, ComputeWorkInBox 1 tree lo hi <> Raise) /\
  forall fuel, FindLoadBalancingDivision (tree_work 1 tree) fuel 0 r b = NoFuel.
Proof.
  exists one_cell, unit_box, (1/2)%R. split; [cbn; lra|]. split; [|intros fuel; apply hang; lra].
  intros lo hi. unfold ComputeWorkInBox, one_cell. cbn [work_walk length]. change (zlen _) with 1. cbn [Z.ltb Z.compare]. change (aget _ 0) with (Ok (mkw (mkbox (fun _ => 0%R) (fun _ => 1/2)%R) 1%R (-1) 1)).
  cbn [bind w_hbox w_work w_copen w_cnext bmin bmax]. set (fo := FractionalBoxOverlap _ _ _ _ _).
  destruct (rltb fo (1 / 10 ^ 20)) eqn:E1; cbn [orb]; [discriminate|]. destruct (rltb 1 fo) eqn:E2; [discriminate|]. cbn [negb Z.eqb Pos.eqb].
  apply rltb_false in E1. apply rltb_false in E2. rewrite (proj2 (rleb_true _ _) E1), (proj2 (rleb_true _ _) E2). discriminate.
Qed.
Print Assumptions C56_ends_refuted.

(** The divisions depend on how far a tree is pruned, and every process has its own pruned trees: one that sees three
    cells divides at 1, one that sees only the root of the same tree divides at 2. *)
Theorem C56_same_divisions_refuted : exists b r, (bmin b 0%nat < r < bmax b 0%nat)%R /\
  (forall root leaf1 leaf2 rest, full_tree = root :: leaf1 :: leaf2 :: rest -> rest = [] /\ w_work root = (w_work leaf1 + w_work leaf2)%R /\
     cut_tree = [mkw (w_hbox root) (w_work root) (-1) 1]) /\
  FindLoadBalancingDivision (tree_work 1 full_tree) 2 0 r b = Ok 1%R /\ FindLoadBalancingDivision (tree_work 1 cut_tree) 1 0 r b = Ok 2%R.
Proof.
  exists box5, 2%R. split; [cbn; lra|]. split; [|split; [exact div_full|exact div_cut]].
  intros root leaf1 leaf2 rest E. injection E as <- <- <- <-. split; [reflexivity|]. split; [cbn; lra|reflexivity].
Qed.
Print Assumptions C56_same_divisions_refuted.

(** Four processes in two dimensions. *)
Example C56_example : exists cs1, ComputeMpiTreeSize 4 = Ok (2, 7) /\ CreateTreeStructure 2 7 (repeat (mkmc 0 0 1 0%R unit_box) 7) = Ok (cs1, [2;3;5;6]) /\ map mlevel cs1 = [0;1;2;2;1;2;2].
Proof. eexists. split; [reflexivity|]. split; reflexivity. Qed.
Example C56_example2 : exists fuel cs1 cs' doms, CreateTreeStructure 2 7 (repeat (mkmc 0 0 1 0%R unit_box) 7) = Ok (cs1, [2;3;5;6]) /\
  NewDomains flat_work fuel 4 2 7 unit_box cs1 [2;3;5;6] = Ok (cs', doms) /\ zlen doms = 4 /\ tiles 2 doms unit_box.
Proof.
  destruct C56_example as (cs1 & E1 & E2 & _). destruct (C56_ends_partial flat_work 4 2 7 unit_box cs1 [2;3;5;6] flat_spread) as (N & HN). specialize (HN N (le_n N)).
  assert (HC : cs1 = match CreateTreeStructure 2 7 (repeat (mkmc 0 0 1 0%R unit_box) 7) with Ok (c, _) => c | _ => [] end) by (rewrite E2; reflexivity).
  destruct (C56_domains_partial 2 4 2 7 (repeat (mkmc 0 0 1 0%R unit_box) 7) cs1 [2;3;5;6] cs1 flat_work unit_box N eq_refl E1 ltac:(reflexivity)) with (2 := E2) as [A|(cs' & doms & A & B & C & _)].
  - intros x Hx. apply repeat_spec in Hx. subst x. cbn. lia.
  - rewrite HC. reflexivity.
  - intros i x Hi X. exists x. split; [exact X|]. split; [reflexivity|]. split; [reflexivity|]. apply aget_Ok_inv in X as [_ X]. apply nth_error_In in X. assert (M : map mk cs1 = repeat 1%nat 7) by (rewrite HC; reflexivity). apply (in_map mk) in X. rewrite M in X. apply repeat_spec in X. lia.
  - intros k _. cbn. lra.
  - contradiction.
  - exists N, cs1, cs', doms. split; [exact E2|]. split; [exact A|]. split; [exact B|exact C].
Qed.
