From Verif Require Import Prelude L_Prelude Vec S_Tree S_KD M_Walk L_Tree M_KDTree L_KDStruct L_KDBuild L_KDDivide L_KDTop
  M_Stock S_Stock L_Stock L_StockTree S_Search L_Search.
From Coq Require Import Reals Permutation.
Local Open Scope Z_scope.

Section Top.
Variables (ndim : nat) (kr th2 : R) (quad : bool) (Nl : Z).

Definition ready (d : nat) (nx Ncell : Z) (s : tstate) (ps : list Z) : Prop :=
  kstruct (cells (ts_k s)) (Z.of_nat d) d 0 nx /\ Ncell = 2 * p2 d - 1 /\ Ncell <= nx /\
  leaf_chains (cells (ts_k s)) (inext (ts_k s)) Nl d 0 ps /\ NoDup ps /\
  (forall p, In p ps -> 0 <= p < zlen (inext (ts_k s))) /\ Ncell <= zlen (ts_g s).

Lemma stock_one : forall d nx Ncell s ps pd, ready d nx Ncell s ps ->
  (forall p, In p ps -> exists x, aget pd p = Ok x /\ (0 <= gmass x)%R) ->
  exists s', StockTree (S (Z.to_nat (Z.of_nat d))) ndim kr th2 quad pd (Z.of_nat d) 0 s = Ok s' /\
    ready d nx Ncell s' (live (map p_dead pd) ps) /\
    stocked ndim kr th2 quad pd Nl s' Ncell (ptree d 0) (live (map p_dead pd) ps) /\
    zlen (inext (ts_k s')) = zlen (inext (ts_k s)).
Proof.
  intros d nx Ncell s ps pd (HK & HN & HX & HL & ND & HR & HG) Hpd.
  destruct (StockTree_spec ndim kr th2 quad pd (Z.of_nat d) Nl d 0 nx s (S (Z.to_nat (Z.of_nat d))) ps)
    as (s' & E & (F1 & F2 & F3 & F4 & F5 & F6 & F7) & K' & L' & C); auto; try lia.
  { rewrite Forall_forall. intros p Hp. split; [auto|]. now apply Hpd. }
  assert (ND' : NoDup (live (map p_dead pd) ps)) by now apply NoDup_filter.
  assert (HR' : forall p, In p (live (map p_dead pd) ps) -> 0 <= p < zlen (inext (ts_k s'))).
  { intros p Hp. apply live_incl in Hp. rewrite F2. auto. }
  exists s'. split; [exact E|]. split; [|split; [|exact F2]].
  - unfold ready. do 6 (split; [assumption|]). lia.
  - pose proof (p2_pos d). constructor; auto.
    + destruct d; reflexivity.
    + rewrite ptree_preorder. f_equal. pose proof (tsize_p2 d). lia.
    + change (linked Ncell (co_of (cells (ts_k s'))) (cn_of (cells (ts_k s'))) (ptree d 0) Ncell).
      apply kstruct_linked with (ltot := Z.of_nat d) (nx := nx); auto; [right; lia|left; lia].
    + refine (proj1 (ctree_impl _ _ _ _ _ _) _ _ C).
      * intros c qs (k & g & xs & A1 & A2 & A3 & A4 & A5). exists k, g, xs. repeat (split; [assumption|]).
        now apply full_describes.
      * intros c qs (k & A). exists k. exact A.
Qed.

Fixpoint survivors (pds : list (list particle)) (ps : list Z) : list Z :=
  match pds with [] => ps | pd :: t => survivors t (live (map p_dead pd) ps) end.
Lemma survivors_incl : forall pds ps p, In p (survivors pds ps) -> In p ps.
Proof. induction pds; intros ps p H; cbn in H; auto. apply IHpds in H. eapply live_incl; eauto. Qed.
Lemma survivors_perm : forall pds ps qs, Permutation ps qs -> Permutation (survivors pds ps) (survivors pds qs).
Proof.
  induction pds; intros ps qs H; cbn; auto. apply IHpds. unfold live. clear - H.
  induction H; cbn; auto.
  - destruct (negb (is_dead (map p_dead a) x)); auto.
  - destruct (negb (is_dead (map p_dead a) x)), (negb (is_dead (map p_dead a) y)); auto. constructor.
  - etransitivity; eauto.
Qed.

Lemma stock_run_spec : forall pds pd d nx Ncell s ps, ready d nx Ncell s ps ->
  (forall q p, In q (pds ++ [pd]) -> In p ps -> exists x, aget q p = Ok x /\ (0 <= gmass x)%R) ->
  exists s', stock_run ndim kr th2 quad (Z.of_nat d) (pds ++ [pd]) s = Ok s' /\
    stocked ndim kr th2 quad pd Nl s' Ncell (ptree d 0) (survivors (pds ++ [pd]) ps).
Proof.
  induction pds as [|q pds IH]; intros pd d nx Ncell s ps HR Hq.
  - cbn [app stock_run survivors]. destruct (stock_one d nx Ncell s ps pd HR) as (s' & E & _ & S & _).
    { intros p Hp. apply Hq; auto. now left. }
    rewrite E. cbn [bind]. eauto.
  - cbn [app stock_run survivors]. destruct (stock_one d nx Ncell s ps q HR) as (s' & E & R' & _).
    { intros p Hp. apply Hq; auto. now left. }
    rewrite E. cbn [bind]. apply IH with (nx := nx); [exact R'|]. intros q' p A B. apply Hq; [now right|].
    eapply live_incl; eauto.
Qed.
End Top.

Theorem build_and_stock : forall ndim kr th2 quad pos dead Nl Nmax first N bmin bmax s g2c gs pds pd,
  1 <= Nl -> 0 < N -> 0 <= first -> first + N <= Nmax ->
  zlen (ids s) = Nmax -> zlen (inext s) = Nmax ->
  (forall lmax gmax Ncellmax l g n,
     ComputeTreeSize (S (Z.to_nat (Z.max Nmax N))) Nl Nmax N = Ok (lmax, gmax, Ncellmax, l, g, n) ->
     Ncellmax <= zlen (cells s) /\ zlen g2c = gmax) ->
  zlen gs = zlen (cells s) ->
  0 < zlen pos -> zlen bmin = zlen pos -> zlen bmax = zlen pos ->
  (forall p, first <= p < first + N ->
     aget dead p = Ok false /\ forall key, In key pos -> exists v, aget key p = Ok v) ->
  (forall q p, In q (pds ++ [pd]) -> first <= p < first + N -> exists x, aget q p = Ok x /\ (0 <= gmass x)%R) ->
  exists s1 g2c' lm gm nm ltot g Ncell s2 t ps,
    BuildTree pos dead Nl Nmax first N bmin bmax s g2c = Ok (s1, g2c') /\
    ComputeTreeSize (S (Z.to_nat (Z.max Nmax N))) Nl Nmax N = Ok (lm, gm, nm, ltot, g, Ncell) /\
    stock_run ndim kr th2 quad ltot (pds ++ [pd]) (mkts s1 gs) = Ok s2 /\
    stocked ndim kr th2 quad pd Nl s2 Ncell t ps /\
    Permutation ps (filter (fun p => forallb (fun q => match aget q p with Ok x => negb (p_dead x) | _ => false end) (pds ++ [pd]))
                           (zseq first (Z.to_nat N))).
Proof.
  intros ndim kr th2 quad pos dead Nl Nmax first N bmin bmax s g2c gs pds pd H1 H2 H3 H4 H5 H6 H7 Hgs H8 H9 H10 H11 Hpd.
  destruct (BuildTree_full pos dead Nl Nmax first N bmin bmax s g2c) as
    (s1 & g2c' & Ncell & t & ps & (d & nx & lm & gm & nm & g & CT & Ht & HK & HN & HX & _) & HC & HI & E & P1 & P2 & P3 & P4 & P5 & P6 & P7); auto.
  subst t.
  assert (Hin : forall p, In p ps -> first <= p < first + N).
  { intros p Hp. apply (Permutation_in _ P5) in Hp. apply zseq_in in Hp. lia. }
  destruct (stock_run_spec ndim kr th2 quad Nl pds pd d nx Ncell (mkts s1 gs) ps) as (s2 & E2 & S2).
  { repeat split; cbn [ts_k ts_g]; auto.
    - now apply kdcell_leaf_chains with (pos := pos).
    - eapply Permutation_NoDup; [apply Permutation_sym, P5|apply zseq_nodup].
    - intros. apply Hin in H. lia.
    - apply Hin in H. lia.
    - lia. }
  { intros q p A B. apply Hpd; auto. }
  do 11 eexists. split; [exact E|]. split; [exact CT|]. split; [exact E2|]. split; [exact S2|].
  etransitivity; [apply survivors_perm, P5|].
  assert (Hz : forall p, In p (zseq first (Z.to_nat N)) -> first <= p < first + N) by (intros p Hp; apply zseq_in in Hp; lia).
  clear - Hpd Hz. revert Hz. generalize (zseq first (Z.to_nat N)) as l. generalize dependent (pds ++ [pd]).
  induction l as [|q qs IH]; intros Hpd l Hz; cbn [survivors forallb].
  - clear. induction l; cbn; auto.
  - etransitivity; [apply IH|].
    + intros q' p A B. apply Hpd; auto. now right.
    + intros p Hp. apply Hz. eapply live_incl; eauto.
    + clear IH. induction l as [|p l IHl]; cbn [live filter]; [constructor|].
      assert (Hp : first <= p < first + N) by (apply Hz; now left).
      destruct (Hpd q p (or_introl eq_refl) Hp) as (x & Hx & _).
      unfold is_dead at 1. rewrite (dead_get q p x Hx). rewrite Hx.
      specialize (IHl (fun p H => Hz p (or_intror H))).
      destruct (p_dead x); cbn [negb andb]; auto. cbn [filter].
      destruct (forallb _ qs); [now apply perm_skip|exact IHl].
Qed.
