(** The transfer of particles by all processes together. *)
From Verif Require Import Prelude L_Prelude Vec S_Box L_Box S_Tree L_Tree M_KDTree M_Search M_Stock S_Search M_Store L_Store L_KDTop M_League S_League M_Balance S_Balance L_Balance.
From Coq Require Import Reals Permutation.
Local Open Scope Z_scope.

Lemma flat_map_perm_ext : forall A B (f g : A -> list B) l, (forall x, In x l -> Permutation (f x) (g x)) -> Permutation (flat_map f l) (flat_map g l).
Proof. intros A B f g. induction l as [|x l IH]; intros H; [constructor|]. cbn. apply Permutation_app; [apply H; now left|apply IH; intros; apply H; now right]. Qed.
Lemma flat_map_app2 : forall A B (f g : A -> list B) l, Permutation (flat_map (fun x => f x ++ g x) l) (flat_map f l ++ flat_map g l).
Proof.
  intros A B f g. induction l as [|x l IH]; [constructor|]. cbn. rewrite IH. rewrite <- !app_assoc. apply Permutation_app_head.
  rewrite !app_assoc. apply Permutation_app_tail. apply Permutation_app_comm.
Qed.
Lemma flat_map_nil : forall A B (l : list A), flat_map (fun _ => @nil B) l = [].
Proof. intros A B. induction l; auto. Qed.
Lemma flat_map_swap : forall A B C (f : A -> B -> list C) la lb,
  Permutation (flat_map (fun a => flat_map (f a) lb) la) (flat_map (fun b => flat_map (fun a => f a b) la) lb).
Proof.
  intros A B C f. induction la as [|a la IH]; intros lb; cbn; [now rewrite flat_map_nil|].
  rewrite (flat_map_app2 _ _ (f a) (fun b => flat_map (fun a => f a b) la)). now apply Permutation_app_head.
Qed.
Lemma partition_ok : forall X (f : Z -> X -> bool) (L : list X) l, NoDup l ->
  (forall x q q', In x L -> In q l -> In q' l -> f q x = true -> f q' x = true -> q = q') ->
  Permutation (filter (fun x => negb (existsb (fun q => f q x) l)) L ++ flat_map (fun q => filter (f q) L) l) L.
Proof.
  intros X f L. induction l as [|a l IH]; intros ND U.
  - cbn. rewrite app_nil_r. rewrite filter_all by reflexivity. reflexivity.
  - inversion ND as [|? ? Na ND']; subst. cbn [flat_map].
    rewrite <- IH at 3; [|exact ND'|intros; eapply U; eauto; now right]. rewrite app_assoc. apply Permutation_app_tail.
    assert (U' : forall x, In x L -> f a x = true -> existsb (fun q => f q x) l = false).
    { intros x Hx Fx. destruct (existsb (fun q => f q x) l) eqn:E; [|reflexivity]. apply existsb_exists in E as (q & Q1 & Q2).
      assert (a = q) as -> by (eapply U; eauto; [now left|now right]). contradiction. }
    clear - U'. induction L as [|x L IH]; [constructor|]. specialize (IH (fun y Hy => U' y (or_intror Hy))). specialize (U' x (or_introl eq_refl)). cbn [filter existsb].
    destruct (f a x) eqn:E.
    + rewrite (U' eq_refl). cbn [orb negb]. rewrite <- IH. symmetry. apply Permutation_middle.
    + cbn [orb]. destruct (existsb (fun q => f q x) l); cbn [negb]; [exact IH|]. cbn [app]. now constructor.
Qed.

(** ** No particle is lost or doubled *)
Lemma stays_eq : forall ndim Nmpi dom r p,
  stays ndim Nmpi dom r p = negb (existsb (fun q => negb (q =? r) && insideb ndim (dom q) (p_r p)) (zseq 0 (Z.to_nat Nmpi))).
Proof.
  intros ndim Nmpi dom r p. unfold stays. induction (zseq 0 (Z.to_nat Nmpi)) as [|q l IH]; [reflexivity|]. cbn [forallb existsb]. rewrite IH, negb_orb, negb_andb, negb_involutive. reflexivity.
Qed.
Lemma conserved : forall ndim Nmpi dom L,
  (forall r x, 0 <= r < Nmpi -> In x (L r) -> forall q q', 0 <= q < Nmpi -> 0 <= q' < Nmpi -> q <> r -> q' <> r ->
     inside ndim (dom r q) (p_r x) -> inside ndim (dom r q') (p_r x) -> q = q') ->
  Permutation (flat_map (after_exchange ndim Nmpi dom L) (zseq 0 (Z.to_nat Nmpi))) (flat_map L (zseq 0 (Z.to_nat Nmpi))).
Proof.
  intros ndim Nmpi dom L U. unfold after_exchange.
  rewrite (flat_map_app2 _ _ (fun r => filter (stays ndim Nmpi (dom r) r) (L r)) (fun r => flat_map (fun p => if p =? r then [] else filter (leaves_for ndim (dom p) r) (L p)) (zseq 0 (Z.to_nat Nmpi)))).
  rewrite (flat_map_swap _ _ _ (fun r p => if p =? r then [] else filter (leaves_for ndim (dom p) r) (L p))).
  rewrite <- flat_map_app2. apply flat_map_perm_ext. intros r Hr. apply zseq_in in Hr.
  etransitivity; [|apply (partition_ok _ (fun q x => negb (q =? r) && insideb ndim (dom r q) (p_r x)) (L r) (zseq 0 (Z.to_nat Nmpi)))].
  - apply Permutation_app.
    + erewrite filter_ext; [reflexivity|]. intros x. apply stays_eq.
    + apply flat_map_perm_ext. intros q _. rewrite (Z.eqb_sym r q). destruct (q =? r) eqn:E; cbn [negb].
      * cbn [andb]. induction (L r); [constructor|assumption].
      * reflexivity.
  - apply zseq_nodup.
  - intros x q q' Hx Hq Hq' A B. apply zseq_in in Hq. apply zseq_in in Hq'. apply andb_true_iff in A as [A1 A2]. apply andb_true_iff in B as [B1 B2].
    apply insideb_true in A2. apply insideb_true in B2. apply (U r x); auto; try lia; intros ->; rewrite Z.eqb_refl in *; discriminate.
Qed.

(** ** All processes *)
Lemma got_perm : forall M (msg : Z -> Z -> M) n s q, finished msg n s -> 0 <= q < n ->
  Permutation (got s q) (map (fun p => (p, msg p q)) (others n q)).
Proof.
  intros M msg n s q (_ & _ & F) Hq. destruct (F q Hq) as [ND I]. apply NoDup_Permutation.
  - now apply NoDup_map_inv in ND.
  - apply NoDup_map_inv with (f := fst). rewrite map_map. cbn. rewrite map_id. unfold others. apply NoDup_filter, zseq_nodup.
  - intros [p m]. rewrite I, in_map_iff. split.
    + intros (A & B & ->). exists p. split; [reflexivity|]. unfold others. apply filter_In. split; [apply zseq_in; lia|]. destruct (Z.eqb_spec p q); [contradiction|reflexivity].
    + intros (p' & E & H). injection E as -> <-. unfold others in H. apply filter_In in H as [A B]. apply zseq_in in A. split; [lia|]. split; [|reflexivity]. intros ->. now rewrite Z.eqb_refl in B.
Qed.

Section All.
Variables (ndim : nat) (kr th2 : R) (quad : bool) (Nl : Z) (Nmpi : Z) (dom : Z -> Z -> box) (def : particle).
Variables (st : Z -> @store particle) (ts : Z -> tstate) (Ncell : Z -> Z) (t : Z -> rtree) (ps : Z -> list Z).
Hypothesis Hnd : (1 <= ndim <= 3)%nat.
Hypothesis Hkr : (0 <= kr)%R.
Hypothesis RD : forall r, 0 <= r < Nmpi -> ready ndim kr th2 quad Nl (st r) (ts r) (Ncell r) (t r) (ps r).

Theorem transfer_ok : exists out all msg,
  (forall r, 0 <= r < Nmpi -> prepare ndim Nmpi r (dom r) (ts r) (Ncell r) (st r) = Ok (out r, all r) /\
     forall q, 0 <= q < Nmpi -> q <> r -> send_buffer (data (st r)) (out r q) = Ok (msg r q)) /\
  forall s, finished msg Nmpi s -> forall r, 0 <= r < Nmpi ->
    exists s', finish_transfer def p_dead kill_slot set_dead (map snd (got s r)) (all r) (st r) = Ok s' /\
      zlen (data s') = Nhydromax s' /\ 0 <= Nhydro s' <= Nhydromax s' /\
      Permutation (firstn (Z.to_nat (Nhydro s')) (data s')) (after_exchange ndim Nmpi dom (fun r => live (st r)) r).
Proof.
  set (gs := fun r q => goes ndim (dom r) (st r) (ps r) def q).
  exists (fun r q => match prepare ndim Nmpi r (dom r) (ts r) (Ncell r) (st r) with Ok (o, _) => o q | _ => [] end),
         (fun r => flat_map (gs r) (others Nmpi r)), (fun r q => map (dat def (data (st r))) (gs r q)).
  split.
  - intros r Hr. destruct (prepare_ok ndim kr th2 quad Nl Nmpi r (dom r) (st r) (ts r) (Ncell r) (t r) (ps r) def Hnd Hkr (RD r Hr)) as (out & E & O).
    rewrite E. split; [reflexivity|]. intros q Hq Ne. rewrite O by assumption. apply (send_ok ndim kr th2 quad Nl (dom r) (st r) (ts r) (Ncell r) (t r) (ps r) def Hnd (RD r Hr)).
  - intros s F r Hr. pose proof (got_perm _ _ _ _ r F Hr) as G.
    assert (C : Permutation (concat (map snd (got s r))) (flat_map (fun p => map (dat def (data (st p))) (gs p r)) (others Nmpi r))).
    { rewrite <- flat_map_concat_map. rewrite (Permutation_flat_map snd G). rewrite !flat_map_concat_map, map_map. reflexivity. }
    destruct (finish_ok ndim kr th2 quad Nl Nmpi r (dom r) (st r) (ts r) (Ncell r) (t r) (ps r) def Hnd (RD r Hr) (map snd (got s r))) as (s' & E & [S1 S2] & N & Pm).
    { intros x Hx. apply (Permutation_in _ C) in Hx. apply in_flat_map in Hx as (p & Hp & Hx). apply in_map_iff in Hx as (i & <- & Hi). unfold gs, goes in Hi. apply filter_In in Hi as [Hi _].
      unfold others in Hp. apply filter_In in Hp as [Hp _]. apply zseq_in in Hp.
      apply (ps_in ndim kr th2 quad Nl (dom p) (st p) (ts p) (Ncell p) (t p) (ps p) def Hnd (RD p ltac:(lia)) i Hi). }
    exists s'. split; [exact E|]. split; [exact S1|]. split; [exact S2|]. rewrite Pm. unfold after_exchange. apply Permutation_app_head. rewrite C.
    rewrite (flat_map_filter_nil _ _ (fun p => if p =? r then [] else filter (leaves_for ndim (dom p) r) (live (st p))) (fun q => negb (q =? r))).
    + fold (others Nmpi r). apply flat_map_perm_ext. intros p Hp. unfold others in Hp. apply filter_In in Hp as [Hp Np]. apply zseq_in in Hp. apply negb_true_iff in Np. rewrite Np.
      apply (sent_live ndim kr th2 quad Nl (dom p) (st p) (ts p) (Ncell p) (t p) (ps p) def Hnd (RD p ltac:(lia))).
    + intros x _ Hx. apply negb_false_iff in Hx. now rewrite Hx.
Qed.
End All.
