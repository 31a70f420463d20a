(** The transfer of particles between processes. *)
From Verif Require Import Prelude L_Prelude Vec S_Box L_Box S_Tree L_Tree M_Walk M_KDTree M_Search L_Search M_Stock S_Search M_Box M_Gather L_Gather M_Store L_Store L_KDTop M_League S_League M_Balance S_Balance.
From Coq Require Import Reals Permutation.
Local Open Scope Z_scope.

Lemma insideb_true : forall n b x, insideb n b x = true <-> inside n b x.
Proof.
  intros n b x. unfold insideb, inside, in_hbox. rewrite forallb_forall. split.
  - intros H k Hk. specialize (H k). rewrite in_seq in H. specialize (H ltac:(lia)). apply andb_true_iff in H as [A B].
    destruct (Rle_dec (bmin b k) (x k)); [|discriminate]. destruct (Rlt_dec (x k) (bmax b k)); [|discriminate]. now split.
  - intros H k Hk. apply in_seq in Hk. destruct (H k ltac:(lia)). destruct (Rle_dec (bmin b k) (x k)); [|contradiction]. destruct (Rlt_dec (x k) (bmax b k)); [reflexivity|contradiction].
Qed.
Lemma pib_insideb : forall n b x, ParticleInBox n x (bmin b) (bmax b) = insideb n b x.
Proof.
  intros n b x. apply eq_true_iff_eq. rewrite insideb_true. apply ParticleInBox_correct.
Qed.

(** ** The walk *)
Section BoxWalk.
Variables (fuel : nat) (v : tview) (Nl : Z) (opn : Z -> res bool) (keep : Z -> res bool) (want : Z -> bool).
Definition bopn_ok (c : Z) (ps : list Z) : Prop :=
  (exists b, opn c = Ok b /\ (b = false -> forall p, In p ps -> want p = false)) /\ (forall p, In p ps -> keep p = Ok (want p)).
Lemma filter_ids_ok : forall l, (forall p, In p l -> keep p = Ok (want p)) -> filter_ids keep l = Ok (filter want l).
Proof.
  induction l as [|p l IH]; intros H; [reflexivity|]. cbn [filter_ids filter]. rewrite (H p (or_introl eq_refl)). cbn [bind]. rewrite IH by (intros; apply H; now right). cbn [bind]. reflexivity.
Qed.
Lemma filter_false : forall l, (forall p, In p l -> want p = false) -> filter want l = [].
Proof. induction l as [|p l IH]; intros H; [reflexivity|]. cbn. rewrite (H p (or_introl eq_refl)). apply IH. intros; apply H; now right. Qed.

Lemma box_twalks : forall Nc cn,
  (forall t ps, ctree (fun c ps => count_ok v c ps /\ bopn_ok c ps) (leaf_ok fuel v Nl) t ps ->
     forall nx, linked Nc (vopen v) cn t nx -> (forall c, In c (preorder t) -> 0 <= c) ->
     forall s, twalk (box_visit fuel v opn keep) t s = Ok (s ++ filter want ps, false)) /\
  (forall ks pss, ctrees (fun c ps => count_ok v c ps /\ bopn_ok c ps) (leaf_ok fuel v Nl) ks pss ->
     forall nx, linked_list Nc (vopen v) cn ks nx -> (forall c, In c (flat_map preorder ks) -> 0 <= c) ->
     forall s, twalks (box_visit fuel v opn keep) ks s = Ok (s ++ filter want (concat pss), false)).
Proof.
  intros Nc cn. apply ctree_mutind.
  - intros c ps (HC & (b & Hb & Hbf) & HK) (HLL & HN & _) nx LK NN s.
    rewrite linked_unfold in LK. destruct LK as (_ & LO & _). cbn in LO.
    rewrite twalk_unfold. unfold box_visit. rewrite Hb. cbn [bind].
    destruct b.
    + rewrite LO, HC. cbn [bind]. replace (Z.eqb (-1) (-1)) with true by reflexivity. cbn [negb].
      destruct (Z.eqb_spec (zlen ps) 0) as [E0|E0]; cbn [bind].
      * assert (ps = []) as -> by (destruct ps; [easy|unfold zlen in E0; simpl in E0; lia]). cbn. now rewrite app_nil_r.
      * rewrite HLL. cbn [bind]. rewrite filter_ids_ok by exact HK. reflexivity.
    + cbn [bind]. rewrite filter_false by auto. now rewrite app_nil_r.
  - intros c ks pss Hne Hks IHks (HC & (b & Hb & Hbf) & HK) nx LK NN s.
    rewrite linked_unfold in LK. destruct LK as (_ & LO & LL).
    rewrite twalk_unfold. unfold box_visit at 1. rewrite Hb. cbn [bind].
    destruct ks as [|k ks]; [easy|].
    assert (0 <= root k) by (apply NN; right; destruct k; simpl; now left).
    destruct b.
    + rewrite LO. cbn [bind]. destruct (Z.eqb_spec (root k) (-1)); [lia|]. cbn [negb bind].
      exact (IHks nx LL (fun c Hc => NN c (or_intror Hc)) s).
    + cbn [bind]. rewrite filter_false by auto. now rewrite app_nil_r.
  - intros. cbn. now rewrite app_nil_r.
  - intros k ks ps pss Hk IHk Hks IHks nx [LA LB] NN s. cbn [twalks concat].
    rewrite (IHk _ LA (fun c Hc => NN c (in_or_app _ _ _ (or_introl Hc))) s). cbn [bind].
    rewrite (IHks _ LB (fun c Hc => NN c (in_or_app _ _ _ (or_intror Hc)))). rewrite filter_app, app_assoc. reflexivity.
Qed.
Lemma box_walk : forall Ncell t ps next s,
  ctree (fun c ps => count_ok v c ps /\ bopn_ok c ps) (leaf_ok fuel v Nl) t ps ->
  linked Ncell (vopen v) (vnext v) t next -> Ncell <= next ->
  (forall c, In c (preorder t) -> 0 <= c < Ncell) ->
  walk (vopen v) (vnext v) Ncell (box_visit fuel v opn keep) (msize t) (root t) s = Ok (s ++ filter want ps, false).
Proof.
  intros Ncell t ps next s HC HLK Hn HB.
  assert (E := proj1 (box_twalks Ncell (vnext v)) t ps HC next HLK (fun c Hc => proj1 (HB c Hc)) s).
  eapply walk_correct; eauto; [|intros c Hc; now apply HB].
  intros c s0 s''. unfold box_visit. destruct (opn c) as [[|]| | |]; cbn [bind]; try discriminate.
  destruct (vopen v c) as [co| | |]; cbn [bind]; try discriminate.
  destruct (Z.eqb_spec co (-1)); cbn [negb]; [|congruence].
  destruct (vN v c) as [n| | |]; cbn [bind]; try discriminate.
  destruct (n =? 0); try discriminate.
  destruct (cell_list fuel v c); cbn [bind]; [|discriminate..]. destruct (filter_ids keep a); cbn [bind]; discriminate.
Qed.
End BoxWalk.

(** ** Lists *)
Lemma box_point : forall n a b c d x, in_box n a b x -> in_box n c d x -> BoxesOverlap n a b c d = true.
Proof.
  intros n a b c d x H1 H2. apply BoxesOverlap_correct; [| |exists x; now split]; intros k Hk; [destruct (H1 k Hk)|destruct (H2 k Hk)]; lra.
Qed.
Lemma grow_encloses : forall n ps b, (forall p, In p ps -> in_box n (bmin (fold_left grow_box ps b)) (bmax (fold_left grow_box ps b)) (p_r p)) /\
  (forall k, (bmin (fold_left grow_box ps b) k <= bmin b k)%R /\ (bmax b k <= bmax (fold_left grow_box ps b) k)%R).
Proof.
  intros n. induction ps as [|q ps IH]; intros b; cbn [fold_left].
  - split; [easy|]. intros k. split; lra.
  - destruct (IH (grow_box b q)) as [A B]. split.
    + intros p [->|Hp]; [|now apply A]. intros k Hk. destruct (B k) as [B1 B2]. cbn [grow_box bmin bmax] in B1, B2.
      pose proof (Rmin_r (bmin b k) (p_r p k)). pose proof (Rmax_r (bmax b k) (p_r p k)). lra.
    + intros k. destruct (B k) as [B1 B2]. cbn [grow_box bmin bmax] in B1, B2. pose proof (Rmin_l (bmin b k) (p_r q k)). pose proof (Rmax_l (bmax b k) (p_r q k)). lra.
Qed.

Section Data.
Context {P : Type} (def : P).
Definition dat (d : list P) (i : Z) : P := nth (Z.to_nat i) d def.
Lemma dat_aget : forall d i, 0 <= i < zlen d -> aget d i = Ok (dat d i).
Proof. intros d i H. unfold aget, dat. destruct (Z.ltb_spec i 0); [lia|]. unfold zlen in H. now rewrite (nth_error_nth' d def) by lia. Qed.
Lemma send_buffer_ok : forall d l, (forall i, In i l -> 0 <= i < zlen d) -> send_buffer d l = Ok (map (dat d) l).
Proof.
  induction l as [|i l IH]; intros H; [reflexivity|]. cbn [send_buffer map]. rewrite dat_aget by (apply H; now left). cbn [bind].
  rewrite IH by (intros; apply H; now right). reflexivity.
Qed.
Lemma zseq_map_S : forall n a, zseq (a + 1) n = map (fun i => i + 1) (zseq a n).
Proof. induction n as [|n IH]; intros a; [reflexivity|]. cbn [zseq map]. f_equal. apply IH. Qed.
Lemma map_dat : forall n d, (n <= length d)%nat -> map (dat d) (zseq 0 n) = firstn n d.
Proof.
  induction n as [|n IH]; intros d H; [reflexivity|]. destruct d as [|x d]; [cbn in H; lia|]. cbn [zseq map firstn]. f_equal.
  rewrite (zseq_map_S n 0), map_map. rewrite <- (IH d) by (cbn in H; lia). apply map_ext_in. intros i Hi. apply zseq_in in Hi. unfold dat.
  replace (Z.to_nat (i + 1)) with (S (Z.to_nat i)) by lia. reflexivity.
Qed.
Lemma filter_map : forall A B (f : A -> B) g l, filter g (map f l) = map f (filter (fun x => g (f x)) l).
Proof. intros A B f g. induction l as [|x l IH]; [reflexivity|]. cbn. destruct (g (f x)); cbn; now rewrite IH. Qed.
Lemma filter_firstn : forall n d (g : P -> bool), (n <= length d)%nat -> filter g (firstn n d) = map (dat d) (filter (fun i => g (dat d i)) (zseq 0 n)).
Proof. intros n d g H. now rewrite <- map_dat, filter_map. Qed.

(** Putting particles behind the others. *)
Lemma put_spec : forall (l : list P) i (d : list P), 0 <= i -> i + zlen l <= zlen d ->
  exists d', put l i d = Ok d' /\ zlen d' = zlen d /\ firstn (Z.to_nat (i + zlen l)) d' = firstn (Z.to_nat i) d ++ l.
Proof.
  induction l as [|p l IH]; intros i d Hi Hl.
  - exists d. split; [reflexivity|]. split; [reflexivity|]. unfold zlen. cbn [length]. rewrite Z.add_0_r, app_nil_r. reflexivity.
  - unfold zlen in Hl. cbn [length] in Hl. cbn [put]. rewrite aset_in by (unfold zlen; lia). cbn [bind].
    destruct (IH (i + 1) (upd d (Z.to_nat i) p)) as (d' & E & L & F); [lia|rewrite zlen_upd; unfold zlen; lia|].
    exists d'. split; [exact E|]. split; [now rewrite L, zlen_upd|].
    replace (i + zlen (p :: l)) with (i + 1 + zlen l) by (unfold zlen; cbn [length]; lia). rewrite F.
    replace (Z.to_nat (i + 1)) with (S (Z.to_nat i)) by lia. rewrite firstn_upd_S by lia. now rewrite <- app_assoc.
Qed.
Definition sound (s : @store P) : Prop := zlen (data s) = Nhydromax s /\ 0 <= Nhydro s <= Nhydromax s.
Lemma receive_spec : forall buf s, sound s -> exists s', receive def buf s = Ok s' /\ sound s' /\ Nhydro s' = Nhydro s + zlen buf /\
  firstn (Z.to_nat (Nhydro s')) (data s') = firstn (Z.to_nat (Nhydro s)) (data s) ++ buf.
Proof.
  intros buf s [S1 S2]. unfold receive.
  assert (X : exists s1, (if Nhydromax s <? Nhydro s + zlen buf then AllocateMemory def (Nhydro s + zlen buf) s else Ok s) = Ok s1 /\
            zlen (data s1) = Nhydromax s1 /\ Nhydro s1 = Nhydro s /\ Nhydro s + zlen buf <= Nhydromax s1 /\ firstn (Z.to_nat (Nhydro s)) (data s1) = firstn (Z.to_nat (Nhydro s)) (data s)).
  { destruct (Z.ltb_spec (Nhydromax s) (Nhydro s + zlen buf)) as [L|L]; [|exists s; repeat split; auto].
    destruct (Allocate_spec def (Nhydro s + zlen buf) s S1 S2) as (s' & E & A & B & _ & D & F). exists s'. split; [exact E|]. split; [exact D|]. split; [exact B|]. split; [lia|].
    rewrite <- F, firstn_firstn. f_equal. lia. }
  destruct X as (s1 & E & A & B & C & D). rewrite E. cbn [bind]. rewrite B.
  destruct (put_spec buf (Nhydro s) (data s1)) as (d' & E' & L' & F'); [lia|lia|]. rewrite E'. cbn [bind]. eexists. split; [reflexivity|]. unfold sound. cbn [data Nhydro Nhydromax].
  split; [split; [lia|unfold zlen in *; lia]|]. split; [reflexivity|]. now rewrite F', D.
Qed.
Lemma receive_all_spec : forall bufs s, sound s -> exists s', receive_all def bufs s = Ok s' /\ sound s' /\ Nhydro s' = Nhydro s + zlen (concat bufs) /\
  firstn (Z.to_nat (Nhydro s')) (data s') = firstn (Z.to_nat (Nhydro s)) (data s) ++ concat bufs.
Proof.
  induction bufs as [|b bufs IH]; intros s S.
  - exists s. split; [reflexivity|]. split; [exact S|]. cbn. unfold zlen. cbn. rewrite app_nil_r. split; [lia|reflexivity].
  - destruct (receive_spec b s S) as (s1 & E1 & S1 & N1 & F1). destruct (IH s1 S1) as (s2 & E2 & S2 & N2 & F2).
    exists s2. cbn [receive_all]. rewrite E1. cbn [bind]. split; [exact E2|]. split; [exact S2|]. cbn [concat]. unfold zlen in *. rewrite app_length.
    split; [lia|]. now rewrite F2, F1, app_assoc.
Qed.
Variables (isdead : P -> bool) (kill sd : P -> P).
Lemma mark_spec : forall l d, (forall i, In i l -> 0 <= i < zlen d) ->
  exists d', mark_dead sd l d = Ok d' /\ zlen d' = zlen d /\ (forall i, 0 <= i -> ~ In i l -> dat d' i = dat d i) /\ 
    ((forall p, isdead (sd p) = true) -> forall i, In i l -> isdead (dat d' i) = true).
Proof.
  induction l as [|i l IH]; intros d H.
  - exists d. split; [reflexivity|]. split; [reflexivity|]. split; [reflexivity|easy].
  - cbn [mark_dead]. pose proof (H i (or_introl eq_refl)) as Hi. rewrite dat_aget by exact Hi. cbn [bind]. rewrite aset_in by exact Hi. cbn [bind].
    destruct (IH (upd d (Z.to_nat i) (sd (dat d i)))) as (d' & E & L & F & G); [intros j Hj; rewrite zlen_upd; apply H; now right|].
    assert (U : forall j, 0 <= j -> dat (upd d (Z.to_nat i) (sd (dat d i))) j = if j =? i then sd (dat d i) else dat d j).
    { intros j Hj. unfold dat at 1. destruct (Z.eqb_spec j i) as [->|Ne].
      - apply nth_error_nth. pose proof (aget_upd_eq d i (sd (dat d i)) Hi) as X. apply aget_Ok_inv in X as [_ X]. exact X.
      - destruct (Z.ltb_spec j (zlen d)) as [Lj|Lj].
        + apply nth_error_nth. assert (X : aget (upd d (Z.to_nat i) (sd (dat d i))) j = Ok (dat d j)) by (rewrite aget_upd_ne by lia; apply dat_aget; lia). apply aget_Ok_inv in X as [_ X]. exact X.
        + unfold zlen in *. unfold dat. rewrite !nth_overflow; [reflexivity|lia|rewrite length_upd; lia]. }
    exists d'. split; [exact E|]. split; [now rewrite L, zlen_upd|]. split.
    + intros j Hj N. rewrite F; [|exact Hj|intros I; apply N; now right]. rewrite U by exact Hj. destruct (Z.eqb_spec j i) as [->|]; [exfalso; apply N; now left|reflexivity].
    + intros D j [<-|Hj]; [|now apply G]. destruct (in_dec Z.eq_dec i l) as [I|I]; [now apply G|]. rewrite F by (auto; lia). rewrite U by lia. rewrite Z.eqb_refl. apply D.
Qed.
End Data.

(** ** The search of the particles to be sent *)
Section Search.
Variables (ndim : nat) (kr th2 : R) (quad : bool) (Nl : Z).
Variables (pd : list particle) (ts : tstate) (Ncell : Z) (t : rtree) (ps : list Z).
Hypothesis Hnd : (1 <= ndim <= 3)%nat.
Hypothesis Hkr : (0 <= kr)%R.
Hypothesis ST : stocked ndim kr th2 quad pd Nl ts Ncell t ps.
Hypothesis Hh : forall p x, In p ps -> aget pd p = Ok x -> (0 <= p_h x)%R.
Variable def : particle.
Definition in_dom (b : box) (i : Z) : bool := insideb ndim b (p_r (dat def pd i)).
Lemma aget_dat : forall i p, aget pd i = Ok p -> dat def pd i = p.
Proof. intros i p H. apply aget_Ok_inv in H as [_ H]. unfold dat. now apply nth_error_nth. Qed.
Lemma search_ok : forall b out, FindBoxOverlapParticles ndim pd ts Ncell b out = Ok (out ++ filter (in_dom b) ps).
Proof.
  intros b out. unfold FindBoxOverlapParticles.
  pose proof (stocked_known ndim kr th2 quad pd Nl ts Ncell t ps ST Hkr Hh) as K.
  rewrite (stocked_walk_fuel _ _ _ _ _ _ _ _ _ _ ST). pose proof (st_root _ _ _ _ _ _ _ _ _ _ ST) as R0. rewrite <- R0.
  rewrite (box_walk (tfuel (ts_k ts)) (view_of (ts_k ts)) Nl _ _ (in_dom b) Ncell t ps Ncell out).
  - reflexivity.
  - refine (proj1 (ctree_impl _ _ _ _ _ (fun c qs H => H)) t ps K). intros c qs [(CO & g & G & _ & F & _) Sub].
    split; [exact CO|]. split.
    + unfold box_opn. rewrite G. cbn [bind]. eexists. split; [reflexivity|]. intros B p Hp. destruct (F p Hp) as (x & Ax & Bx & _).
      destruct (in_dom b p) eqn:E; [|reflexivity]. unfold in_dom in E. rewrite (aget_dat p x Ax) in E. apply insideb_true in E.
      rewrite (BoxOverlap_point ndim _ _ _ _ (p_r x)) in B; [discriminate|exact Hnd|exact Bx|]. intros k Hk. destruct (E k Hk). lra.
    + intros p Hp. destruct (F p Hp) as (x & Ax & _). unfold box_keep. rewrite Ax. cbn [bind]. rewrite pib_insideb. unfold in_dom. now rewrite (aget_dat p x Ax).
  - exact (stocked_linked _ _ _ _ _ _ _ _ _ _ ST).
  - lia.
  - exact (stocked_range _ _ _ _ _ _ _ _ _ _ ST).
Qed.
Lemma find_ok : forall domain nodes out all, NoDup nodes -> (forall q, In q nodes -> out q = []) ->
  exists out' , find_transfers ndim pd ts Ncell domain nodes out all = Ok (out', all ++ flat_map (fun q => filter (in_dom (domain q)) ps) nodes) /\
    (forall q, In q nodes -> out' q = filter (in_dom (domain q)) ps) /\ (forall q, ~ In q nodes -> out' q = out q).
Proof.
  intros domain. induction nodes as [|a nodes IH]; intros out all ND O0.
  - exists out. cbn. rewrite app_nil_r. split; [reflexivity|]. split; [easy|reflexivity].
  - inversion ND; subst. cbn [find_transfers flat_map]. rewrite search_ok. cbn [bind]. rewrite (O0 a (or_introl eq_refl)). cbn [app].
    destruct (IH (set1 out a (filter (in_dom (domain a)) ps)) (all ++ filter (in_dom (domain a)) ps)) as (out' & E & A & B); [assumption|..].
    { intros q Hq. unfold set1. destruct (Z.eqb_spec q a) as [->|]; [contradiction|]. apply O0. now right. }
    exists out'. split; [now rewrite E, app_assoc|]. split.
    + intros q [<-|Hq]; [|now apply A]. rewrite B by assumption. unfold set1. now rewrite Z.eqb_refl.
    + intros q Hq. rewrite B by (intros I; apply Hq; now right). unfold set1. destruct (Z.eqb_spec q a) as [->|]; [exfalso; apply Hq; now left|reflexivity].
Qed.
End Search.

Lemma Permutation_filter : forall A (f : A -> bool) l l', Permutation l l' -> Permutation (filter f l) (filter f l').
Proof.
  intros A f l l' H. induction H; cbn; [constructor|..].
  - destruct (f x); [now constructor|assumption].
  - destruct (f x), (f y); try constructor; reflexivity.
  - etransitivity; eassumption.
Qed.
Lemma flat_map_filter_nil : forall A B (f : A -> list B) g l, (forall x, In x l -> g x = false -> f x = []) -> flat_map f l = flat_map f (filter g l).
Proof.
  intros A B f g. induction l as [|x l IH]; intros H; [reflexivity|]. cbn. destruct (g x) eqn:E; cbn.
  - f_equal. apply IH. intros; apply H; auto. now right.
  - rewrite (H x (or_introl eq_refl) E). apply IH. intros; apply H; auto. now right.
Qed.

Lemma filter_length_le : forall A (f : A -> bool) l, (length (filter f l) <= length l)%nat.
Proof. intros A f. induction l as [|x l IH]; [reflexivity|]. cbn. destruct (f x); cbn; lia. Qed.
Lemma app_inv_length_l : forall A (a b c d : list A), a ++ b = c ++ d -> length a = length c -> b = d.
Proof. intros A. induction a as [|x a IH]; intros b [|y c] d H L; cbn in *; try discriminate; auto. injection H as _ H. apply (IH b c d H). lia. Qed.
Section Prepare.
Variables (ndim : nat) (kr th2 : R) (quad : bool) (Nl : Z) (Nmpi rank : Z) (domain : Z -> box).
Variables (st : @store particle) (ts : tstate) (Ncell : Z) (t : rtree) (ps : list Z) (def : particle).
Hypothesis Hnd : (1 <= ndim <= 3)%nat.
Hypothesis Hkr : (0 <= kr)%R.
Hypothesis RD : ready ndim kr th2 quad Nl st ts Ncell t ps.
Definition others : list Z := filter (fun q => negb (q =? rank)) (zseq 0 (Z.to_nat Nmpi)).
Definition goes (q : Z) : list Z := filter (in_dom ndim (data st) def (domain q)) ps.
Lemma ps_in : forall i, In i ps -> 0 <= i < Nhydro st /\ p_dead (dat def (data st) i) = false.
Proof.
  intros i Hi. destruct RD as [[S1 S2] ST PL HH]. apply (Permutation_in _ PL) in Hi. apply filter_In in Hi as [A B]. apply zseq_in in A.
  split; [lia|]. rewrite (dat_aget def) in B by lia. now apply negb_true_iff.
Qed.
Lemma ps_live : Permutation (map (dat def (data st)) ps) (live st).
Proof.
  destruct RD as [[S1 S2] ST PL HH]. unfold live. rewrite (filter_firstn def) by (unfold zlen in S1; lia). rewrite PL. 
  assert (E : forall l, (forall i, In i l -> 0 <= i < zlen (data st)) -> filter (fun i => match aget (data st) i with Ok p => negb (p_dead p) | _ => false end) l = filter (fun i => negb (p_dead (dat def (data st) i))) l).
  { induction l as [|a l IH]; intros H; [reflexivity|]. cbn. rewrite (dat_aget def) by (apply H; now left). rewrite IH by (intros; apply H; now right). reflexivity. }
  rewrite E; [reflexivity|]. intros i Hi. apply zseq_in in Hi. lia.
Qed.
Lemma prepare_ok : exists out, prepare ndim Nmpi rank domain ts Ncell st = Ok (out, flat_map goes others) /\
  forall q, 0 <= q < Nmpi -> q <> rank -> out q = goes q.
Proof.
  unfold prepare. set (rb := particle_box _). destruct (RD) as [[S1 S2] ST PL HH].
  assert (HP : forall p x, In p ps -> aget (data st) p = Ok x -> (0 <= p_h x)%R).
  { intros p x Hp Ax. apply HH. apply (Permutation_in _ ps_live). rewrite <- (aget_dat _ def _ _ Ax). now apply in_map. }
  assert (SK : forall q, BoxesOverlap ndim (bmin (domain q)) (bmax (domain q)) (bmin rb) (bmax rb) = false -> goes q = []).
  { intros q Hq. apply filter_false. intros i Hi. destruct (in_dom ndim (data st) def (domain q) i) eqn:E; [|reflexivity]. exfalso.
    unfold in_dom in E. apply insideb_true in E. destruct (ps_in i Hi) as [Ri _].
    rewrite (box_point ndim _ _ _ _ (p_r (dat def (data st) i))) in Hq; [discriminate| |].
    - intros k Hk. destruct (E k Hk). lra.
    - unfold rb, particle_box. apply grow_encloses. rewrite <- (map_dat def) by (unfold zlen in S1; lia). apply in_map. apply zseq_in. lia. }
  destruct (find_ok ndim kr th2 quad Nl (data st) ts Ncell t ps Hnd Hkr ST HP def domain (potential_nodes ndim Nmpi rank domain rb) (fun _ => []) []) as (out & E & A & B).
  { apply NoDup_filter, L_KDTop.zseq_nodup. } { reflexivity. }
  exists out. rewrite E. cbn [app]. split.
  - f_equal. f_equal. change (fun q => filter (in_dom ndim (data st) def (domain q)) ps) with goes. unfold potential_nodes, others.
    rewrite (flat_map_filter_nil _ _ goes (fun q => BoxesOverlap ndim (bmin (domain q)) (bmax (domain q)) (bmin rb) (bmax rb)) (filter (fun q => negb (q =? rank)) (zseq 0 (Z.to_nat Nmpi)))) by (intros q _; apply SK).
    f_equal. generalize (zseq 0 (Z.to_nat Nmpi)). induction l as [|a l IH]; [reflexivity|]. cbn. destruct (negb (a =? rank)); cbn; [|exact IH]. destruct (BoxesOverlap _ _ _ _ _); [now rewrite IH|exact IH].
  - intros q Hq Ne. destruct (BoxesOverlap ndim (bmin (domain q)) (bmax (domain q)) (bmin rb) (bmax rb)) eqn:X.
    + apply A. unfold potential_nodes. apply filter_In. split; [apply zseq_in; lia|]. rewrite X. destruct (Z.eqb_spec q rank); [contradiction|reflexivity].
    + rewrite B; [symmetry; now apply SK|]. unfold potential_nodes. intros I. apply filter_In in I as [_ I]. rewrite X, andb_false_r in I. discriminate.
Qed.
Lemma send_ok : forall q, send_buffer (data st) (goes q) = Ok (map (dat def (data st)) (goes q)).
Proof.
  intros q. apply send_buffer_ok. intros i Hi. apply filter_In in Hi as [Hi _]. apply ps_in in Hi. destruct RD as [[S1 S2] _ _ _]. lia.
Qed.
Lemma sent_live : forall q, Permutation (map (dat def (data st)) (goes q)) (filter (leaves_for ndim domain q) (live st)).
Proof.
  intros q. unfold goes. rewrite <- (Permutation_filter _ _ _ _ ps_live). rewrite filter_map. reflexivity.
Qed.
(** ** What each process has afterwards *)
Lemma dat_firstn : forall n (d : list particle) i, 0 <= i < Z.of_nat n -> dat def (firstn n d) i = dat def d i.
Proof.
  intros n d i H. unfold dat. rewrite <- (firstn_skipn n d) at 2. destruct (Nat.lt_ge_cases (Z.to_nat i) (length (firstn n d))) as [L|L].
  - now rewrite app_nth1.
  - rewrite firstn_length in L. rewrite (nth_overflow (firstn n d)) by (rewrite firstn_length; lia). rewrite nth_overflow; [reflexivity|]. rewrite firstn_skipn. lia.
Qed.
Lemma in_ps : forall i, 0 <= i < Nhydro st -> p_dead (dat def (data st) i) = false -> In i ps.
Proof.
  intros i Hi D. destruct RD as [[S1 S2] ST PL HH]. apply (Permutation_in _ (Permutation_sym PL)). apply filter_In. split; [apply zseq_in; lia|].
  rewrite (dat_aget def) by lia. now rewrite D.
Qed.
Lemma all_stays : forall i, 0 <= i < Nhydro st -> p_dead (dat def (data st) i) = false ->
  (In i (flat_map goes others) <-> stays ndim Nmpi domain rank (dat def (data st) i) = false).
Proof.
  intros i Hi D. rewrite in_flat_map. split.
  - intros (q & Hq & G). apply filter_In in Hq as [Q1 Q2]. apply filter_In in G as [_ G]. unfold in_dom in G.
    destruct (stays ndim Nmpi domain rank (dat def (data st) i)) eqn:E; [|reflexivity]. unfold stays in E. rewrite forallb_forall in E. specialize (E q Q1).
    rewrite G in E. destruct (q =? rank); discriminate.
  - intros E. destruct (existsb (fun q => negb (q =? rank) && insideb ndim (domain q) (p_r (dat def (data st) i))) (zseq 0 (Z.to_nat Nmpi))) eqn:X.
    + apply existsb_exists in X as (q & Q1 & Q2). apply andb_true_iff in Q2 as [Q2 Q3]. exists q. split; [apply filter_In; now split|]. apply filter_In. split; [now apply in_ps|exact Q3].
    + exfalso. assert (Y : stays ndim Nmpi domain rank (dat def (data st) i) = true); [|congruence]. unfold stays. apply forallb_forall. intros q Hq.
      destruct ((q =? rank) || negb (insideb ndim (domain q) (p_r (dat def (data st) i)))) eqn:Z; [reflexivity|]. apply orb_false_iff in Z as [Z1 Z2]. apply negb_false_iff in Z2.
      assert (existsb (fun q => negb (q =? rank) && insideb ndim (domain q) (p_r (dat def (data st) i))) (zseq 0 (Z.to_nat Nmpi)) = true); [|congruence].
      apply existsb_exists. exists q. split; [exact Hq|]. now rewrite Z1, Z2.
Qed.
Lemma filter_all : forall A (f : A -> bool) l, (forall x, In x l -> f x = true) -> filter f l = l.
Proof. intros A f. induction l as [|x l IH]; intros H; [reflexivity|]. cbn. rewrite (H x (or_introl eq_refl)). f_equal. apply IH. intros; apply H; now right. Qed.
Lemma finish_ok : forall bufs, (forall p, In p (concat bufs) -> p_dead p = false) ->
  exists s', finish_transfer def p_dead kill_slot set_dead bufs (flat_map goes others) st = Ok s' /\ sound s' /\ 
    Nhydro s' = zlen (filter (stays ndim Nmpi domain rank) (live st) ++ concat bufs) /\
    Permutation (firstn (Z.to_nat (Nhydro s')) (data s')) (filter (stays ndim Nmpi domain rank) (live st) ++ concat bufs).
Proof.
  intros bufs HB. destruct (rd_size _ _ _ _ _ _ _ _ _ _ RD) as [S1 S2]. unfold finish_transfer.
  destruct (receive_all_spec def bufs st (conj S1 S2)) as (s1 & E1 & [A1 A2] & N1 & F1). rewrite E1. cbn [bind].
  assert (AR : forall i, In i (flat_map goes others) -> 0 <= i < Nhydro st /\ p_dead (dat def (data st) i) = false).
  { intros i Hi. apply in_flat_map in Hi as (q & _ & Hi). apply filter_In in Hi as [Hi _]. now apply ps_in. }
  assert (0 <= zlen (concat bufs)) by (unfold zlen; lia).
  destruct (mark_spec def p_dead kill_slot set_dead (flat_map goes others) (data s1)) as (d & E2 & L2 & F2 & G2).
  { intros i Hi. destruct (AR i Hi) as [? _]. lia. }
  rewrite E2. cbn [bind]. destruct (DeleteDead_correct p_dead kill_slot (Nhydro s1) d) as (d' & n' & Nd & E3 & _ & L3 & P3 & N3 & _); [lia|].
  rewrite E3. cbn [bind].
  assert (X : filter (fun p => negb (p_dead p)) (firstn (Z.to_nat (Nhydro s1)) d) = filter (stays ndim Nmpi domain rank) (live st) ++ concat bufs).
  { rewrite (filter_firstn def) by (unfold zlen in *; lia). replace (Z.to_nat (Nhydro s1)) with (Z.to_nat (Nhydro st) + length (concat bufs))%nat by (unfold zlen in *; lia).
    rewrite zseq_app, filter_app, map_app. rewrite Z2Nat.id, Z.add_0_l by lia. f_equal.
    - unfold live. rewrite (filter_firstn def (Z.to_nat (Nhydro st)) (data st)) by (unfold zlen in *; lia). rewrite filter_map.
      assert (Y : forall l, (forall i, In i l -> 0 <= i < Nhydro st) -> map (dat def d) (filter (fun i => negb (p_dead (dat def d i))) l) =
         map (dat def (data st)) (filter (fun i => stays ndim Nmpi domain rank (dat def (data st) i)) (filter (fun i => negb (p_dead (dat def (data st) i))) l))).
      { induction l as [|i l IH]; intros Hl; [reflexivity|]. specialize (IH (fun j Hj => Hl j (or_intror Hj))). specialize (Hl i (or_introl eq_refl)).
        assert (EQ : dat def (data s1) i = dat def (data st) i).
        { rewrite <- (dat_firstn (Z.to_nat (Nhydro s1)) (data s1)) by lia. rewrite F1. unfold dat. rewrite app_nth1 by (rewrite firstn_length; unfold zlen in *; lia). change (dat def (firstn (Z.to_nat (Nhydro st)) (data st)) i = dat def (data st) i). apply dat_firstn. lia. }
        cbn [filter]. destruct (in_dec Z.eq_dec i (flat_map goes others)) as [I|I].
        - rewrite (G2 (fun p => eq_refl) i I). destruct (AR i I) as [_ D]. rewrite D. cbn [negb filter]. apply all_stays in I; [|exact Hl|exact D]. rewrite I. exact IH.
        - rewrite (F2 i (proj1 Hl) I), EQ. destruct (p_dead (dat def (data st) i)) eqn:D; cbn [negb filter]; [exact IH|].
          destruct (stays ndim Nmpi domain rank (dat def (data st) i)) eqn:SS; [|exfalso; apply I; now apply all_stays].
          cbn [map]. rewrite (F2 i (proj1 Hl) I), EQ. now rewrite IH. }
      apply Y. intros i Hi. apply zseq_in in Hi. lia.
    - assert (Y : map (dat def d) (zseq (Nhydro st) (length (concat bufs))) = concat bufs).
      { assert (Z0 : map (dat def d) (zseq 0 (Z.to_nat (Nhydro st) + length (concat bufs))) = map (dat def d) (zseq 0 (Z.to_nat (Nhydro st))) ++ concat bufs).
        { rewrite zseq_app, map_app. rewrite Z2Nat.id, Z.add_0_l by lia. f_equal.
          assert (Z1 : map (dat def d) (zseq (Nhydro st) (length (concat bufs))) = map (dat def (data s1)) (zseq (Nhydro st) (length (concat bufs)))).
          { apply map_ext_in. intros i Hi. apply zseq_in in Hi. apply F2; [lia|]. intros I. destruct (AR i I). lia. }
          rewrite Z1. pose proof (map_dat def (Z.to_nat (Nhydro s1)) (data s1) ltac:(unfold zlen in *; lia)) as M. rewrite F1 in M.
          replace (Z.to_nat (Nhydro s1)) with (Z.to_nat (Nhydro st) + length (concat bufs))%nat in M by (unfold zlen in *; lia). rewrite zseq_app, map_app, Z2Nat.id, Z.add_0_l in M by lia.
          apply app_inv_length_l in M; [exact M|]. rewrite map_length, zseq_length, firstn_length. unfold zlen in *. lia. }
        rewrite zseq_app, map_app, Z2Nat.id, Z.add_0_l in Z0 by lia. now apply app_inv_head in Z0. }
      rewrite filter_all; [exact Y|]. intros i Hi. apply negb_true_iff. apply HB. rewrite <- Y. now apply in_map. }
  eexists. split; [reflexivity|]. unfold sound. cbn [Nhydro Nhydromax data].
  assert (0 <= n' <= zlen d').
  { rewrite N3. split; [unfold zlen; lia|]. rewrite L3. unfold zlen. pose proof (filter_length_le _ (fun p => negb (p_dead p)) (firstn (Z.to_nat (Nhydro s1)) d)). rewrite firstn_length in H0. unfold alive. lia. }
  split; [split; lia|]. split; [|]. { rewrite N3. f_equal. exact X. } { rewrite P3. change (alive p_dead) with (fun p => negb (p_dead p)). now rewrite X. }
Qed.
End Prepare.
