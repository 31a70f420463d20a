(** Sub-systems: what BuildSubSystems leaves in its lists. *)
From Verif Require Import Prelude Vec M_Box L_Box M_Hermite M_NNTree S_Diag L_Diag S_NNTree L_NNTree L_NNTree2 L_NNTree3 L_NNTree4.
From Coq Require Import Reals Permutation Psatz.
Local Open Scope R_scope.

Definition estar (e : ent) : option nat := match e with EStar i => Some i | ESys _ => None end.
Definition eparts (ys : list sysp) (e : ent) : option (list ent) := match e with EStar _ => None | ESys s => option_map y_children (nth_error ys s) end.
Definition emade (ys : list sysp) : ent -> list nat -> Prop := made estar (eparts ys).
(** Potential energy inside an entity: that of a system and of the systems it consists of. *)
Definition ein_of (acc : list R) (e : ent) : R := match e with EStar _ => 0 | ESys s => nth s acc 0 end.
Definition eins (ys : list sysp) : list R := fold_left (fun acc y => acc ++ [y_gpei y + lsum (ein_of acc) (y_children y)]) ys [].
Definition ein (ys : list sysp) (e : ent) : R := ein_of (eins ys) e.

Lemma made_mono : forall (E : Type) (star : E -> option nat) p p', (forall e es, p e = Some es -> p' e = Some es) -> forall e l, made star p e l -> made star p' e l.
Proof.
  intros E star p p' H. fix IH 3. intros e l M. destruct M as [e i Hs|e es ls Hs Hp HF].
  - constructor. exact Hs.
  - apply (made_parts _ _ e es ls Hs); [apply H, Hp|]. clear Hs Hp. induction HF as [|x y xs zs Hxy HF IHF]; constructor; [apply IH, Hxy|exact IHF].
Qed.
Lemma emade_mono : forall ys zs e l, emade ys e l -> emade (ys ++ zs) e l.
Proof.
  intros ys zs. apply made_mono. intros [i|s] es; cbn; [discriminate|]. destruct (nth_error ys s) as [y|] eqn:E; [|discriminate]. rewrite nth_error_app1; [rewrite E; auto|]. apply nth_error_Some. congruence.
Qed.
Definition known (ys : list sysp) (e : ent) : Prop := match e with EStar _ => True | ESys s => (s < length ys)%nat end.
Lemma emade_known : forall ys e l, emade ys e l -> known ys e.
Proof. intros ys e l H. destruct H as [e i Hs|e es ls Hs Hp HF]; destruct e as [i'|s]; cbn in *; try discriminate; auto. apply nth_error_Some. destruct (nth_error ys s); [discriminate|cbn in Hp; discriminate]. Qed.
Lemma eins_app : forall ys y, eins (ys ++ [y]) = eins ys ++ [y_gpei y + lsum (ein_of (eins ys)) (y_children y)].
Proof. intros. unfold eins. rewrite fold_left_app. reflexivity. Qed.
Lemma eins_length : forall ys, length (eins ys) = length ys.
Proof. induction ys as [|y ys IH] using rev_ind; [reflexivity|]. rewrite eins_app, !app_length, IH. reflexivity. Qed.
Lemma ein_app : forall ys y e, known ys e -> ein (ys ++ [y]) e = ein ys e.
Proof. intros ys y [i|s] H; [reflexivity|]. unfold ein, ein_of. rewrite eins_app, app_nth1; [reflexivity|]. rewrite eins_length. exact H. Qed.
Lemma ein_last : forall ys y, ein (ys ++ [y]) (ESys (length ys)) = y_gpei y + lsum (ein ys) (y_children y).
Proof. intros. unfold ein at 1, ein_of. rewrite eins_app, app_nth2; rewrite eins_length; [|lia]. rewrite Nat.sub_diag. reflexivity. Qed.

Section Sub.
Variable ndim : nat.
Hypothesis Hdim : (1 <= ndim <= 3)%nat.
Variables (N n : nat) (r : nat -> vec) (T : tree).
Hypothesis G : good ndim N r T n.
Variable stars : nat -> starp.
Hypothesis Hpos : forall i, (i < N)%nat -> 0 < sp_m (stars i).
Variables (Nsysmax Nnbmax Norbmax : nat) (gpesoft : R).
Hypothesis Hsys : (n - N <= Nsysmax)%nat.
Hypothesis Horb : (n - N <= Norbmax)%nat.
Hypothesis Hnb : (N <= Nnbmax)%nat.
Notation build_node := (build_node ndim stars T N Nsysmax Nnbmax Norbmax gpesoft).
Notation build_nodes := (build_nodes ndim stars T N Nsysmax Nnbmax Norbmax gpesoft).
Notation ent_m := (ent_m stars).
Notation ent_x := (ent_x stars).
Definition m (i : nat) : R := sp_m (stars i).
Definition sx (q : quantity) (i : nat) : vec := sp_x (stars i) q.
Definition pot (i : nat) : R := 1 / 2 * sp_m (stars i) * sp_gpot (stars i).

Lemma ent_app : forall ys y e q, known ys e -> ent_m (ys ++ [y]) e = ent_m ys e /\ ent_x (ys ++ [y]) e q = ent_x ys e q.
Proof. intros ys y [i|s] q H; [auto|]. cbn in *. rewrite nth_error_app1 by exact H. auto. Qed.

(** An entity that consists of the stars [l]. *)
Definition Rel (ys : list sysp) (e : ent) (l : list nat) : Prop := emade ys e l /\ l <> [] /\ forall q, is_sum m (sx q) l (ent_m ys e) (ent_x ys e q).
Lemma Rel_mono : forall ys y e l, Rel ys e l -> Rel (ys ++ [y]) e l.
Proof.
  intros ys y e l (H1 & H2 & H3). split; [apply emade_mono, H1|]. split; [exact H2|]. intros q. pose proof (emade_known _ _ _ H1) as K. destruct (ent_app ys y e q K) as (-> & ->). apply H3.
Qed.
Lemma Rel_list_mono : forall ys y es ls, Forall2 (Rel ys) es ls -> Forall2 (Rel (ys ++ [y])) es ls.
Proof. intros ys y es ls H. induction H; constructor; auto. apply Rel_mono. assumption. Qed.
Lemma Rel_list_made : forall ys y es ls, Forall2 (Rel ys) es ls -> Forall2 (emade (ys ++ [y])) es ls.
Proof. intros ys y es ls H. induction H as [|e l es ls (R1 & _) H IH]; constructor; [apply emade_mono, R1|exact IH]. Qed.
Lemma Rel_list_known : forall ys es ls, Forall2 (Rel ys) es ls -> forall e, In e es -> known ys e.
Proof. intros ys es ls H. induction H as [|e l es ls (H1 & _) HF IH]; intros f []; [subst; eapply emade_known; eauto|auto]. Qed.
Lemma Rel_list_len : forall ys es ls, Forall2 (Rel ys) es ls -> (length es <= length (concat ls))%nat.
Proof. intros ys es ls H. induction H as [|e l es ls (_ & H2 & _) HF IH]; cbn; [lia|]. rewrite app_length. destruct l; [congruence|]. cbn. lia. Qed.
Lemma ein_list_app : forall ys y es ls, Forall2 (Rel ys) es ls -> lsum (ein (ys ++ [y])) es = lsum (ein ys) es.
Proof. intros. apply lsum_ext. intros e He. apply ein_app. eapply Rel_list_known; eauto. Qed.

(** A cell that stands for the stars [l]. *)
Definition cellok (c : nat) (x : cell) (l : list nat) : Prop :=
  holds (child T) N c l /\ 0 < l_m x /\ (forall q, is_sum m (sx q) l (l_m x) (l_x x q)) /\ is_max (fun i => sp_h (stars i)) l (l_h x).
Lemma max_app : forall h l1 l2 h1 h2, is_max h l1 h1 -> is_max h l2 h2 -> is_max h (l1 ++ l2) (Rmax h1 h2).
Proof.
  intros h l1 l2 h1 h2 (A1 & i1 & I1 & E1) (A2 & i2 & I2 & E2). split.
  - intros i Hi. apply in_app_or in Hi. destruct Hi as [Hi|Hi]; [specialize (A1 i Hi)|specialize (A2 i Hi)]; [eapply Rle_trans; [exact A1|apply Rmax_l]|eapply Rle_trans; [exact A2|apply Rmax_r]].
  - destruct (Rle_dec h1 h2).
    + exists i2. split; [apply in_or_app; now right|]. rewrite Rmax_right by assumption. exact E2.
    + exists i1. split; [apply in_or_app; now left|]. rewrite Rmax_left by lra. exact E1.
Qed.
Lemma merge_ok : forall c a b xa xb la lb, (N <= c)%nat -> child T c = Some (a, b) -> cellok a xa la -> cellok b xb lb -> cellok c (merge xa xb) (la ++ lb) /\ tosum (merge xa xb) xa xb.
Proof.
  intros c a b xa xb la lb Hc Hch (A1 & A2 & A3 & A4) (B1 & B2 & B3 & B4). split.
  - split; [econstructor; eauto|]. cbn [merge l_m l_x l_h]. split; [lra|]. split; [|apply max_app; assumption].
    intros q. destruct (A3 q) as (EA & FA). destruct (B3 q) as (EB & FB). split; [rewrite lsum_app, <- EA, <- EB; reflexivity|].
    intros k. rewrite lsum_app, <- FA, <- FB. field. lra.
  - split; [reflexivity|]. intros q k. cbn [merge l_m l_x]. field. lra.
Qed.

(** What is known of a system and of an orbit that have been recorded. *)
Definition pairpot (ys : list sysp) (p : ent * ent) : R :=
  ent_m ys (fst p) * ent_m ys (snd p) / (sqrt (dot ndim (vsub (ent_x ys (fst p) Qr) (ent_x ys (snd p) Qr)) (vsub (ent_x ys (fst p) Qr) (ent_x ys (snd p) Qr))) + small_number_dp).
Definition sysok (ys : list sysp) (s : nat) (y : sysp) : Prop :=
  exists l ls, emade ys (ESys s) l /\ holds (child T) N (y_inode y) l /\ (N <= y_inode y < n)%nat /\ (2 <= length (y_children y) <= Ncompmax)%nat /\ y_Ncomp y = length (y_children y) /\
    Forall2 (Rel ys) (y_children y) ls /\ l = concat ls /\
    (forall e, In e (y_children y) -> match e with ESys s' => (s' < s)%nat | EStar _ => True end) /\
    (forall q, is_sum m (sx q) l (y_m y) (y_x y q)) /\ is_max (fun i => sp_h (stars i)) l (y_h y) /\
    y_gpei y = lsum (pairpot ys) (pairs (y_children y)) /\
    (let E := lsum pot l - lsum (ein ys) (y_children y) in Rabs (E - y_gpei y) < gpesoft * E) /\
    y_dt y = sqrt (y_m y ^ 2 / y_gpei y) / sqrt (2 * lsum (fun e => 1 / 2 * ent_m ys e * dot ndim (vsub (ent_x ys e Qv) (y_x y Qv)) (vsub (ent_x ys e Qv) (y_x y Qv))) (y_children y) / y_m y).
Definition orbok (o : orb) : Prop :=
  exists la lb m1 m2 r1 v1 r2 v2, holds (child T) N (o_c1 o) la /\ holds (child T) N (o_c2 o) lb /\ (exists c, child T c = Some (o_c1 o, o_c2 o)) /\
    0 < m1 /\ 0 < m2 /\
    is_sum m (sx Qr) la m1 r1 /\ is_sum m (sx Qv) la m1 v1 /\ is_sum m (sx Qr) lb m2 r2 /\ is_sum m (sx Qv) lb m2 v2 /\
    kepler ndim small_number_dp m1 m2 r1 v1 r2 v2 (o_m o) (o_r o) (o_v o) (o_binen o) (o_sma o) (o_period o) (o_ecc o) (o_q o) /\
    (ndim = 3%nat -> forall k, (k < 3)%nat -> o_angmom o k = m1 * m2 / (m1 + m2) * cross3 (vsub r1 r2) (vsub v1 v2) k) /\
    (ndim = 2%nat -> o_angmom o 2%nat = m1 * m2 / (m1 + m2) * cross3 (vsub r1 r2) (vsub v1 v2) 2%nat) /\
    (o_type o = Binary <-> length la = 1%nat /\ length lb = 1%nat) /\ (o_type o = Quadruple <-> (2 <= length la)%nat /\ (2 <= length lb)%nat).

Lemma fold_sum : forall (A : Type) (f : A -> R) l a, fold_left (fun s e => s + f e) l a = a + lsum f l.
Proof. intros A f l. induction l as [|x l IH]; intros a; cbn; [lra|]. rewrite IH. lra. Qed.
Lemma ketot_is : forall ys v l, ketot ndim stars ys v l = lsum (fun e => 1 / 2 * ent_m ys e * dot ndim (vsub (ent_x ys e Qv) v) (vsub (ent_x ys e Qv) v)) l.
Proof. intros. unfold ketot. rewrite (fold_sum _ (fun e => 1 / 2 * ent_m ys e * dot ndim (vsub (ent_x ys e Qv) v) (vsub (ent_x ys e Qv) v))). lra. Qed.
Lemma vsub_sq : forall x y, dot ndim (vsub x y) (vsub x y) = dot ndim (vsub y x) (vsub y x).
Proof. intros. unfold dot, vsub. apply sumf_ext. intros; ring. Qed.
Lemma pair_gpe_is : forall ys l g, pair_gpe ndim stars ys l g = g + lsum (pairpot ys) (pairs l).
Proof.
  intros ys l. induction l as [|e l IH]; intros g; cbn [pair_gpe pairs]; [cbn; lra|]. rewrite IH, lsum_app, lsum_map.
  rewrite (fold_sum _ (fun f => ent_m ys e * ent_m ys f * (1 / (sqrt (dot ndim (vsub (ent_x ys f Qr) (ent_x ys e Qr)) (vsub (ent_x ys f Qr) (ent_x ys e Qr))) + small_number_dp)))).
  rewrite (lsum_ext _ _ (fun f => pairpot ys (e, f)) l); [lra|]. intros f _. unfold pairpot. cbn [fst snd]. rewrite (vsub_sq (ent_x ys e Qr)). unfold Rdiv. ring.
Qed.
Lemma add_orbit_ok : forall c a b x xa xb la lb os, child T c = Some (a, b) -> (N <= c < n)%nat -> cellok a xa la -> cellok b xb lb -> tosum x xa xb -> (length os < Norbmax)%nat ->
  exists os', add_orbit ndim Norbmax a b N x xa xb os = Ok os' /\ (length os' <= S (length os))%nat /\ forall o, In o os' -> In o os \/ orbok o.
Proof.
  intros c a b x xa xb la lb os Hch Hc (A1 & A2 & A3 & A4) (B1 & B2 & B3 & B4) TS HL. unfold add_orbit.
  destruct (Nat.eqb (l_comp x) 2); [|exists os; split; [reflexivity|split; [lia|auto]]].
  rewrite (proj2 (Nat.ltb_lt _ _) HL). destruct (ComputeNewBinaryOrbit ndim a b N x xa xb) as [o|] eqn:E; [|exists os; split; [reflexivity|split; [lia|auto]]].
  exists (os ++ [o]). split; [reflexivity|]. rewrite app_length. cbn. split; [lia|]. intros o' Ho. apply in_app_or in Ho. destruct Ho as [Ho|[<-|[]]]; [now left|right].
  destruct (orbit_ok ndim Hdim _ _ _ _ _ _ _ A2 B2 TS E) as (E1 & E2 & HK & H3 & H2 & HT1 & HT2).
  exists la, lb, (l_m xa), (l_m xb), (l_x xa Qr), (l_x xa Qv), (l_x xb Qr), (l_x xb Qv). rewrite E1, E2.
  assert (LEN : forall d l, holds (child T) N d l -> (d < n)%nat -> ((d < N)%nat <-> length l = 1%nat) /\ ((N <= d)%nat <-> (2 <= length l)%nat)).
  { intros d l H Hd. inversion H as [d' Hd'|d' a' b' la' lb' Hd' Hch' H1' H2']; subst.
    - cbn. split; split; intros; lia.
    - pose proof (proj2 (holds_ok _ _ _ _ H1')). pose proof (proj2 (holds_ok _ _ _ _ H2')). rewrite app_length. split; split; intros; lia. }
  destruct (node_kids ndim N r T n G c Hc) as (a' & b' & _ & _ & _ & La & Lb & _ & _ & Hch'). rewrite Hch in Hch'. injection Hch' as <- <-.
  destruct (LEN a la A1 ltac:(lia)) as (LA & LA'). destruct (LEN b lb B1 ltac:(lia)) as (LB & LB').
  repeat (split; [first [assumption | apply A3 | apply B3 | (exists c; exact Hch)]|]). split; [rewrite HT1, LA, LB; tauto|rewrite HT2, LA', LB'; tauto].
Qed.

(** ** The invariant of the loop over the nodes *)
Record Inv (c : nat) (b : bst) (ls : nat -> list (list nat)) (nbl : list (list nat)) : Prop := mkInv {
  i_cell : forall i, In i (pend T c) -> (exists l, cellok i (b_cell b i) l) /\ (1 <= l_comp (b_cell b i))%nat /\
             ((Ncompmax < l_comp (b_cell b i))%nat -> l_list (b_cell b i) = []) /\
             ((l_comp (b_cell b i) <= Ncompmax)%nat -> length (l_list (b_cell b i)) = l_comp (b_cell b i) /\ holds (child T) N i (concat (ls i)) /\
                l_gpe (b_cell b i) = lsum pot (concat (ls i)) - lsum (ein (b_sys b)) (l_list (b_cell b i))) /\
             Forall2 (Rel (b_sys b)) (l_list (b_cell b i)) (ls i);
  i_nb : Forall2 (Rel (b_sys b)) (b_nbody b) nbl;
  i_perm : Permutation (concat nbl ++ concat (map (fun i => concat (ls i)) (pend T c))) (seq 0 N);
  i_sys : (length (b_sys b) <= c - N)%nat;
  i_orb : (length (b_orb b) <= length (b_sys b))%nat;
  i_sysok : forall s y, nth_error (b_sys b) s = Some y -> sysok (b_sys b) s y;
  i_orbok : forall o, In o (b_orb b) -> orbok o }.

Lemma pairpot_app : forall ys y p, known ys (fst p) -> known ys (snd p) -> pairpot (ys ++ [y]) p = pairpot ys p.
Proof. intros ys y [e f] H1 H2. unfold pairpot. cbn [fst snd] in *. destruct (ent_app ys y e Qr H1) as (-> & ->). destruct (ent_app ys y f Qr H2) as (-> & ->). reflexivity. Qed.
Lemma in_pairs : forall (A : Type) (l : list A) p, In p (pairs l) -> In (fst p) l /\ In (snd p) l.
Proof. intros A l. induction l as [|x l IH]; intros p Hp; [destruct Hp|]. cbn in Hp. apply in_app_or in Hp. destruct Hp as [Hp|Hp]; [apply in_map_iff in Hp; destruct Hp as (y & <- & Hy); cbn; auto|destruct (IH p Hp); cbn; auto]. Qed.
Lemma sysok_mono : forall ys y s z, sysok ys s z -> sysok (ys ++ [y]) s z.
Proof.
  intros ys y s z (l & ls & H1 & H2 & H3 & H4 & H5 & H6 & H7 & H8 & H9 & H10 & H11 & H12 & H13). exists l, ls. pose proof (Rel_list_known _ _ _ H6) as K.
  split; [apply emade_mono, H1|]. split; [exact H2|]. split; [exact H3|]. split; [exact H4|]. split; [exact H5|]. split; [apply Rel_list_mono, H6|]. split; [exact H7|]. split; [exact H8|]. split; [exact H9|]. split; [exact H10|].
  split; [rewrite H11; symmetry; apply lsum_ext; intros p Hp; apply in_pairs in Hp; apply pairpot_app; apply K; tauto|].
  split; [cbv zeta; rewrite (ein_list_app ys y (y_children z) ls H6); exact H12|].
  rewrite H13. do 4 f_equal. symmetry. apply lsum_ext. intros e He. destruct (ent_app ys y e Qv (K e He)) as (-> & ->). reflexivity.
Qed.
Lemma perm_step : forall (A : Type) (X E : list A) (K K' : nat -> list A) S p c a b rest, Permutation p (a :: b :: rest) -> Permutation (X ++ concat (map K p)) S ->
  (forall i, In i rest -> K' i = K i) -> Permutation (E ++ K' c) (K a ++ K b) -> Permutation ((X ++ E) ++ concat (map K' (rest ++ [c]))) S.
Proof.
  intros A X E K K' S p c a b rest HP HS HK HE. etransitivity; [|exact HS]. rewrite <- app_assoc. apply Permutation_app_head.
  etransitivity; [|apply Permutation_sym, (concat_map_perm K _ _ HP)]. cbn. rewrite map_app, concat_app. cbn. rewrite app_nil_r, (map_ext_in K' K rest HK).
  rewrite (app_assoc (K a)), <- HE, <- app_assoc. apply Permutation_app_head. apply Permutation_app_comm.
Qed.
Lemma Inv_cover : forall c b ls nbl l, Inv c b ls nbl -> (forall i, In i l -> In i (pend T c)) -> NoDup l -> (length (b_nbody b) + length (concat (map (fun i => l_list (b_cell b i)) l)) <= N)%nat.
Proof.
  intros c b ls nbl l I HL ND. pose proof (Permutation_length (i_perm _ _ _ _ I)) as PL. rewrite seq_length, app_length in PL. pose proof (Rel_list_len _ _ _ (i_nb _ _ _ _ I)) as LN.
  assert (H1 : (length (concat (map (fun i => l_list (b_cell b i)) l)) <= length (concat (map (fun i => concat (ls i)) l)))%nat).
  { clear ND. induction l as [|i l IH]; [cbn; lia|]. cbn. rewrite !app_length. specialize (IH ltac:(intros; apply HL; now right)). destruct (i_cell _ _ _ _ I i ltac:(apply HL; now left)) as (_ & _ & _ & _ & F). apply Rel_list_len in F. lia. }
  assert (H2 : (length (concat (map (fun i => concat (ls i)) l)) <= length (concat (map (fun i => concat (ls i)) (pend T c))))%nat).
  { generalize (pend T c) HL. clear -ND. intros p HL. revert p HL. induction l as [|i l IH]; intros p HL; [cbn; lia|]. inversion ND; subst. destruct (in_split i p (HL i ltac:(now left))) as (p1 & p2 & ->).
    specialize (IH H2 (p1 ++ p2)). rewrite map_app, concat_app, app_length in *. cbn. rewrite !app_length. enough (length (concat (map (fun i => concat (ls i)) l)) <= length (concat (map (fun i => concat (ls i)) p1)) + length (concat (map (fun i => concat (ls i)) p2)))%nat by lia.
    apply IH. intros j Hj. assert (j <> i) by (intros ->; contradiction). specialize (HL j ltac:(now right)). apply in_app_or in HL. apply in_or_app. destruct HL as [?|[?|?]]; [now left|congruence|now right]. }
  lia.
Qed.

Lemma cellok_ext : forall c x y l, l_m x = l_m y -> l_x x = l_x y -> l_h x = l_h y -> cellok c x l -> cellok c y l.
Proof. intros c x y l E1 E2 E3 H. unfold cellok in *. rewrite <- E1, <- E2, <- E3. exact H. Qed.
Lemma putc_same : forall f c x, putc f c x c = x.
Proof. intros. unfold putc. now rewrite Nat.eqb_refl. Qed.
Lemma putc_other : forall f c x i, i <> c -> putc f c x i = f i.
Proof. intros. unfold putc. destruct (Nat.eqb_spec i c); [congruence|reflexivity]. Qed.
(** Cells that stay pending keep what is known of them. *)
Definition cell_inv (ys : list sysp) (ls : nat -> list (list nat)) (i : nat) (x : cell) : Prop :=
  (exists l, cellok i x l) /\ (1 <= l_comp x)%nat /\ ((Ncompmax < l_comp x)%nat -> l_list x = []) /\
  ((l_comp x <= Ncompmax)%nat -> length (l_list x) = l_comp x /\ holds (child T) N i (concat (ls i)) /\ l_gpe x = lsum pot (concat (ls i)) - lsum (ein ys) (l_list x)) /\
  Forall2 (Rel ys) (l_list x) (ls i).
Lemma cell_inv_mono : forall ys y ls ls' i x, ls' i = ls i -> cell_inv ys ls i x -> cell_inv (ys ++ [y]) ls' i x.
Proof.
  intros ys y ls ls' i x E (H1 & H2 & H3 & H4 & H5). unfold cell_inv. rewrite E. split; [exact H1|]. split; [exact H2|]. split; [exact H3|]. split; [|apply Rel_list_mono, H5].
  intros H. destruct (H4 H) as (A & B & C). split; [exact A|]. split; [exact B|]. rewrite (ein_list_app ys y _ _ H5). exact C.
Qed.
Lemma cell_inv_ext : forall ys ls ls' i x, ls' i = ls i -> cell_inv ys ls i x -> cell_inv ys ls' i x.
Proof. intros ys ls ls' i x E H. unfold cell_inv in *. rewrite E. exact H. Qed.
Lemma step : forall c b ls nbl, (N <= c < n)%nat -> Inv c b ls nbl -> exists b' ls' nbl', build_node c b = Ok b' /\ Inv (S c) b' ls' nbl'.
Proof.
  intros c b ls nbl Hc I. destruct (node_kids ndim N r T n G c Hc) as (a & d & Ea & Ed & Had & La & Ld & Pa & Pd & Hch).
  destruct (pend_step ndim N r T n G c a d Hc Ea Ed) as (rest & P1 & P2 & P3).
  assert (Ia : In a (pend T c)) by (apply (Permutation_in a (Permutation_sym P1)); now left).
  assert (Id : In d (pend T c)) by (apply (Permutation_in d (Permutation_sym P1)); right; now left).
  assert (Ir : forall i, In i rest -> In i (pend T c)) by (intros i Hi; apply (Permutation_in i (Permutation_sym P1)); right; now right).
  pose proof I as [Icell Inb Iperm Isys Iorb Isysok Iorbok].
  destruct (Icell a Ia) as ((la & OA) & CA & EA & LA & FA). destruct (Icell d Id) as ((ld & OD) & CD & ED & LD & FD).
  unfold build_node. destruct (Nat.ltb_spec c N); [lia|]. rewrite Ea, Ed. cbv zeta.
  set (x1 := b_cell b a) in *. set (x2 := b_cell b d) in *.
  destruct (merge_ok c a d x1 x2 la ld ltac:(lia) Hch OA OD) as (MO & MS). set (x := merge x1 x2) in *.
  assert (CX : l_comp x = (l_comp x1 + l_comp x2)%nat) by reflexivity. assert (GX : l_gpe x = l_gpe x1 + l_gpe x2) by reflexivity. clearbody x.
  destruct (Nat.leb_spec (l_comp x) Ncompmax) as [LE|GT].
  - (* the lists of the children are merged *)
    destruct (LA ltac:(lia)) as (L1 & HH1 & GP1). destruct (LD ltac:(lia)) as (L2 & HH2 & GP2).
    assert (LEN : length (l_list x1 ++ l_list x2) = l_comp x) by (rewrite app_length; lia). set (l := l_list x1 ++ l_list x2) in *.
    assert (FL : Forall2 (Rel (b_sys b)) l (ls a ++ ls d)) by (apply Forall2_app; assumption).
    assert (HL : holds (child T) N c (concat (ls a ++ ls d))) by (rewrite concat_app; eapply holds_node; eauto; lia).
    assert (GL : l_gpe x = lsum pot (concat (ls a ++ ls d)) - lsum (ein (b_sys b)) l) by (unfold l; rewrite concat_app, !lsum_app, GX, GP1, GP2; ring).
    destruct (Nat.ltb_spec Ncompmax (length l)); [lia|].
    set (gi := pair_gpe ndim stars (b_sys b) l 0). set (tc := sqrt (l_m x * l_m x / gi) / sqrt (2 * ketot ndim stars (b_sys b) (l_x x Qv) l / l_m x)).
    cbn [l_gpe l_m l_h l_x l_comp l_list l_tcross l_gpei].
    destruct (rltb (Rabs (l_gpe x - gi)) (gpesoft * l_gpe x)) eqn:EF.
    + (* a new system *)
      apply rltb_true in EF. destruct (Nat.ltb_spec (length (b_sys b)) Nsysmax); [|lia].
      assert (TS : tosum (mkcell (l_m x) (l_h x) (l_gpe x) gi tc (l_comp x) (l_x x) l) x1 x2) by exact MS.
      destruct (add_orbit_ok c a d _ x1 x2 la ld (b_orb b) Hch Hc OA OD TS ltac:(lia)) as (os & EO & LO & OO). rewrite EO. cbn [bind]. clear EO.
      set (y := mksys c tc (l_m x) (l_h x) gi (l_x x) (l_comp x) l). set (ys := b_sys b) in *.
      set (x' := mkcell (l_m x) (l_h x) (l_gpe x - gi) 0 tc 1 (l_x x) [ESys (length ys)]).
      set (ls' := fun i => if Nat.eqb i c then [concat (ls a ++ ls d)] else ls i).
      exists (mkbst (putc (b_cell b) c x') (ys ++ [y]) (b_nbody b) os), ls', nbl. split; [reflexivity|].
      assert (EQl : la ++ ld = concat (ls a ++ ls d)) by (destruct MO as (MO & _); eapply holds_fun; eauto).
      assert (SUM : forall q, is_sum m (sx q) (concat (ls a ++ ls d)) (l_m x) (l_x x q)) by (rewrite <- EQl; apply MO).
      assert (NE : concat (ls a ++ ls d) <> []) by (pose proof (proj2 (holds_ok _ _ _ _ HL)) as Q; intro Z; rewrite Z in Q; cbn in Q; lia).
      assert (MADE : emade (ys ++ [y]) (ESys (length ys)) (concat (ls a ++ ls d))).
      { apply (made_parts _ _ _ l); [reflexivity| |].
        - cbn. rewrite nth_error_app2, Nat.sub_diag by lia. reflexivity.
        - exact (Rel_list_made ys y l _ FL). }
      assert (NTH : nth_error (ys ++ [y]) (length ys) = Some y) by (rewrite nth_error_app2, Nat.sub_diag by lia; reflexivity).
      assert (RY : Rel (ys ++ [y]) (ESys (length ys)) (concat (ls a ++ ls d))).
      { split; [exact MADE|]. split; [exact NE|]. intros q. cbn. rewrite NTH. apply SUM. }
      constructor; cbn [b_cell b_sys b_nbody b_orb].
      * intros i Hi. rewrite P2 in Hi. apply in_app_or in Hi. destruct Hi as [Hi|[<-|[]]].
        -- destruct (P3 i Hi) as (Li & _). rewrite putc_other by lia. apply (cell_inv_mono ys y ls ls'); [unfold ls'; destruct (Nat.eqb_spec i c); [lia|reflexivity]|]. exact (Icell i (Ir i Hi)).
        -- rewrite putc_same. unfold x'. cbn [l_comp l_list l_gpe]. split; [exists (la ++ ld); eapply cellok_ext; [..|exact MO]; reflexivity|]. split; [lia|]. split; [unfold Ncompmax; lia|].
           unfold ls'. rewrite Nat.eqb_refl. cbn [concat]. rewrite app_nil_r. split; [|constructor; [exact RY|constructor]].
           intros _. split; [reflexivity|]. split; [exact HL|]. cbn [lsum]. rewrite (ein_last ys y). cbn [y_gpei y_children y]. rewrite GL. ring.
      * apply Rel_list_mono, Inb.
      * rewrite P2. rewrite <- (app_nil_r (concat nbl)). apply (perm_step nat (concat nbl) [] (fun i => concat (ls i)) (fun i => concat (ls' i)) _ _ c a d rest P1 Iperm).
        -- intros i Hi. destruct (P3 i Hi) as (Li & _). unfold ls'. destruct (Nat.eqb_spec i c); [lia|reflexivity].
        -- unfold ls'. rewrite Nat.eqb_refl. cbn. rewrite app_nil_r, concat_app. apply Permutation_refl.
      * rewrite app_length. cbn [length]. lia.
      * rewrite app_length. cbn [length]. lia.
      * intros s z Hz. destruct (Nat.lt_ge_cases s (length ys)) as [Ls|Ls].
        -- rewrite nth_error_app1 in Hz by exact Ls. apply sysok_mono. apply Isysok, Hz.
        -- assert (s = length ys) as ->. { assert (s < length (ys ++ [y]))%nat by (apply nth_error_Some; congruence). rewrite app_length in *. cbn in *. lia. }
           rewrite NTH in Hz. injection Hz as <-. exists (concat (ls a ++ ls d)), (ls a ++ ls d). unfold y. cbn [y_inode y_children y_Ncomp y_m y_x y_h y_gpei y_dt]. fold y. pose proof (Rel_list_known _ _ _ FL) as K.
           split; [exact MADE|]. split; [exact HL|]. split; [exact Hc|]. split; [lia|]. split; [lia|]. split; [apply Rel_list_mono, FL|]. split; [reflexivity|].
           split; [intros e He; specialize (K e He); destruct e; [exact Logic.I|exact K]|]. split; [exact SUM|]. split; [rewrite <- EQl; apply MO|].
           split; [unfold gi; rewrite pair_gpe_is, Rplus_0_l; symmetry; apply lsum_ext; intros p Hp; apply in_pairs in Hp; apply pairpot_app; apply K; tauto|].
           split; [cbv zeta; rewrite (ein_list_app ys y l _ FL), <- GL; exact EF|].
           unfold tc. rewrite ketot_is. replace (l_m x ^ 2) with (l_m x * l_m x) by ring. do 4 f_equal. symmetry. apply lsum_ext. intros e He. destruct (ent_app ys y e Qv (K e He)) as (-> & ->). reflexivity.
      * intros o Ho. destruct (OO o Ho); auto.
    + (* no system, the list is kept *)
      set (x' := mkcell (l_m x) (l_h x) (l_gpe x) gi tc (l_comp x) (l_x x) l).
      set (ls' := fun i => if Nat.eqb i c then ls a ++ ls d else ls i).
      exists (mkbst (putc (b_cell b) c x') (b_sys b) (b_nbody b) (b_orb b)), ls', nbl. split; [reflexivity|]. constructor; cbn [b_cell b_sys b_nbody b_orb]; auto; try lia.
      * intros i Hi. rewrite P2 in Hi. apply in_app_or in Hi. destruct Hi as [Hi|[<-|[]]].
        -- destruct (P3 i Hi) as (Li & _). rewrite putc_other by lia. apply (cell_inv_ext (b_sys b) ls ls'); [unfold ls'; destruct (Nat.eqb_spec i c); [lia|reflexivity]|]. exact (Icell i (Ir i Hi)).
        -- rewrite putc_same. unfold x'. cbn [l_comp l_list l_gpe]. split; [exists (la ++ ld); eapply cellok_ext; [..|exact MO]; reflexivity|]. split; [lia|]. split; [lia|].
           unfold ls'. rewrite Nat.eqb_refl. split; [|exact FL]. intros _. split; [exact LEN|]. split; [exact HL|exact GL].
      * rewrite P2. rewrite <- (app_nil_r (concat nbl)). apply (perm_step nat (concat nbl) [] (fun i => concat (ls i)) (fun i => concat (ls' i)) _ _ c a d rest P1 Iperm).
        -- intros i Hi. destruct (P3 i Hi) as (Li & _). unfold ls'. destruct (Nat.eqb_spec i c); [lia|reflexivity].
        -- unfold ls'. rewrite Nat.eqb_refl. cbn. rewrite concat_app. apply Permutation_refl.
  - (* the lists of the children go to the main list *)
    pose proof (Inv_cover c b ls nbl [a; d] I) as COV. cbn [map concat] in COV. fold x1 x2 in COV. rewrite app_nil_r, app_length in COV.
    specialize (COV ltac:(intros i [<-|[<-|[]]]; assumption) ltac:(constructor; [intros [?|[]]; congruence|constructor; [intros []|constructor]])).
    unfold flush. rewrite (proj2 (Nat.leb_le _ _)) by lia. cbn [bind]. rewrite app_length. rewrite (proj2 (Nat.leb_le _ _)) by lia. cbn [bind].
    set (f := putc (putc (putc (b_cell b) c (set_list x [])) a (set_list (putc (b_cell b) c (set_list x []) a) [])) d (set_list (putc (putc (b_cell b) c (set_list x [])) a (set_list (putc (b_cell b) c (set_list x []) a) []) d) [])).
    set (ls' := fun i => if Nat.eqb i c then [] else ls i).
    exists (mkbst f (b_sys b) ((b_nbody b ++ l_list x1) ++ l_list x2) (b_orb b)), ls', ((nbl ++ ls a) ++ ls d). split; [reflexivity|].
    constructor; cbn [b_cell b_sys b_nbody b_orb]; auto; try lia.
    + intros i Hi. rewrite P2 in Hi. apply in_app_or in Hi. destruct Hi as [Hi|[<-|[]]].
      * destruct (P3 i Hi) as (Li & Nia & Nid). unfold f. rewrite !putc_other by lia. apply (cell_inv_ext (b_sys b) ls ls'); [unfold ls'; destruct (Nat.eqb_spec i c); [lia|reflexivity]|]. exact (Icell i (Ir i Hi)).
      * unfold f. rewrite !putc_other by lia. rewrite putc_same. unfold ls'. rewrite Nat.eqb_refl. cbn [set_list l_comp l_list l_gpe]. split; [exists (la ++ ld); eapply cellok_ext; [..|exact MO]; reflexivity|].
        split; [lia|]. split; [reflexivity|]. split; [intros; lia|constructor].
    + repeat apply Forall2_app; assumption.
    + rewrite P2, !concat_app, <- (app_assoc (concat nbl)). apply (perm_step nat (concat nbl) (concat (ls a) ++ concat (ls d)) (fun i => concat (ls i)) (fun i => concat (ls' i)) _ _ c a d rest P1 Iperm).
      * intros i Hi. destruct (P3 i Hi) as (Li & _). unfold ls'. destruct (Nat.eqb_spec i c); [lia|reflexivity].
      * unfold ls'. rewrite Nat.eqb_refl. cbn. rewrite app_nil_r. apply Permutation_refl.
Qed.
Lemma start : forall cells, exists b, build_nodes N (mkbst cells [] [] []) = Ok b /\ Inv N b (fun i => [[i]]) [].
Proof.
  intros cells. pose proof (g_low _ _ _ _ _ G) as GL.
  assert (H : forall k, (k <= N)%nat -> exists b, build_nodes k (mkbst cells [] [] []) = Ok b /\ b_sys b = [] /\ b_nbody b = [] /\ b_orb b = [] /\
            forall i, (i < k)%nat -> b_cell b i = set_list (star_cell (n_comp (T i)) (stars i)) [EStar i]).
  { induction k as [|k IH]; intros Hk; [exists (mkbst cells [] [] []); cbn; repeat split; intros; lia|].
    destruct (IH ltac:(lia)) as (b & E & E1 & E2 & E3 & E4). cbn [M_NNTree.build_nodes]. rewrite E. cbn [bind]. unfold build_node. destruct (Nat.ltb_spec k N); [|lia].
    eexists. split; [reflexivity|]. cbn [b_sys b_nbody b_orb b_cell]. repeat split; auto. intros i Hi. unfold putc. destruct (Nat.eqb_spec i k) as [->|]; [reflexivity|apply E4; lia]. }
  destruct (H N ltac:(lia)) as (b & E & E1 & E2 & E3 & E4). exists b. split; [exact E|]. constructor.
  - intros i Hi. rewrite (pend_start ndim N r T n G) in Hi. apply in_seq in Hi. rewrite (E4 i ltac:(lia)), E1. destruct (g_leaf _ _ _ _ _ G i ltac:(lia)) as (_ & _ & -> & _). cbn [set_list star_cell l_comp l_list l_gpe l_m l_x l_h].
    split; [|split; [lia|split; [unfold Ncompmax; lia|split]]].
    + exists [i]. split; [constructor; lia|]. cbn. split; [apply Hpos; lia|]. split; [intros q; split; [cbn; unfold m; lra|intros k; cbn; unfold m, sx; lra]|]. split; [intros j [<-|[]]; lra|]. exists i. split; [now left|reflexivity].
    + intros _. split; [reflexivity|]. split; [constructor; lia|]. cbn. unfold pot, ein, ein_of. lra.
    + constructor; [|constructor]. split; [constructor; reflexivity|]. split; [discriminate|]. intros q. split; [cbn; unfold m; lra|intros k; cbn; unfold m, sx; lra].
  - rewrite E2. constructor.
  - cbn. rewrite (pend_start ndim N r T n G). assert (EE : forall l : list nat, concat (map (fun i => concat [[i]]) l) = l) by (induction l; cbn in *; congruence). cbn in EE. rewrite EE. apply Permutation_refl.
  - rewrite E1. cbn. lia.
  - rewrite E3. cbn. lia.
  - intros s y Hy. rewrite E1 in Hy. destruct s; discriminate.
  - intros o Ho. rewrite E3 in Ho. destruct Ho.
Qed.
Lemma run : forall cells c, (N <= c <= n)%nat -> exists b ls nbl, build_nodes c (mkbst cells [] [] []) = Ok b /\ Inv c b ls nbl.
Proof.
  intros cells c (H1 & H2). induction H1 as [|c H1 IH].
  - destruct (start cells) as (b & E & I). eauto.
  - destruct (IH ltac:(lia)) as (b & ls & nbl & E & I). destruct (step c b ls nbl ltac:(lia) I) as (b' & ls' & nbl' & E' & I'). exists b', ls', nbl'. split; [cbn [M_NNTree.build_nodes]; rewrite E; exact E'|exact I'].
Qed.
Lemma build_unfold : forall k cells, (0 < k)%nat -> BuildSubSystems ndim stars T N Nsysmax Nnbmax Norbmax gpesoft k cells =
  (let! b := build_nodes k (mkbst cells [] [] []) in let! nb := flush Nnbmax (l_list (b_cell b (k - 1))) (b_nbody b) in Ok (mkbst (b_cell b) (b_sys b) nb (b_orb b))).
Proof. intros [|k] cells Hk; [lia|]. unfold BuildSubSystems. replace (S k - 1)%nat with k by lia. reflexivity. Qed.
Lemma build_ok : (1 <= N)%nat -> n = (2 * N - 1)%nat -> forall cells, exists b nbl, BuildSubSystems ndim stars T N Nsysmax Nnbmax Norbmax gpesoft n cells = Ok b /\
  Forall2 (Rel (b_sys b)) (b_nbody b) nbl /\ Permutation (concat nbl) (seq 0 N) /\ (length (b_nbody b) <= N)%nat /\ (length (b_sys b) <= N - 1)%nat /\ (length (b_orb b) <= length (b_sys b))%nat /\
  (forall s y, nth_error (b_sys b) s = Some y -> sysok (b_sys b) s y) /\ (forall o, In o (b_orb b) -> orbok o).
Proof.
  intros HN En cells. destruct (run cells n) as (b & ls & nbl & E & I); [lia|]. pose proof I as [Icell Inb Iperm Isys Iorb Isysok Iorbok]. rewrite (pend_end ndim N r T n G HN En) in *.
  rewrite build_unfold, E by lia. cbn [bind]. set (c := (n - 1)%nat) in *.
  pose proof (Inv_cover _ b ls nbl [c] I) as COV. cbn [map concat] in COV. rewrite app_nil_r in COV.
  specialize (COV ltac:(intros i [<-|[]]; rewrite (pend_end ndim N r T n G HN En); now left) ltac:(constructor; [intros []|constructor])).
  unfold flush. rewrite (proj2 (Nat.leb_le _ _)) by lia. cbn [bind]. destruct (Icell c ltac:(now left)) as (_ & _ & _ & _ & FC).
  exists (mkbst (b_cell b) (b_sys b) (b_nbody b ++ l_list (b_cell b c)) (b_orb b)), (nbl ++ ls c). split; [reflexivity|]. cbn [b_nbody b_sys b_orb].
  split; [apply Forall2_app; assumption|]. split; [rewrite concat_app; cbn in Iperm; rewrite app_nil_r in Iperm; exact Iperm|]. split; [rewrite app_length; lia|]. split; [lia|]. split; [lia|]. auto.
Qed.

(** ** Binary statistics *)
Notation binary_nodes := (binary_nodes ndim stars T N Norbmax gpesoft).
Definition BInv (c : nat) (b : (nat -> cell) * list orb) : Prop :=
  (forall i, In i (pend T c) -> exists l, cellok i (fst b i) l) /\ (length (snd b) <= c - N)%nat /\ (forall o, In o (snd b) -> orbok o).
Lemma bstart : forall cells, exists b, binary_nodes N (cells, []) = Ok b /\ BInv N b.
Proof.
  intros cells. assert (H : forall k, (k <= N)%nat -> exists f, binary_nodes k (cells, []) = Ok (f, []) /\ forall i, (i < k)%nat -> f i = star_cell (n_comp (T i)) (stars i)).
  { induction k as [|k IH]; intros Hk; [exists cells; split; [reflexivity|intros; lia]|]. destruct (IH ltac:(lia)) as (f & E & E4). cbn [M_NNTree.binary_nodes]. rewrite E. cbn [bind binary_node]. destruct (Nat.ltb_spec k N); [|lia].
    eexists. split; [reflexivity|]. intros i Hi. unfold putc. destruct (Nat.eqb_spec i k) as [->|]; [reflexivity|apply E4; lia]. }
  destruct (H N ltac:(lia)) as (f & E & E4). exists (f, []). split; [exact E|]. split; [|split; [cbn; lia|intros o []]].
  intros i Hi. rewrite (pend_start ndim N r T n G) in Hi. apply in_seq in Hi. cbn [fst]. rewrite E4 by lia. exists [i]. split; [constructor; lia|]. cbn. split; [apply Hpos; lia|]. split; [intros q; split; [cbn; unfold m; lra|intros k; cbn; unfold m, sx; lra]|]. split; [intros j [<-|[]]; lra|]. exists i. split; [now left|reflexivity].
Qed.
Lemma bstep : forall c b, (N <= c < n)%nat -> BInv c b -> exists b', binary_node ndim stars T N Norbmax gpesoft c b = Ok b' /\ BInv (S c) b'.
Proof.
  intros c [f os] Hc (HC & HL & HO). cbn [fst snd] in *. destruct (node_kids ndim N r T n G c Hc) as (a & d & Ea & Ed & Had & La & Ld & Pa & Pd & Hch).
  destruct (pend_step ndim N r T n G c a d Hc Ea Ed) as (rest & P1 & P2 & P3).
  assert (Ia : In a (pend T c)) by (apply (Permutation_in a (Permutation_sym P1)); now left).
  assert (Id : In d (pend T c)) by (apply (Permutation_in d (Permutation_sym P1)); right; now left).
  assert (Ir : forall i, In i rest -> In i (pend T c)) by (intros i Hi; apply (Permutation_in i (Permutation_sym P1)); right; now right).
  destruct (HC a Ia) as (la & OA). destruct (HC d Id) as (ld & OD).
  unfold binary_node. destruct (Nat.ltb_spec c N); [lia|]. rewrite Ea, Ed. cbv zeta.
  set (x1 := f a) in *. set (x2 := f d) in *.
  destruct (merge_ok c a d x1 x2 la ld ltac:(lia) Hch OA OD) as (MO & MS). set (x := merge x1 x2) in *. clearbody x.
  assert (REST : forall x' os', l_m x = l_m x' -> l_x x = l_x x' -> l_h x = l_h x' -> (length os' <= S (length os))%nat -> (forall o, In o os' -> orbok o) -> BInv (S c) (putc f c x', os')).
  { intros x' os' E1 E2 E3 L' O'. split; [|split; [cbn [snd]; lia|exact O']]. cbn [fst]. intros i Hi. rewrite P2 in Hi. apply in_app_or in Hi. destruct Hi as [Hi|[<-|[]]].
    - destruct (P3 i Hi) as (Li & _). rewrite putc_other by lia. auto.
    - rewrite putc_same. exists (la ++ ld). eapply cellok_ext; [..|exact MO]; assumption. }
  destruct (Nat.leb_spec (l_comp x) Ncompmax) as [LE|GT].
  - set (gi := 0 + _). cbn [l_gpe l_m l_h l_x l_comp]. destruct (rltb (Rabs (l_gpe x - gi)) (gpesoft * l_gpe x)) eqn:EF.
    + destruct (add_orbit_ok c a d x x1 x2 la ld os Hch Hc OA OD MS ltac:(lia)) as (os' & EO & LO & OO). rewrite EO. cbn [bind].
      eexists. split; [reflexivity|]. apply REST; auto. intros o Ho. destruct (OO o Ho); auto.
    + eexists. split; [reflexivity|]. apply REST; auto.
  - eexists. split; [reflexivity|]. apply REST; auto.
Qed.
Lemma binary_ok : (1 <= N)%nat -> n = (2 * N - 1)%nat -> forall cells, exists f os, FindBinarySystems ndim stars T N Norbmax gpesoft n cells = Ok (f, os) /\ (length os <= N - 1)%nat /\ forall o, In o os -> orbok o.
Proof.
  intros HN En cells. assert (H : forall c, (N <= c <= n)%nat -> exists b, binary_nodes c (cells, []) = Ok b /\ BInv c b).
  { intros c (H1 & H2). induction H1 as [|c H1 IH]; [apply bstart|]. destruct (IH ltac:(lia)) as (b & E & I). destruct (bstep c b ltac:(lia) I) as (b' & E' & I'). exists b'. split; [cbn [M_NNTree.binary_nodes]; rewrite E; exact E'|exact I']. }
  destruct (H n ltac:(lia)) as ([f os] & E & (_ & HL & HO)). exists f, os. split; [exact E|]. cbn in HL. split; [lia|exact HO].
Qed.
End Sub.
