(** Exchanges of the meshless finite-volume scheme. *)
From Verif Require Import Prelude L_Prelude Vec M_Box M_Mfv S_Stock S_Mfv L_Stock L_Sink L_Force2.
From Coq Require Import Reals Lra.
Local Open Scope R_scope.

(** A component of the sums kept for a particle. *)
Inductive cmp := CQ (k : nat) | CT (k : nat) | CR (k : nat).
Definition get (c : cmp) (x : acc) : R := match c with CQ k => q_dQ x k | CT k => q_dQdt x k | CR k => q_rd x k end.
Definition on (c : cmp) (b : bool) : bool := match c with CT _ => b | _ => true end.

Lemma get_add : forall c b x y, get c (acc_add b x y) = get c x + (if on c b then get c y else 0).
Proof. intros [k|k|k] [] x y; cbn; try reflexivity; ring. Qed.
Lemma get0 : forall c, get c acc0 = 0.
Proof. now intros []. Qed.
Lemma on_true : forall c, on c true = true.
Proof. now intros []. Qed.

(** Component of an entry, 0 outside. *)
Definition at_ (c : cmp) (l : list acc) (t : Z) : R := match aget l t with Ok x => get c x | _ => 0 end.
Lemma at_aget : forall c l t x, aget l t = Ok x -> at_ c l t = get c x.
Proof. intros c l t x H. unfold at_. now rewrite H. Qed.
Lemma at_aset : forall c l i x l' t, aset l i x = Ok l' -> at_ c l' t = if (i =? t)%Z then get c x else at_ c l t.
Proof.
  intros c l i x l' t H. destruct (aset_Ok_inv _ _ _ _ H) as (Hi & ->). unfold at_.
  destruct (Z.eqb_spec i t) as [->|N].
  - now rewrite aget_upd_eq.
  - now rewrite aget_upd_ne by lia.
Qed.
Lemma at_zero : forall c {A} (l : list A) t, at_ c (map (fun _ => acc0) l) t = 0.
Proof.
  intros c A l t. unfold at_. destruct (aget _ t) as [x| | |] eqn:E; try reflexivity.
  apply aget_Ok_inv in E as (_ & E). apply nth_error_In in E. apply in_map_iff in E as (y & <- & _). apply get0.
Qed.
Lemma aset_ok : forall {A} (l : list A) i x, (0 <= i < zlen l)%Z -> exists l', aset l i x = Ok l' /\ zlen l' = zlen l.
Proof. intros A l i x H. rewrite aset_in by easy. eexists. split; [reflexivity|]. apply zlen_upd. Qed.

Lemma sum_pick : forall (W : nat -> bool) v j n a, lsum (fun s => if W s then (if (j =? Z.of_nat s)%Z then v else 0) else 0) (seq a n) =
  if ((Z.of_nat a <=? j) && (j <? Z.of_nat (a + n)))%Z && W (Z.to_nat j) then v else 0.
Proof.
  intros W v j. induction n as [|n IH]; intros a; cbn [seq lsum].
  - replace ((Z.of_nat a <=? j) && (j <? Z.of_nat (a + 0)))%Z with false by lia. reflexivity.
  - rewrite IH. destruct (Z.eqb_spec j (Z.of_nat a)) as [->|N].
    + rewrite Nat2Z.id. replace ((Z.of_nat (S a) <=? Z.of_nat a) && (Z.of_nat a <? Z.of_nat (S a + n)))%Z with false by lia.
      replace ((Z.of_nat a <=? Z.of_nat a) && (Z.of_nat a <? Z.of_nat (a + S n)))%Z with true by lia. cbn [andb].
      destruct (W a); ring.
    + replace ((Z.of_nat a <=? j) && (j <? Z.of_nat (a + S n)))%Z with ((Z.of_nat (S a) <=? j) && (j <? Z.of_nat (S a + n)))%Z by lia.
      destruct (W a); ring.
Qed.
Lemma lsum_flat_map : forall {A B} (f : B -> R) (g : A -> list B) l, lsum f (flat_map g l) = lsum (fun a => lsum f (g a)) l.
Proof. intros A B f g. induction l as [|a l IH]; cbn; [reflexivity|]. now rewrite lsum_app, IH. Qed.
Lemma lsum_if : forall {A} (b : bool) (f : A -> R) l, (if b then lsum f l else 0) = lsum (fun x => if b then f x else 0) l.
Proof. intros A [] f l; [reflexivity|]. symmetry. now apply lsum_zero. Qed.

Section Mfv.
Variable ndim : nat.
Variables (w0_s2 w1 : R -> R) (limiter : gpart -> gpart -> vec -> (nat -> vec) * vec) (riemann : vec -> vec -> vec -> vec -> nat -> vec)
  (viscous : vec -> vec -> (nat -> vec) -> (nat -> vec) -> (nat -> vec) -> nat -> vec) (staticParticles : bool).
Notation pair_flux := (pair_flux ndim w0_s2 w1 limiter riemann viscous staticParticles).
Notation exchange := (exchange ndim w0_s2 w1 limiter riemann viscous staticParticles).
Notation ComputeGodunovFlux := (ComputeGodunovFlux ndim w0_s2 w1 limiter riemann viscous staticParticles).
Notation cell_loop := (cell_loop ndim w0_s2 w1 limiter riemann viscous staticParticles).
Notation do_cells := (do_cells ndim w0_s2 w1 limiter riemann viscous staticParticles).
Notation all_threads := (all_threads ndim w0_s2 w1 limiter riemann viscous staticParticles).
Notation UpdateGodunovFluxes := (UpdateGodunovFluxes ndim w0_s2 w1 limiter riemann viscous staticParticles).

Definition fl (p q : gpart) (dt : R) (k : nat) : R := match pair_flux p q dt with Some f => f k | None => 0 end.
(** What [p] gains and what [q] gains. *)
Definition out (c : cmp) (p q : gpart) (dt : R) : R :=
  match c with CQ k => - (fl p q dt k * dt) | CT k => - fl p q dt k | CR k => - ((g_r p k - g_r q k) * fl p q dt ndim * dt) end.
Definition inn (c : cmp) (p q : gpart) (dt : R) : R :=
  match c with CQ k => fl p q dt k * dt | CT k => fl p q dt k | CR k => (g_r p k - g_r q k) * fl p q dt ndim * dt end.

Lemma exchange_get : forall c p q dt x y,
  get c (fst (exchange p q dt x y)) = get c x + out c p q dt /\ get c (snd (exchange p q dt x y)) = get c y + inn c p q dt.
Proof.
  intros c p q dt x y. unfold out, inn, fl, exchange. destruct (pair_flux p q dt) as [f|]; destruct c; cbn -[irho]; unfold irho; split; ring.
Qed.

Lemma flux_loop : forall p dt l x nd, (forall j q, In (j, q) l -> (0 <= j < zlen nd)%Z) ->
  exists x' nd', ComputeGodunovFlux p dt l x nd = Ok (x', nd') /\ zlen nd' = zlen nd /\
    (forall c, get c x' = get c x + lsum (fun jq => out c p (snd jq) dt) l) /\
    (forall c t, at_ c nd' t = at_ c nd t + lsum (fun jq => if (fst jq =? t)%Z then inn c p (snd jq) dt else 0) l).
Proof.
  intros p dt. induction l as [|(j, q) l IH]; intros x nd H; cbn [M_Mfv.ComputeGodunovFlux lsum].
  - exists x, nd. repeat split; intros; ring.
  - destruct (aget_in nd j (H j q (or_introl eq_refl))) as (y & Hy). rewrite Hy. cbn [bind].
    destruct (exchange p q dt x y) as (x1, y1) eqn:E.
    assert (E1 := fun c => exchange_get c p q dt x y). rewrite E in E1. cbn [fst snd] in E1.
    destruct (aset_ok nd j y1 (H j q (or_introl eq_refl))) as (nd1 & Hs & Hl). rewrite Hs. cbn [bind].
    destruct (IH x1 nd1) as (x' & nd' & G & L & Gx & Gn).
    { intros j' q' I. rewrite Hl. apply (H j' q'). now right. }
    exists x', nd'. split; [exact G|]. split; [now rewrite L|]. split; intros c.
    + rewrite Gx. cbn [snd]. rewrite (proj1 (E1 c)). ring.
    + intros t. rewrite Gn. cbn [fst snd]. rewrite (at_aset c _ _ _ _ t Hs). destruct (Z.eqb_spec j t) as [->|N].
      * rewrite (proj2 (E1 c)), (at_aget c _ _ _ Hy). ring.
      * ring.
Qed.

(** The gains of the active particles with index [t] and of the entry [t] of the neighbours in one cell. *)
Definition act_sum (ts : R) (parts : list mpart) (c : cmp) (il : Z * list (Z * gpart)) : R :=
  match getp parts (fst il) with None => 0 | Some p => lsum (fun jq => out c (m_g p) (snd jq) (ts * IZR (m_nstep p))) (snd il) end.
Definition neib_sum (ts : R) (parts : list mpart) (c : cmp) (t : Z) (il : Z * list (Z * gpart)) : R :=
  match getp parts (fst il) with None => 0
  | Some p => lsum (fun jq => if (fst jq =? t)%Z then inn c (m_g p) (snd jq) (ts * IZR (m_nstep p)) else 0) (snd il) end.

Lemma getp_aget : forall parts i p, aget parts i = Ok p -> getp parts i = Some p.
Proof. unfold aget, getp. intros parts i p. destruct (i <? 0)%Z; [discriminate|]. destruct (nth_error _ _); congruence. Qed.

Lemma cell_loop_sum : forall ts parts act nd,
  (forall i l, In (i, l) act -> (0 <= i < zlen parts)%Z /\ forall j q, In (j, q) l -> (0 <= j < zlen nd)%Z) ->
  exists xs nd', cell_loop ts parts act nd = Ok (xs, nd') /\ zlen nd' = zlen nd /\ map fst xs = map fst act /\
    (forall c t, lsum (fun ix => if (fst ix =? t)%Z then get c (snd ix) else 0) xs = lsum (fun il => if (fst il =? t)%Z then act_sum ts parts c il else 0) act) /\
    (forall c t, at_ c nd' t = at_ c nd t + lsum (neib_sum ts parts c t) act).
Proof.
  intros ts parts. induction act as [|(i, l) act IH]; intros nd H; cbn [M_Mfv.cell_loop lsum].
  - exists [], nd. repeat split; intros; cbn; ring.
  - destruct (H i l (or_introl eq_refl)) as (Hi & Hl). destruct (aget_in parts i Hi) as (p & Hp). rewrite Hp. cbn [bind].
    destruct (flux_loop (m_g p) (ts * IZR (m_nstep p)) l acc0 nd Hl) as (x & nd1 & G & L & Gx & Gn).
    rewrite G. cbn [bind]. destruct (IH nd1) as (xs & nd' & G' & L' & M & S1 & S2).
    { intros i' l' I. destruct (H i' l' (or_intror I)) as (A & B). split; [exact A|]. intros j q Q. rewrite L. now apply (B j q). }
    rewrite G'. cbn [bind]. exists ((i, x) :: xs), nd'. split; [reflexivity|]. split; [now rewrite L'|]. split; [cbn; now rewrite M|].
    split; intros c t.
    + cbn [lsum fst snd]. rewrite S1. f_equal. unfold act_sum. cbn [fst snd]. rewrite (getp_aget _ _ _ Hp). rewrite Gx, get0, Rplus_0_l. reflexivity.
    + rewrite S2, Gn. unfold neib_sum at 2. cbn [fst snd]. rewrite (getp_aget _ _ _ Hp). ring.
Qed.

(** Adding the copies to the buffers of the thread. *)
Definition on_at (c : cmp) (parts : list mpart) (t : Z) : bool := match getp parts t with Some p => on c (m_active p) | None => true end.
Fixpoint nsum (c : cmp) (t : Z) (neib : list (Z * bool)) (nd : list acc) : R :=
  match neib, nd with
  | (i, w) :: neib, y :: nd => (if (i =? t)%Z && negb w then get c y else 0) + nsum c t neib nd
  | _, _ => 0
  end.
Lemma add_neibs_sum : forall parts neib nd buf, length nd = length neib -> zlen buf = zlen parts ->
  (forall i w, In (i, w) neib -> (0 <= i < zlen parts)%Z) ->
  exists buf', add_neibs parts neib nd buf = Ok buf' /\ zlen buf' = zlen parts /\
    forall c t, at_ c buf' t = at_ c buf t + (if on_at c parts t then nsum c t neib nd else 0).
Proof.
  intros parts. induction neib as [|(i, w) neib IH]; intros [|y nd] buf Hn Hb H; try discriminate; cbn [M_Mfv.add_neibs nsum].
  - exists buf. repeat split; auto. intros. destruct (on_at c parts t); ring.
  - injection Hn as Hn. destruct w.
    + destruct (IH nd buf Hn Hb (fun i' w' I => H i' w' (or_intror I))) as (buf' & G & L & S). exists buf'. repeat split; auto.
      intros c t. rewrite S, andb_false_r. destruct (on_at c parts t); ring.
    + assert (Hi := H i false (or_introl eq_refl)). destruct (aget_in parts i Hi) as (p & Hp). rewrite Hp. cbn [bind].
      destruct (aget_in buf i) as (b & Hg); [now rewrite Hb|]. rewrite Hg. cbn [bind].
      destruct (aset_ok buf i (acc_add (m_active p) b y)) as (b1 & Hs & L1); [now rewrite Hb|]. rewrite Hs. cbn [bind].
      destruct (IH nd b1 Hn) as (buf' & G & L & S); [now rewrite L1| |].
      { intros i' w' I. apply (H i' w'). now right. }
      exists buf'. repeat split; auto. intros c t. rewrite S, (at_aset c _ _ _ _ t Hs), andb_true_r.
      destruct (Z.eqb_spec i t) as [->|N].
      * rewrite get_add, (at_aget c _ _ _ Hg). unfold on_at. rewrite (getp_aget _ _ _ Hp). destruct (on c (m_active p)); ring.
      * destruct (on_at c parts t); ring.
Qed.

Lemma add_actives_sum : forall N xs buf, zlen buf = N -> (forall i, In i (map fst xs) -> (0 <= i < N)%Z) ->
  exists buf', add_actives xs buf = Ok buf' /\ zlen buf' = N /\
    forall c t, at_ c buf' t = at_ c buf t + lsum (fun ix => if (fst ix =? t)%Z then get c (snd ix) else 0) xs.
Proof.
  intros N. induction xs as [|(i, x) xs IH]; intros buf Hb H; cbn [M_Mfv.add_actives lsum].
  - exists buf. repeat split; auto. intros. ring.
  - assert (Hi := H i (or_introl eq_refl)). destruct (aget_in buf i) as (b & Hg); [now rewrite Hb|]. rewrite Hg. cbn [bind].
    destruct (aset_ok buf i (acc_add true b x)) as (b1 & Hs & L1); [now rewrite Hb|]. rewrite Hs. cbn [bind].
    destruct (IH b1) as (buf' & G & L & S); [now rewrite L1| |].
    { intros i' I. apply H. now right. }
    exists buf'. repeat split; auto. intros c t. rewrite S, (at_aset c _ _ _ _ t Hs). cbn [fst snd].
    destruct (Z.eqb_spec i t) as [->|Ne].
    + rewrite get_add, on_true, (at_aget c _ _ _ Hg). ring.
    + ring.
Qed.

(** The sum of the copies, by exchange. *)
Lemma nsum_at : forall c t neib nd, length nd = length neib ->
  nsum c t neib nd = lsum (fun s => match nth_error neib s with Some (i, w) => if (i =? t)%Z && negb w then at_ c nd (Z.of_nat s) else 0 | None => 0 end) (seq 0 (length neib)).
Proof.
  intros c t. induction neib as [|(i, w) neib IH]; intros [|y nd] Hn; try discriminate; [reflexivity|].
  injection Hn as Hn. cbn [nsum length seq lsum nth_error]. f_equal.
  - rewrite IH by easy. rewrite <- seq_shift. clear.
    assert (forall l f, lsum f (map S l) = lsum (fun s => f (S s)) l) as E by (induction l as [|a l IHl]; intros f; cbn; [reflexivity|now rewrite IHl]).
    rewrite E. apply lsum_ext. intros s _. cbn [nth_error]. destruct (nth_error neib s) as [(i', w')|]; [|reflexivity].
    unfold at_, aget. replace (Z.of_nat (S s) <? 0)%Z with false by lia. replace (Z.of_nat s <? 0)%Z with false by lia.
    rewrite !Nat2Z.id. reflexivity.
Qed.

(** What [t] gains by a list of exchanges. *)
Definition xg (c : cmp) (xs : list xch) (t : Z) : R :=
  lsum (fun x => (if (x_i x =? t)%Z then out c (x_p x) (x_q x) (x_dt x) else 0) +
                 (if (x_j x =? t)%Z && negb (x_wall x) then inn c (x_p x) (x_q x) (x_dt x) else 0)) xs.
Definition wt (t : Z) (neib : list (Z * bool)) (s : nat) : bool := match nth_error neib s with Some (i, w) => (i =? t)%Z && negb w | None => false end.

Lemma cell_gain : forall ts parts cl nd c t, length nd = length (c_neib cl) -> cell_ok (zlen parts) cl ->
  (forall t, at_ c nd t = lsum (neib_sum ts parts c t) (c_act cl)) ->
  lsum (fun il => if (fst il =? t)%Z then act_sum ts parts c il else 0) (c_act cl) + nsum c t (c_neib cl) nd =
  xg c (cell_xchs ts parts cl) t.
Proof.
  intros ts parts cl nd c t Hn (Ok1 & Ok2) Hat. rewrite nsum_at by easy.
  rewrite (lsum_ext _ (fun s => lsum (fun il => if wt t (c_neib cl) s then neib_sum ts parts c (Z.of_nat s) il else 0) (c_act cl)) (seq 0 _)).
  2:{ intros s _. unfold wt. destruct (nth_error (c_neib cl) s) as [(i, w)|]; [|now rewrite lsum_zero].
      rewrite Hat. apply lsum_if. }
  rewrite lsum_exch. unfold xg, cell_xchs. rewrite lsum_flat_map, <- lsum_plus. apply lsum_ext. intros (i, l) I.
  destruct (Ok1 i l I) as (Hi & Hl). destruct (aget_in parts i Hi) as (p & Hp). unfold act_sum, neib_sum. cbn [fst snd].
  rewrite (getp_aget _ _ _ Hp). rewrite lsum_flat_map.
  rewrite (lsum_ext (fun a => if wt t (c_neib cl) a then _ else 0)
             (fun s => lsum (fun jq => if wt t (c_neib cl) s then (if (fst jq =? Z.of_nat s)%Z then inn c (m_g p) (snd jq) (ts * IZR (m_nstep p)) else 0) else 0) l)).
  2:{ intros s _. apply lsum_if. }
  rewrite lsum_exch, lsum_if, <- lsum_plus. apply lsum_ext. intros (j, q) J. cbn [fst snd].
  assert (Hj := Hl j q J). rewrite sum_pick. unfold getn, zlen in *.
  replace ((Z.of_nat 0 <=? j) && (j <? Z.of_nat (0 + length (c_neib cl))))%Z with true by lia. replace (j <? 0)%Z with false by lia. cbn [andb].
  unfold wt. destruct (nth_error (c_neib cl) (Z.to_nat j)) as [(j', w)|] eqn:E.
  - cbn. ring.
  - apply nth_error_None in E. lia.
Qed.

Lemma on_if : forall (b : bool) x y, (if b then x + y else 0) = (if b then x else 0) + (if b then y else 0).
Proof. intros [] x y; ring. Qed.

(** All cells of a thread: what counts for a particle which is on. *)
Lemma do_cells_sum : forall ts parts cells buf, zlen buf = zlen parts -> (forall cl, In cl cells -> cell_ok (zlen parts) cl) ->
  exists buf', do_cells ts parts cells buf = Ok buf' /\ zlen buf' = zlen parts /\
    forall c t, on_at c parts t = true -> at_ c buf' t = at_ c buf t + xg c (flat_map (cell_xchs ts parts) cells) t.
Proof.
  intros ts parts. induction cells as [|cl cells IH]; intros buf Hb H; cbn [M_Mfv.do_cells flat_map].
  - exists buf. repeat split; auto. intros. unfold xg. cbn. ring.
  - assert (Hc := H cl (or_introl eq_refl)). pose proof Hc as (Ok1 & Ok2).
    destruct (cell_loop_sum ts parts (c_act cl) (map (fun _ => acc0) (c_neib cl))) as (xs & nd & G & L & M & S1 & S2).
    { intros i l I. destruct (Ok1 i l I) as (A & B). split; [exact A|]. intros j q J. unfold zlen. rewrite map_length. apply (B j q J). }
    rewrite G. cbn [bind]. assert (Hn : length nd = length (c_neib cl)) by (unfold zlen in L; rewrite map_length in L; lia).
    destruct (add_neibs_sum parts (c_neib cl) nd buf Hn Hb Ok2) as (b1 & G1 & L1 & T1). rewrite G1. cbn [bind].
    destruct (add_actives_sum (zlen parts) xs b1 L1) as (b2 & G2 & L2 & T2).
    { rewrite M. intros i I. apply in_map_iff in I as ((i', l) & <- & I). apply (Ok1 _ _ I). }
    rewrite G2. cbn [bind]. destruct (IH b2 L2 (fun cl' I => H cl' (or_intror I))) as (b3 & G3 & L3 & T3).
    exists b3. repeat split; auto. intros c t O1. rewrite T3, T2, T1, O1, S1 by easy.
    assert (E : forall t, at_ c nd t = lsum (neib_sum ts parts c t) (c_act cl)) by (intros t'; rewrite S2, at_zero; ring).
    pose proof (cell_gain ts parts cl nd c t Hn Hc E) as F. unfold xg. rewrite lsum_app. unfold xg in F. rewrite <- F. ring.
Qed.

(** Adding the buffers of the threads to the particles. *)
Definition same_rest (p p' : mpart) : Prop := p' = set_acc p (m_q p').
Lemma add_back_spec : forall parts buf, length buf = length parts ->
  exists parts', add_back parts buf = Ok parts' /\ length parts' = length parts /\
    forall t p, aget parts t = Ok p -> exists p', aget parts' t = Ok p' /\ same_rest p p' /\
      forall c, get c (m_q p') = get c (m_q p) + (if on c (m_active p) then at_ c buf t else 0).
Proof.
  induction parts as [|p parts IH]; intros [|b buf] Hl; try discriminate; cbn [M_Mfv.add_back].
  - exists []. repeat split; auto. intros t p H. apply aget_Ok_inv in H as (H & _). cbn in H. lia.
  - injection Hl as Hl. destruct (IH buf Hl) as (l & G & L & T). rewrite G. cbn [bind]. eexists. split; [reflexivity|].
    split; [cbn; now rewrite L|]. intros t p' H. destruct (Z.eq_dec t 0) as [->|N].
    + injection H as <-. eexists. split; [reflexivity|]. split; [reflexivity|]. intros c. cbn [m_q set_acc]. apply get_add.
    + assert (0 < t)%Z by (apply aget_Ok_inv in H as (H & _); lia).
      assert (E : forall A (x : A) l, aget (x :: l) t = aget l (t - 1)).
      { intros A x l'. unfold aget. replace (t <? 0)%Z with false by lia. replace (t - 1 <? 0)%Z with false by lia.
        replace (Z.to_nat t) with (S (Z.to_nat (t - 1))) by lia. reflexivity. }
      rewrite E in H. destruct (T _ _ H) as (p1 & G1 & R1 & C1). exists p1. rewrite E. repeat split; auto.
      intros c. rewrite C1. unfold at_. now rewrite E.
Qed.

Lemma critical_spec : forall bufs parts, (forall b, In b bufs -> length b = length parts) ->
  exists parts', critical parts bufs = Ok parts' /\ length parts' = length parts /\
    forall t p, aget parts t = Ok p -> exists p', aget parts' t = Ok p' /\ same_rest p p' /\
      forall c, get c (m_q p') = get c (m_q p) + (if on c (m_active p) then lsum (fun b => at_ c b t) bufs else 0).
Proof.
  induction bufs as [|b bufs IH]; intros parts H; cbn [M_Mfv.critical].
  - exists parts. repeat split; auto. intros t p Hp. exists p. split; [exact Hp|]. split; [now destruct p|]. intros c. cbn. destruct (on c _); ring.
  - destruct (add_back_spec parts b (H b (or_introl eq_refl))) as (l & G & L & T). rewrite G. cbn [bind].
    destruct (IH l) as (l' & G' & L' & T').
    { intros b' I. rewrite L. apply H. now right. }
    exists l'. split; [exact G'|]. split; [congruence|]. intros t p Hp. destruct (T t p Hp) as (p1 & G1 & R1 & C1).
    destruct (T' t p1 G1) as (p2 & G2 & R2 & C2). exists p2. split; [exact G2|]. split.
    + unfold same_rest in *. rewrite R2, R1. reflexivity.
    + intros c. rewrite C2, C1. assert (A : m_active p1 = m_active p) by (rewrite R1; reflexivity). rewrite A. cbn [lsum].
      destruct (on c (m_active p)); ring.
Qed.

Lemma all_threads_sum : forall ts parts threads, (forall cl, In cl (concat threads) -> cell_ok (zlen parts) cl) ->
  exists bufs, all_threads ts parts threads = Ok bufs /\ (forall b, In b bufs -> length b = length parts) /\
    forall c t, on_at c parts t = true -> lsum (fun b => at_ c b t) bufs = xg c (xchs ts parts threads) t.
Proof.
  intros ts parts. induction threads as [|cells threads IH]; intros H; cbn [M_Mfv.all_threads].
  - exists []. split; [reflexivity|]. split; [easy|]. intros. reflexivity.
  - destruct (do_cells_sum ts parts cells (map (fun _ => acc0) parts)) as (b & G & L & T).
    { unfold zlen. now rewrite map_length. }
    { intros cl I. apply H. cbn. apply in_or_app. now left. }
    rewrite G. cbn [bind]. destruct IH as (bs & G' & L' & T').
    { intros cl I. apply H. cbn. apply in_or_app. now right. }
    rewrite G'. cbn [bind]. exists (b :: bs). split; [reflexivity|]. split.
    + intros b' [<-|I]; [unfold zlen in L; lia|auto].
    + intros c t O1. cbn [lsum]. rewrite T, T' by easy. rewrite at_zero. unfold xchs, xg. cbn [concat]. rewrite flat_map_app, lsum_app. ring.
Qed.

Theorem fluxes_spec : forall ts parts threads, (forall cl, In cl (concat threads) -> cell_ok (zlen parts) cl) ->
  exists parts', UpdateGodunovFluxes ts parts threads = Ok parts' /\ length parts' = length parts /\
    forall t p, aget parts t = Ok p -> exists p', aget parts' t = Ok p' /\ same_rest p p' /\
      forall c, get c (m_q p') = get c (m_q p) + (if on c (m_active p) then xg c (xchs ts parts threads) t else 0).
Proof.
  intros ts parts threads H. unfold M_Mfv.UpdateGodunovFluxes. destruct (all_threads_sum ts parts threads H) as (bufs & G & L & T).
  rewrite G. cbn [bind]. destruct (critical_spec bufs parts L) as (parts' & G' & L' & T'). exists parts'. repeat split; auto.
  intros t p Hp. destruct (T' t p Hp) as (p' & G1 & R1 & C1). exists p'. repeat split; auto. intros c. rewrite C1.
  destruct (on c (m_active p)) eqn:E; [|reflexivity]. rewrite T; [reflexivity|]. unfold on_at. now rewrite (getp_aget _ _ _ Hp).
Qed.
End Mfv.
