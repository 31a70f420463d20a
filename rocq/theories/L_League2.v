(** With a round robin calendar the blocking exchange never gets stuck and delivers everything. *)
From Verif Require Import Prelude L_Prelude S_Tree L_Tree M_League S_League L_League.
Local Open Scope Z_scope.
Ltac Zify.zify_post_hook ::= idtac.

Lemma program_nth : forall r row t b, nth_error row t = Some b ->
  nth_error (exchange_program r row) (2 * t) = Some (if r <? b then Send b else Recv b) /\
  nth_error (exchange_program r row) (2 * t + 1) = Some (if r <? b then Recv b else Send b).
Proof.
  intros r. induction row as [|x row IH]; intros t b E; [destruct t; discriminate|]. unfold exchange_program. cbn [flat_map]. fold (exchange_program r row).
  destruct t as [|t].
  - injection E as ->. unfold turn_actions. destruct (r <? b); now split.
  - cbn in E. destruct (IH t b E) as [E1 E2]. replace (2 * S t)%nat with (S (S (2 * t))) by lia. replace (S (S (2 * t)) + 1)%nat with (S (S (2 * t + 1))) by lia.
    unfold turn_actions. destruct (r <? x); cbn [app nth_error]; now split.
Qed.
Lemma program_len : forall r row, length (exchange_program r row) = (2 * length row)%nat.
Proof. intros r. induction row as [|x row IH]; [reflexivity|]. unfold exchange_program. cbn [flat_map]. fold (exchange_program r row). rewrite app_length, IH. unfold turn_actions. destruct (r <? x); cbn; lia. Qed.

Lemma skipn_cons : forall A (l : list A) i x a, skipn i l = x :: a -> nth_error l i = Some x /\ a = skipn (S i) l.
Proof.
  intros A. induction l as [|y l IH]; intros i x a E; [destruct i; discriminate|]. destruct i as [|i].
  - cbn in E. injection E as -> ->. now split.
  - cbn [skipn] in E. apply IH in E. exact E.
Qed.
Lemma skipn_nth : forall A (l : list A) i x, nth_error l i = Some x -> skipn i l = x :: skipn (S i) l.
Proof. intros A. induction l as [|y l IH]; intros i x E; [destruct i; discriminate|]. destruct i as [|i]; [now injection E as ->|]. cbn [skipn]. now apply IH. Qed.
Lemma firstn_S : forall A (l : list A) i x, nth_error l i = Some x -> firstn (S i) l = firstn i l ++ [x].
Proof. intros A. induction l as [|y l IH]; intros i x E; [destruct i; discriminate|]. destruct i as [|i]; [now injection E as ->|]. cbn [nth_error] in E. cbn [firstn app]. f_equal. now apply IH. Qed.
Lemma seq_nodup : forall m a, NoDup (zseq a m).
Proof. induction m as [|m IH]; intros a; cbn [zseq]; constructor; [|apply IH]. rewrite zseq_in. lia. Qed.
Lemma argmin : forall (f : Z -> nat) l, l <> [] -> exists x, In x l /\ forall y, In y l -> (f x <= f y)%nat.
Proof.
  intros f. induction l as [|a l IH]; intros H; [congruence|]. destruct l as [|b l].
  - exists a. split; [now left|]. intros y [<-|[]]. lia.
  - destruct IH as (x & Hx & M); [discriminate|]. destruct (Nat.le_gt_cases (f a) (f x)) as [L|L].
    + exists a. split; [now left|]. intros y [<-|Hy]; [lia|]. specialize (M _ Hy). lia.
    + exists x. split; [now right|]. intros y [<-|Hy]; [lia|]. now apply M.
Qed.

Section Exchange.
Context {M : Type} (msg : Z -> Z -> M).
Variables (n : Z) (cal : list (list Z)).
Hypothesis Hn : 2 <= n.
Hypothesis RR : round_robin n cal.

Local Lemma SHP : shape n (n - 1) cal.
Proof. exact (rr_size _ _ RR). Qed.
Definition K : nat := (2 * Z.to_nat (n - 1))%nat.
Definition inr (r : Z) : Prop := 0 <= r < n.
Definition row (r : Z) : list Z := nth (Z.to_nat r) cal [].
Definition full (r : Z) : list action := exchange_program r (row r).
Definition tau (a b : Z) : Z := match find (fun t => at2 cal a t =? b) (zseq 0 (Z.to_nat (n - 1))) with Some t => t | None => 0 end.
Definition pos (a b : Z) : nat := (2 * Z.to_nat (tau a b) + if (a <? b)%Z then 0 else 1)%nat.

Lemma row_len : forall r, inr r -> length (row r) = Z.to_nat (n - 1).
Proof.
  intros r H. destruct SHP as [S1 S2]. assert (E : aget cal r = Ok (row r)) by (apply aget_nth; unfold inr in H; lia).
  apply S2 in E. unfold zlen in E. lia.
Qed.
Lemma full_len : forall r, inr r -> length (full r) = K.
Proof. intros r H. unfold full, K. now rewrite program_len, row_len. Qed.
Lemma tau_ok : forall a b, inr a -> inr b -> a <> b -> 0 <= tau a b < n - 1 /\ at2 cal a (tau a b) = b /\
  forall t, 0 <= t < n - 1 -> at2 cal a t = b -> t = tau a b.
Proof.
  intros a b Ha Hb Hab. destruct (rr_once _ _ RR a b Ha Hb Hab) as (t & [Ht Mt] & U). rewrite (meets_at2 n (n - 1)) in Mt by (auto using SHP).
  assert (X : 0 <= tau a b < n - 1 /\ at2 cal a (tau a b) = b).
  { unfold tau. destruct (find (fun t => at2 cal a t =? b) (zseq 0 (Z.to_nat (n - 1)))) as [u|] eqn:F.
    - apply find_some in F as [F1 F2]. apply zseq_in in F1. apply Z.eqb_eq in F2. split; [lia|exact F2].
    - exfalso. assert (I : In t (zseq 0 (Z.to_nat (n - 1)))) by (apply zseq_in; lia). apply (find_none _ _ F) in I. apply Z.eqb_neq in I. contradiction. }
  destruct X as [X1 X2]. split; [exact X1|]. split; [exact X2|]. intros u Hu E. transitivity t.
  - symmetry. apply U. split; [exact Hu|]. rewrite (meets_at2 n (n - 1)) by (auto using SHP). exact E.
  - apply U. split; [exact X1|]. rewrite (meets_at2 n (n - 1)) by (auto using SHP). exact X2.
Qed.

Lemma tau_sym : forall a b, inr a -> inr b -> a <> b -> tau a b = tau b a.
Proof.
  intros a b Ha Hb Hab. destruct (tau_ok a b Ha Hb Hab) as (T1 & T2 & _). destruct (tau_ok b a Hb Ha (not_eq_sym Hab)) as (_ & _ & U).
  apply U; [exact T1|]. destruct (rr_pairs _ _ RR a (tau a b) Ha T1) as (c & Hc & Hca & M1 & M2).
  rewrite (meets_at2 n (n - 1)) in M1, M2 by (auto using SHP). congruence.
Qed.
(** Process p sends to q and q receives from p at the same place of their programs. *)
Lemma row_nth : forall a t, inr a -> 0 <= t < n - 1 -> nth_error (row a) (Z.to_nat t) = Some (at2 cal a t).
Proof. intros a t Ha Ht. unfold at2. fold (row a). apply nth_error_nth'. rewrite (row_len a Ha). lia. Qed.
Lemma send_at : forall p q, inr p -> inr q -> p <> q -> nth_error (full p) (pos p q) = Some (Send q) /\ (pos p q < K)%nat.
Proof.
  intros p q Hp Hq Hpq. destruct (tau_ok p q Hp Hq Hpq) as (T1 & T2 & _). pose proof (row_nth p _ Hp T1) as E. rewrite T2 in E.
  destruct (program_nth p _ _ _ E) as [E1 E2]. unfold full, pos, K. destruct (p <? q); (split; [|lia]).
  - rewrite Nat.add_0_r. exact E1.
  - exact E2.
Qed.
Lemma recv_at : forall p q, inr p -> inr q -> p <> q -> nth_error (full q) (pos p q) = Some (Recv p).
Proof.
  intros p q Hp Hq Hpq. assert (Hqp : q <> p) by congruence. destruct (tau_ok q p Hq Hp Hqp) as (T1 & T2 & _). pose proof (row_nth q _ Hq T1) as E. rewrite T2 in E.
  destruct (program_nth q _ _ _ E) as [E1 E2]. unfold full, pos. rewrite (tau_sym p q) by assumption. destruct (Z.ltb_spec p q) as [L|L].
  - rewrite Nat.add_0_r. destruct (Z.ltb_spec q p); [lia|exact E1].
  - destruct (Z.ltb_spec q p); [exact E2|lia].
Qed.
Lemma act_inv : forall r i x, inr r -> nth_error (full r) i = Some x ->
  exists b, inr b /\ b <> r /\ ((x = Send b /\ i = pos r b) \/ (x = Recv b /\ i = pos b r)).
Proof.
  intros r i x Hr E. assert (L : (i < K)%nat) by (rewrite <- (full_len r Hr); apply nth_error_Some; congruence). unfold K in L.
  set (t := Z.of_nat (i / 2)). assert (Ht : 0 <= t < n - 1). { pose proof (Nat.div_lt_upper_bound i 2 (Z.to_nat (n - 1))). unfold t. lia. }
  destruct (rr_pairs _ _ RR r t Hr Ht) as (b & Hb & Hbr & M1 & _). rewrite (meets_at2 n (n - 1)) in M1 by (auto using SHP).
  exists b. split; [exact Hb|]. split; [exact Hbr|]. destruct (tau_ok r b Hr Hb (not_eq_sym Hbr)) as (_ & _ & U). specialize (U t Ht M1).
  pose proof (row_nth r t Hr Ht) as R. rewrite M1 in R. destruct (program_nth r _ _ _ R) as [E1 E2]. fold (full r) in E1, E2.
  assert (TN : Z.to_nat t = (i / 2)%nat) by (unfold t; lia). rewrite TN in E1, E2.
  unfold pos. rewrite (tau_sym b r) by (auto). rewrite <- U, TN. pose proof (Nat.div_mod i 2) as D. pose proof (Nat.mod_upper_bound i 2) as B. set (h := (i / 2)%nat) in *.
  assert (i = 2 * h \/ i = 2 * h + 1)%nat as [I|I] by lia; rewrite <- I in *.
  - rewrite I in E at 1. rewrite <- I in E. rewrite E in E1. injection E1 as ->. destruct (Z.ltb_spec r b); [left|right]; (split; [reflexivity|]); [lia|]. destruct (Z.ltb_spec b r); lia.
  - rewrite E in E2. injection E2 as ->. destruct (Z.ltb_spec r b); [right|left]; (split; [reflexivity|]); [|lia]. destruct (Z.ltb_spec b r); lia.
Qed.

Definition recvs (q : Z) (l : list action) : list (Z * M) := flat_map (fun a => match a with Recv p => [(p, msg p q)] | Send _ => [] end) l.
(** How far every process has got determines the state. *)
Record inv (s : net) (pc : Z -> nat) : Prop := {
  i_prog : forall r, inr r -> (pc r <= K)%nat /\ prog s r = skipn (pc r) (full r);
  i_out : forall r, ~ inr r -> prog s r = [];
  i_none : forall p q, ~ (inr p /\ inr q /\ p <> q) -> chan s p q = [];
  i_order : forall p q, inr p -> inr q -> p <> q -> (pos p q < pc q)%nat -> (pos p q < pc p)%nat;
  i_sent : forall p q, inr p -> inr q -> p <> q -> (pos p q < pc p)%nat -> (pc q <= pos p q)%nat -> chan s p q = [msg p q];
  i_early : forall p q, inr p -> inr q -> p <> q -> (pc p <= pos p q)%nat -> chan s p q = [];
  i_late : forall p q, inr p -> inr q -> p <> q -> (pos p q < pc q)%nat -> chan s p q = [];
  i_got : forall q, inr q -> got s q = recvs q (firstn (pc q) (full q)) }.

Lemma inv_ext : forall s s' pc, inv s pc -> (forall r, prog s' r = prog s r) -> (forall p q, chan s' p q = chan s p q) -> (forall q, got s' q = got s q) -> inv s' pc.
Proof.
  intros s s' pc H E1 E2 E3. destruct H. constructor; intros; rewrite ?E1, ?E2, ?E3; auto.
Qed.
Lemma set1_eq : forall A (f : Z -> A) i x, set1 f i x i = x.
Proof. intros. unfold set1. now rewrite Z.eqb_refl. Qed.
Lemma set1_ne : forall A (f : Z -> A) i x j, j <> i -> set1 f i x j = f j.
Proof. intros. unfold set1. now destruct (Z.eqb_spec j i). Qed.
Lemma set_chan_eq : forall (f : Z -> Z -> list M) p q x, set_chan f p q x p q = x.
Proof. intros. unfold set_chan. now rewrite !Z.eqb_refl. Qed.
Lemma set_chan_ne : forall (f : Z -> Z -> list M) p q x i j, (i, j) <> (p, q) -> set_chan f p q x i j = f i j.
Proof. intros. unfold set_chan. destruct (Z.eqb_spec i p) as [->|]; [|reflexivity]. destruct (Z.eqb_spec j q) as [->|]; [congruence|reflexivity]. Qed.

(** The head of a program. *)
Lemma head_in : forall s pc r x a, inv s pc -> prog s r = x :: a -> inr r /\ nth_error (full r) (pc r) = Some x /\ a = skipn (S (pc r)) (full r) /\ (pc r < K)%nat.
Proof.
  intros s pc r x a H E. assert (R : inr r). { unfold inr. destruct (Z.le_gt_cases 0 r); [destruct (Z.lt_ge_cases r n); [lia|]|]; rewrite (i_out _ _ H r) in E by (unfold inr; lia); discriminate. }
  split; [exact R|]. destruct (i_prog _ _ H r R) as [_ P]. rewrite P in E. apply skipn_cons in E as [E1 E2]. split; [exact E1|]. split; [exact E2|].
  rewrite <- (full_len r R). apply nth_error_Some. congruence.
Qed.
(** Advancing one process by an action at its place does not pass any other place. *)
Lemma other_place_send : forall r b q, inr r -> inr b -> inr q -> q <> r -> b <> r -> q <> b -> pos r q <> pos r b.
Proof. intros r b q Hr Hb Hq H1 H2 H3 E. destruct (send_at r q) as [E1 _]; auto. destruct (send_at r b) as [E2 _]; auto. rewrite E in E1. congruence. Qed.
Lemma other_place_mixed : forall r b q, inr r -> inr b -> inr q -> q <> r -> b <> r -> pos q r <> pos r b.
Proof. intros r b q Hr Hb Hq H1 H2 E. pose proof (recv_at q r) as E1. destruct (send_at r b) as [E2 _]; auto. rewrite E in E1. rewrite E2 in E1. discriminate E1; auto. Qed.
Lemma other_place_recv : forall r b q, inr r -> inr b -> inr q -> q <> r -> b <> r -> q <> b -> pos q r <> pos b r.
Proof. intros r b q Hr Hb Hq H1 H2 H3 E. pose proof (recv_at q r Hq Hr H1) as E1. pose proof (recv_at b r Hb Hr H2) as E2. rewrite E in E1. congruence. Qed.

Lemma buffer_inv : forall s pc p q a, inv s pc -> prog s p = Send q :: a ->
  inr p /\ inv (mknet (set1 (prog s) p a) (set_chan (chan s) p q (chan s p q ++ [msg p q])) (got s)) (set1 pc p (S (pc p))).
Proof.
  intros s pc p q a H E. destruct (head_in _ _ _ _ _ H E) as (Hp & N & -> & LK). split; [exact Hp|].
  destruct (act_inv p _ _ Hp N) as (b & Hb & Hbp & [[X PB]|[X _]]); [|discriminate]. injection X as <-.
  assert (Hpq : p <> q) by congruence.
  constructor; cbn [prog chan got].
  - intros r Hr. destruct (Z.eq_dec r p) as [->|Ne].
    + rewrite !set1_eq. split; [lia|reflexivity].
    + rewrite !set1_ne by auto. now apply (i_prog _ _ H).
  - intros r Hr. rewrite set1_ne by congruence. now apply (i_out _ _ H).
  - intros u v Huv. rewrite set_chan_ne by (intros Z; injection Z as -> ->; apply Huv; auto). now apply (i_none _ _ H).
  - intros u v Hu Hv Huv. destruct (Z.eq_dec v p) as [->|Nv].
    + rewrite set1_eq, (set1_ne _ _ _ _ u) by auto. intros L. apply (i_order _ _ H); auto. pose proof (other_place_mixed p q u Hp Hb Hu Huv Hbp). lia.
    + rewrite (set1_ne _ _ _ _ v) by auto. intros L. apply (i_order _ _ H) in L; auto. destruct (Z.eq_dec u p) as [->|Nu]; [rewrite set1_eq; lia|now rewrite set1_ne].
  - intros u v Hu Hv Huv. destruct (Z.eq_dec u p) as [->|Nu].
    + rewrite set1_eq, (set1_ne _ _ _ _ v) by auto. intros L1 L2. destruct (Z.eq_dec v q) as [->|Nv].
      * rewrite set_chan_eq. rewrite (i_early _ _ H p q) by (auto; lia). reflexivity.
      * rewrite set_chan_ne by congruence. apply (i_sent _ _ H); auto. pose proof (other_place_send p q v Hp Hb Hv (not_eq_sym Huv) Hbp Nv). lia.
    + rewrite (set1_ne _ _ _ _ u) by auto. intros L1 L2. rewrite set_chan_ne by congruence. apply (i_sent _ _ H); auto.
      destruct (Z.eq_dec v p) as [->|Nv]; [rewrite set1_eq in L2; lia|now rewrite set1_ne in L2].
  - intros u v Hu Hv Huv. destruct (Z.eq_dec u p) as [->|Nu].
    + rewrite set1_eq. intros L. destruct (Z.eq_dec v q) as [->|Nv]; [lia|]. rewrite set_chan_ne by congruence. apply (i_early _ _ H); auto. lia.
    + rewrite set1_ne by auto. intros L. rewrite set_chan_ne by congruence. now apply (i_early _ _ H).
  - intros u v Hu Hv Huv. destruct (Z.eq_dec v p) as [->|Nv].
    + rewrite set1_eq. intros L. rewrite set_chan_ne by congruence. apply (i_late _ _ H); auto. pose proof (other_place_mixed p q u Hp Hb Hu Huv Hbp). lia.
    + rewrite set1_ne by auto. intros L. destruct (Z.eq_dec u p) as [->|Nu].
      * destruct (Z.eq_dec v q) as [->|Nq]; [apply (i_order _ _ H) in L; auto; lia|]. rewrite set_chan_ne by congruence. now apply (i_late _ _ H).
      * rewrite set_chan_ne by congruence. now apply (i_late _ _ H).
  - intros v Hv. rewrite (i_got _ _ H v Hv). destruct (Z.eq_dec v p) as [->|Nv]; [|now rewrite set1_ne].
    rewrite set1_eq. rewrite (firstn_S _ _ _ _ N). unfold recvs. rewrite flat_map_app. cbn [flat_map]. now rewrite !app_nil_r.
Qed.

Lemma take_inv : forall s pc p q a m l, inv s pc -> prog s q = Recv p :: a -> chan s p q = m :: l ->
  inr q /\ m = msg p q /\ l = [] /\ pc q = pos p q /\
  inv (mknet (set1 (prog s) q a) (set_chan (chan s) p q l) (set1 (got s) q (got s q ++ [(p, m)]))) (set1 pc q (S (pc q))).
Proof.
  intros s pc p q a m l H E C. destruct (head_in _ _ _ _ _ H E) as (Hq & N & -> & LK). split; [exact Hq|].
  destruct (act_inv q _ _ Hq N) as (b & Hb & Hbq & [[X _]|[X PB]]); [discriminate|]. injection X as <-.
  assert (LP : (pos p q < pc p)%nat). { destruct (Nat.le_gt_cases (pc p) (pos p q)) as [L|L]; [|exact L]. rewrite (i_early _ _ H p q) in C by auto. discriminate. }
  assert (Cm : chan s p q = [msg p q]) by (apply (i_sent _ _ H); auto; lia). rewrite Cm in C. injection C as <- <-.
  split; [reflexivity|]. split; [reflexivity|]. split; [exact PB|]. constructor; cbn [prog chan got].
  - intros r Hr. destruct (Z.eq_dec r q) as [->|Ne].
    + rewrite !set1_eq. split; [lia|reflexivity].
    + rewrite !set1_ne by auto. now apply (i_prog _ _ H).
  - intros r Hr. rewrite set1_ne by congruence. now apply (i_out _ _ H).
  - intros u v Huv. rewrite set_chan_ne by (intros Z; injection Z as -> ->; apply Huv; auto). now apply (i_none _ _ H).
  - intros u v Hu Hv Huv. destruct (Z.eq_dec v q) as [->|Nv].
    + rewrite set1_eq, (set1_ne _ _ _ _ u) by auto. intros L. destruct (Z.eq_dec u p) as [->|Nu]; [exact LP|].
      apply (i_order _ _ H); auto. pose proof (other_place_recv q p u Hq Hb Hu Huv Hbq Nu). lia.
    + rewrite (set1_ne _ _ _ _ v) by auto. intros L. apply (i_order _ _ H) in L; auto. destruct (Z.eq_dec u q) as [->|Nu]; [rewrite set1_eq; lia|now rewrite set1_ne].
  - intros u v Hu Hv Huv. destruct (Z.eq_dec v q) as [->|Nv].
    + rewrite set1_eq, (set1_ne _ _ _ _ u) by auto. intros L1 L2. destruct (Z.eq_dec u p) as [->|Nu]; [lia|].
      rewrite set_chan_ne by congruence. apply (i_sent _ _ H); auto. lia.
    + rewrite (set1_ne _ _ _ _ v) by auto. intros L1 L2. rewrite set_chan_ne by congruence. apply (i_sent _ _ H); auto.
      destruct (Z.eq_dec u q) as [->|Nu]; [|now rewrite set1_ne in L1]. rewrite set1_eq in L1.
      assert (pos q v <> pos p q) by (intros Z; apply (other_place_mixed q v p Hq Hv Hb Hbq (not_eq_sym Huv)); auto). lia.
  - intros u v Hu Hv Huv. destruct (Z.eq_dec u q) as [->|Nu].
    + rewrite set1_eq. intros L. rewrite set_chan_ne by congruence. apply (i_early _ _ H); auto. lia.
    + rewrite set1_ne by auto. intros L. destruct (Z.eq_dec v q) as [->|Nv]; [destruct (Z.eq_dec u p) as [->|Np]; [lia|]|]; rewrite set_chan_ne by congruence; now apply (i_early _ _ H).
  - intros u v Hu Hv Huv. destruct (Z.eq_dec v q) as [->|Nv].
    + rewrite set1_eq. intros L. destruct (Z.eq_dec u p) as [->|Np]; [now rewrite set_chan_eq|]. rewrite set_chan_ne by congruence. apply (i_late _ _ H); auto.
      pose proof (other_place_recv q p u Hq Hb Hu Huv Hbq Np). lia.
    + rewrite set1_ne by auto. intros L. rewrite set_chan_ne by congruence. now apply (i_late _ _ H).
  - intros v Hv. destruct (Z.eq_dec v q) as [->|Nv]; [|rewrite !set1_ne by auto; now apply (i_got _ _ H)].
    rewrite !set1_eq. rewrite (i_got _ _ H q Hq), (firstn_S _ _ _ _ N). unfold recvs. now rewrite flat_map_app.
Qed.

Definition total_pc (pc : Z -> nat) : nat := list_sum (map pc (zseq 0 (Z.to_nat n))).
Lemma ls_cons : forall a l, list_sum (a :: l) = (a + list_sum l)%nat.
Proof. reflexivity. Qed.
Lemma sum_notin : forall (f : Z -> nat) r x l, ~ In r l -> list_sum (map (set1 f r x) l) = list_sum (map f l).
Proof. intros f r x. induction l as [|a l IH]; intros H; [reflexivity|]. cbn [map]. rewrite !ls_cons, IH by (intros I; apply H; now right). rewrite set1_ne by (intros ->; apply H; now left). reflexivity. Qed.
Lemma sum_in : forall (f : Z -> nat) r l, NoDup l -> In r l -> list_sum (map (set1 f r (S (f r))) l) = S (list_sum (map f l)).
Proof.
  intros f r. induction l as [|a l IH]; intros ND H; [destruct H|]. inversion ND as [|? ? NI ND']; subst. cbn [map]. rewrite !ls_cons. destruct H as [->|H].
  - rewrite set1_eq. rewrite sum_notin by exact NI. reflexivity.
  - rewrite IH by auto. rewrite set1_ne by (intros ->; contradiction). lia.
Qed.
Lemma total_S : forall pc r, inr r -> total_pc (set1 pc r (S (pc r))) = S (total_pc pc).
Proof. intros pc r H. unfold total_pc. apply sum_in; [apply seq_nodup|apply zseq_in; unfold inr in H; lia]. Qed.

Lemma step_inv : forall s s' pc, inv s pc -> step msg s s' -> exists pc', inv s' pc' /\ (total_pc pc < total_pc pc')%nat.
Proof.
  intros s s' pc H St. destruct St as [s s' Sr|s p q a E]; [destruct Sr as [s p q a m l E C|s p q a b Hpq Ep Eq C]|].
  - destruct (take_inv _ _ _ _ _ _ _ H E C) as (Hq & _ & _ & _ & I). exists (set1 pc q (S (pc q))). split; [exact I|]. rewrite total_S by exact Hq. lia.
  - destruct (buffer_inv _ _ _ _ _ H Ep) as [Hp I1]. set (s1 := mknet _ _ _) in I1.
    assert (E1 : prog s1 q = Recv p :: b) by (unfold s1; cbn [prog]; rewrite set1_ne by auto; exact Eq).
    assert (C1 : chan s1 p q = [msg p q]) by (unfold s1; cbn [chan]; rewrite set_chan_eq, C; reflexivity).
    destruct (take_inv _ _ _ _ _ _ _ I1 E1 C1) as (Hq & _ & _ & _ & I2). eexists. split.
    + eapply inv_ext; [exact I2| | |]; cbn [prog chan got]; unfold s1; cbn [prog chan got]; try reflexivity.
      intros u v. unfold set_chan. destruct (Z.eqb_spec u p) as [->|]; [|reflexivity]. destruct (Z.eqb_spec v q) as [->|]; [exact C|reflexivity].
    + rewrite total_S by exact Hq. rewrite total_S by exact Hp. lia.
  - destruct (buffer_inv _ _ _ _ _ H E) as [Hp I]. exists (set1 pc p (S (pc p))). split; [exact I|]. rewrite total_S by exact Hp. lia.
Qed.

Lemma start_inv : inv (start n cal) (fun _ => 0%nat).
Proof.
  constructor; cbn [start prog chan got]; try reflexivity; try lia.
  - intros r Hr. split; [lia|]. unfold inr in Hr. cbn [skipn]. destruct (Z.leb_spec 0 r); [|lia]. destruct (Z.ltb_spec r n); [|lia]. reflexivity.
  - intros r Hr. unfold inr in Hr. destruct (Z.leb_spec 0 r); [|reflexivity]. destruct (Z.ltb_spec r n); [lia|reflexivity].
Qed.
Lemma steps_inv : forall m s, steps msg m (start n cal) s -> exists pc, inv s pc /\ (m <= total_pc pc)%nat.
Proof.
  intros m s H. remember (start n cal) as s0 eqn:E0. induction H as [s|m s s' s'' H IH St]; subst.
  - exists (fun _ => 0%nat). split; [exact start_inv|lia].
  - destruct (IH eq_refl) as (pc & I & L). destruct (step_inv _ _ _ I St) as (pc' & I' & L'). exists pc'. split; [exact I'|lia].
Qed.

Lemma recvs_in : forall q l p m, In (p, m) (recvs q l) <-> In (Recv p) l /\ m = msg p q.
Proof.
  intros q l p m. unfold recvs. rewrite in_flat_map. split.
  - intros (a & Ia & H). destruct a as [d|p']; [destruct H|]. destruct H as [H|[]]. injection H as -> <-. now split.
  - intros [H ->]. exists (Recv p). split; [exact H|now left].
Qed.
Lemma recvs_nodup : forall q l, NoDup l -> NoDup (map fst (recvs q l)).
Proof.
  intros q. induction l as [|a l IH]; intros H; [constructor|]. inversion H as [|? ? NI ND]; subst. destruct a as [d|p]; cbn; [now apply IH|].
  constructor; [|now apply IH]. intros I. apply in_map_iff in I as ([p' m] & E & I). cbn in E. subst p'. apply recvs_in in I as [I _]. contradiction.
Qed.
Lemma full_nodup : forall r, inr r -> NoDup (full r).
Proof.
  intros r Hr. apply NoDup_nth_error. intros i j Hi E. destruct (nth_error (full r) i) as [x|] eqn:Ei; [|apply nth_error_None in Ei; lia].
  symmetry in E. destruct (act_inv r i x Hr Ei) as (b & Hb & Hbr & D1). destruct (act_inv r j x Hr E) as (c & Hc & Hcr & D2).
  destruct D1 as [[-> ->]|[-> ->]], D2 as [[X ->]|[X ->]]; try discriminate; injection X as ->; reflexivity.
Qed.

Lemma inv_final : forall s pc, inv s pc -> (forall r, inr r -> pc r = K) -> finished msg n s.
Proof.
  intros s pc H F. split; [|split].
  - intros r. destruct (Z_le_gt_dec 0 r); [destruct (Z_lt_ge_dec r n)|].
    + destruct (i_prog _ _ H r) as [_ ->]; [split; lia|]. rewrite F by (split; lia). rewrite <- (full_len r) by (split; lia). apply skipn_all.
    + apply (i_out _ _ H). unfold inr. lia.
    + apply (i_out _ _ H). unfold inr. lia.
  - intros p q. assert (inr p /\ inr q /\ p <> q \/ ~ (inr p /\ inr q /\ p <> q)) as [(Hp & Hq & Hpq)|N] by (unfold inr; lia).
    + apply (i_late _ _ H); auto. rewrite F by auto. now apply send_at.
    + now apply (i_none _ _ H).
  - intros q Hq. rewrite (i_got _ _ H q Hq), (F q Hq), <- (full_len q Hq), firstn_all. split; [apply recvs_nodup; now apply full_nodup|].
    intros p m. rewrite recvs_in. split.
    + intros [I ->]. apply In_nth_error in I as [i I]. destruct (act_inv q i _ Hq I) as (b & Hb & Hbq & [[X _]|[X _]]); [discriminate|]. injection X as ->. auto.
    + intros (Hp & Hpq & ->). split; [|reflexivity]. eapply nth_error_In. now apply recv_at.
Qed.

Lemma inv_progress : forall s pc, inv s pc -> finished msg n s \/ exists s', sure_step msg s s'.
Proof.
  intros s pc H. destruct (argmin pc (zseq 0 (Z.to_nat n))) as (r & Ir & Mn).
  { intros E. apply (f_equal (@length Z)) in E. rewrite zseq_length in E. cbn in E. lia. }
  apply zseq_in in Ir. assert (Hr : inr r) by (unfold inr; lia). assert (Mn' : forall q, inr q -> (pc r <= pc q)%nat) by (intros q Hq; apply Mn, zseq_in; unfold inr in Hq; lia).
  destruct (i_prog _ _ H r Hr) as [PR PE]. destruct (Nat.eq_dec (pc r) K) as [EK|NK].
  - left. apply (inv_final s pc H). intros q Hq. destruct (i_prog _ _ H q Hq) as [PQ _]. specialize (Mn' q Hq). lia.
  - right. destruct (nth_error (full r) (pc r)) as [x|] eqn:N; [|apply nth_error_None in N; rewrite (full_len r Hr) in N; lia].
    destruct (act_inv r _ _ Hr N) as (b & Hb & Hbr & [[-> P]|[-> P]]); pose proof (Mn' b Hb) as Lb; destruct (i_prog _ _ H b Hb) as [PB PEb].
    + assert (EB : pc b = pos r b). { destruct (Nat.eq_dec (pc b) (pos r b)); [assumption|]. pose proof (i_order _ _ H r b Hr Hb (not_eq_sym Hbr)). lia. }
      eexists. apply (meet msg s r b (skipn (S (pc r)) (full r)) (skipn (S (pc b)) (full b))); auto.
      * rewrite PE. now apply skipn_nth.
      * rewrite PEb. apply skipn_nth. rewrite EB. apply recv_at; auto.
      * apply (i_early _ _ H); auto. lia.
    + destruct (Nat.eq_dec (pc b) (pc r)) as [EB|NB].
      * eexists. apply (meet msg s b r (skipn (S (pc b)) (full b)) (skipn (S (pc r)) (full r))); auto.
        -- rewrite PEb. apply skipn_nth. rewrite EB, P. now apply send_at.
        -- rewrite PE. now apply skipn_nth.
        -- apply (i_early _ _ H); auto. lia.
      * eexists. apply (take msg s b r (skipn (S (pc r)) (full r)) (msg b r) []).
        -- rewrite PE. now apply skipn_nth.
        -- apply (i_sent _ _ H); auto; lia.
Qed.

Lemma total_le : forall s pc, inv s pc -> (total_pc pc <= Z.to_nat n * K)%nat.
Proof.
  intros s pc H. unfold total_pc. assert (X : forall l, (forall r, In r l -> inr r) -> (list_sum (map pc l) <= length l * K)%nat).
  { induction l as [|a l IH]; intros A; [cbn; lia|]. cbn [map length]. rewrite ls_cons. specialize (IH (fun r h => A r (or_intror h))).
    destruct (i_prog _ _ H a (A a (or_introl eq_refl))) as [L _]. cbn [Nat.mul]. lia. }
  rewrite <- (zseq_length (Z.to_nat n) 0) at 2. apply X. intros r I. apply zseq_in in I. unfold inr. lia.
Qed.

Theorem exchange_ok : forall m s, steps msg m (start n cal) s ->
  (Z.of_nat m <= 2 * n * (n - 1)) /\ (finished msg n s \/ exists s', sure_step msg s s').
Proof.
  intros m s H. destruct (steps_inv _ _ H) as (pc & I & L). pose proof (total_le _ _ I) as T. split; [|now apply (inv_progress s pc)].
  unfold K in T. assert (X : (m <= Z.to_nat n * (2 * Z.to_nat (n - 1)))%nat) by lia. apply Nat2Z.inj_le in X. rewrite !Nat2Z.inj_mul in X. rewrite !Z2Nat.id in X by lia. cbn in X. lia.
Qed.
End Exchange.
Ltac Zify.zify_post_hook ::= Z.div_mod_to_equations.
