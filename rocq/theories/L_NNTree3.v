(** The finished tree: which stars a node holds; the nodes that are pending when node c is treated. *)
From Verif Require Import Prelude Vec M_Box L_Box M_Hermite M_NNTree S_Diag L_Diag S_NNTree L_NNTree L_NNTree2.
From Coq Require Import Reals Permutation Sorted.
Local Open Scope R_scope.

Definition child (T : tree) (c : nat) : option (nat * nat) :=
  match n_c1 (T c), n_c2 (T c) with Some a, Some b => Some (a, b) | _, _ => None end.
Lemma holds_ok : forall ch N c l, holds ch N c l -> (forall i, In i l -> (i < N)%nat) /\ (1 <= length l)%nat.
Proof.
  intros ch N c l H. induction H as [c Hc|c a b la lb Hc Hch H1 (IH1 & L1) H2 (IH2 & L2)].
  - split; [intros i [<-|[]]; exact Hc|cbn; lia].
  - rewrite app_length. split; [|lia]. intros i Hi. apply in_app_or in Hi. destruct Hi; auto.
Qed.
Lemma holds_fun : forall ch N c l, holds ch N c l -> forall l', holds ch N c l' -> l = l'.
Proof.
  intros ch N c l H. induction H as [c Hc|c a b la lb Hc Hch H1 IH1 H2 IH2]; intros l' H'; inversion H' as [c' Hc'|c' a' b' la' lb' Hc' Hch' H1' H2']; subst; auto; try lia.
  rewrite Hch in Hch'. injection Hch' as <- <-. f_equal; auto.
Qed.

Section Pending.
Variable ndim : nat.
Variables (N : nat) (r : nat -> vec) (T : tree) (n : nat).
Hypothesis G : good ndim N r T n.

Lemma node_kids : forall c, (N <= c < n)%nat -> exists a b, n_c1 (T c) = Some a /\ n_c2 (T c) = Some b /\ a <> b /\ (a < c)%nat /\ (b < c)%nat /\ n_par (T a) = Some c /\ n_par (T b) = Some c /\ child T c = Some (a, b).
Proof. intros c Hc. destruct (g_node _ _ _ _ _ G c Hc) as (a & b & Ea & Eb & Hab & La & Lb & Pa & Pb & _). exists a, b. unfold child. rewrite Ea, Eb. auto 10. Qed.
Lemma par_above : forall i p, (i < n)%nat -> n_par (T i) = Some p -> (N <= p < n)%nat /\ (i < p)%nat /\ (n_c1 (T p) = Some i \/ n_c2 (T p) = Some i).
Proof.
  intros i p Hi Hp. destruct (g_par _ _ _ _ _ G i p Hi Hp) as (H1 & H2). split; [exact H1|]. split; [|exact H2].
  destruct (node_kids p H1) as (a & b & Ea & Eb & _ & La & Lb & _). destruct H2 as [H2|H2]; rewrite H2 in *; [injection Ea as <-|injection Eb as <-]; assumption.
Qed.
Definition wait (c i : nat) : bool := match n_par (T i) with Some p => Nat.leb c p | None => true end.
Definition pend (c : nat) : list nat := filter (wait c) (seq 0 c).
Lemma in_pend : forall c i, In i (pend c) <-> (i < c)%nat /\ (forall p, n_par (T i) = Some p -> (c <= p)%nat).
Proof.
  intros c i. unfold pend. rewrite filter_In, in_seq. unfold wait. destruct (n_par (T i)) as [p|].
  - rewrite Nat.leb_le. split; intros (H1 & H2); (split; [lia|]); [intros q Hq; injection Hq as <-; exact H2|apply H2; reflexivity].
  - split; intros (H1 & H2); (split; [lia|]); [intros; discriminate|reflexivity].
Qed.
Lemma pend_nodup : forall c, NoDup (pend c).
Proof. intros. apply NoDup_filter, seq_NoDup. Qed.
Lemma pend_start : pend N = seq 0 N.
Proof.
  unfold pend. assert (H : forall l, (forall i, In i l -> (i < N)%nat) -> filter (wait N) l = l).
  { induction l as [|a l IH]; intros H; [reflexivity|]. cbn. assert (La := H a (or_introl eq_refl)). pose proof (g_low _ _ _ _ _ G).
    assert (E : wait N a = true). { unfold wait. destruct (n_par (T a)) as [p|] eqn:E; [|reflexivity]. apply Nat.leb_le. apply (par_above a p); [lia|exact E]. }
    rewrite E. f_equal. apply IH. intros; apply H. now right. }
  apply H. intros i Hi. apply in_seq in Hi. lia.
Qed.
Lemma pend_step : forall c a b, (N <= c < n)%nat -> n_c1 (T c) = Some a -> n_c2 (T c) = Some b ->
  exists rest, Permutation (pend c) (a :: b :: rest) /\ pend (S c) = rest ++ [c] /\ (forall i, In i rest -> (i < c)%nat /\ i <> a /\ i <> b).
Proof.
  intros c a b Hc Ea Eb. destruct (node_kids c Hc) as (a' & b' & Ea' & Eb' & Hab & La & Lb & Pa & Pb & _).
  rewrite Ea in Ea'. injection Ea' as <-. rewrite Eb in Eb'. injection Eb' as <-.
  exists (filter (wait (S c)) (seq 0 c)).
  assert (HR : forall i, In i (filter (wait (S c)) (seq 0 c)) -> (i < c)%nat /\ i <> a /\ i <> b).
  { intros i Hi. apply filter_In in Hi. destruct Hi as (H1 & H2). apply in_seq in H1. unfold wait in H2. split; [lia|]. split; intros ->; [rewrite Pa in H2|rewrite Pb in H2]; apply Nat.leb_le in H2; lia. }
  split; [|split; [|exact HR]].
  - apply NoDup_Permutation; [apply pend_nodup| |].
    + constructor; [|constructor; [|apply NoDup_filter, seq_NoDup]].
      * intros [?|H]; [congruence|]. apply HR in H. tauto.
      * intros H. apply HR in H. tauto.
    + intros i. rewrite in_pend. split.
      * intros (H1 & H2). destruct (n_par (T i)) as [p|] eqn:EP.
        -- specialize (H2 p eq_refl). destruct (Nat.eq_dec p c) as [->|Hp].
           ++ destruct (par_above i c ltac:(lia) EP) as (_ & _ & [E|E]); rewrite E in *; [injection Ea as <-; now left|injection Eb as <-; right; now left].
           ++ right. right. apply filter_In. split; [apply in_seq; lia|]. unfold wait. rewrite EP. apply Nat.leb_le. lia.
        -- right. right. apply filter_In. split; [apply in_seq; lia|]. unfold wait. now rewrite EP.
      * intros [<-|[<-|Hi]].
        -- split; [lia|]. intros p Hp. rewrite Pa in Hp. injection Hp as <-. lia.
        -- split; [lia|]. intros p Hp. rewrite Pb in Hp. injection Hp as <-. lia.
        -- apply filter_In in Hi. destruct Hi as (H1 & H2). apply in_seq in H1. split; [lia|]. intros p Hp. unfold wait in H2. rewrite Hp in H2. apply Nat.leb_le in H2. lia.
  - unfold pend. rewrite seq_S, filter_app. cbn [Nat.add filter]. assert (E : wait (S c) c = true); [|now rewrite E].
    unfold wait. destruct (n_par (T c)) as [p|] eqn:E; [|reflexivity]. apply Nat.leb_le. destruct (par_above c p ltac:(lia) E) as (_ & ? & _). lia.
Qed.

(** The stars of every node. *)
Lemma holds_all : forall c, (c < n)%nat -> exists l, holds (child T) N c l /\ n_comp (T c) = length l /\ n_nstar (T c) = length l.
Proof.
  induction c as [c IH] using lt_wf_ind. intros Hc. destruct (le_lt_dec N c) as [L|L].
  - destruct (g_node _ _ _ _ _ G c ltac:(lia)) as (a & b & Ea & Eb & Hab & La & Lb & Pa & Pb & Cc & Sc & _).
    destruct (IH a La ltac:(lia)) as (la & Ha & C1 & S1). destruct (IH b Lb ltac:(lia)) as (lb & Hb & C2 & S2). exists (la ++ lb). split; [econstructor; eauto; unfold child; now rewrite Ea, Eb|]. rewrite app_length. lia.
  - exists [c]. destruct (g_leaf _ _ _ _ _ G c L) as (_ & _ & -> & -> & _). split; [now constructor|auto].
Qed.
Lemma concat_map_perm : forall {A B} (f : A -> list B) l l', Permutation l l' -> Permutation (concat (map f l)) (concat (map f l')).
Proof.
  intros A B f l l' H. induction H; cbn.
  - constructor.
  - now apply Permutation_app_head.
  - rewrite !app_assoc. apply Permutation_app_tail, Permutation_app_comm.
  - etransitivity; eassumption.
Qed.
Lemma pend_all : forall c, (N <= c <= n)%nat -> exists ls, (forall i, In i (pend c) -> holds (child T) N i (ls i)) /\ Permutation (concat (map ls (pend c))) (seq 0 N).
Proof.
  intros c (H1 & H2). induction H1 as [|c H1 IH].
  - exists (fun i => [i]). rewrite pend_start. split.
    + intros i Hi. apply in_seq in Hi. constructor. lia.
    + assert (E : forall l : list nat, concat (map (fun i => [i]) l) = l) by (induction l; cbn; congruence). rewrite E. apply Permutation_refl.
  - destruct (IH ltac:(lia)) as (ls & HL & HP). destruct (node_kids c ltac:(lia)) as (a & b & Ea & Eb & Hab & La & Lb & Pa & Pb & Hch).
    destruct (pend_step c a b ltac:(lia) Ea Eb) as (rest & P1 & P2 & P3).
    assert (Ia : In a (pend c)) by (apply (Permutation_in a (Permutation_sym P1)); now left). assert (Ib : In b (pend c)) by (apply (Permutation_in b (Permutation_sym P1)); right; now left).
    exists (fun i => if Nat.eqb i c then ls a ++ ls b else ls i). rewrite P2. split.
    + intros i Hi. apply in_app_or in Hi. destruct Hi as [Hi|[<-|[]]].
      * destruct (P3 i Hi) as (Li & _). destruct (Nat.eqb_spec i c); [lia|]. apply HL. apply (Permutation_in i (Permutation_sym P1)). right. now right.
      * rewrite Nat.eqb_refl. eapply holds_node; eauto.
    + rewrite map_app, concat_app. cbn. rewrite Nat.eqb_refl, app_nil_r. etransitivity; [|exact HP]. etransitivity; [|apply Permutation_sym, (concat_map_perm ls _ _ P1)]. cbn.
      rewrite (map_ext_in _ ls) by (intros i Hi; destruct (P3 i Hi) as (Li & _); destruct (Nat.eqb_spec i c); [lia|reflexivity]).
      rewrite (app_assoc (ls a)). apply Permutation_app_comm.
Qed.
(** All nodes but the last have a parent. *)
Lemma root_only : (1 <= N)%nat -> n = (2 * N - 1)%nat -> forall i, (i < n)%nat -> n_par (T i) = None <-> i = (n - 1)%nat.
Proof.
  intros HN En. assert (R : In (n - 1)%nat (freelist T n)).
  { apply in_free. split; [lia|]. destruct (n_par (T (n - 1)%nat)) as [p|] eqn:EP; [|reflexivity]. destruct (par_above (n - 1) p ltac:(lia) EP). lia. }
  pose proof (g_count _ _ _ _ _ G) as GC. destruct (freelist T n) as [|x [|y l]] eqn:EF; cbn in GC; try lia. destruct R as [->|[]].
  intros i Hi. split.
  - intros Hp. assert (I : In i (freelist T n)) by (apply in_free; auto). rewrite EF in I. destruct I as [<-|[]]. reflexivity.
  - intros ->. assert (I : In (n - 1)%nat (freelist T n)) by (rewrite EF; now left). apply in_free in I. tauto.
Qed.
Lemma pend_end : (1 <= N)%nat -> n = (2 * N - 1)%nat -> pend n = [(n - 1)%nat].
Proof.
  intros HN En. assert (P : Permutation (pend n) [(n - 1)%nat]).
  { apply NoDup_Permutation; [apply pend_nodup|constructor; [intros []|constructor]|]. intros i. rewrite in_pend. split.
    - intros (Hi & HP). left. symmetry. apply (root_only HN En i Hi). destruct (n_par (T i)) as [p|] eqn:E; [|reflexivity]. specialize (HP p eq_refl). destruct (par_above i p Hi E). lia.
    - intros [<-|[]]. split; [lia|]. intros p Hp. rewrite (proj2 (root_only HN En (n - 1) ltac:(lia)) eq_refl) in Hp. discriminate. }
  apply Permutation_sym, Permutation_length_1_inv in P. exact P.
Qed.
Lemma root_holds : (1 <= N)%nat -> n = (2 * N - 1)%nat -> exists l, holds (child T) N (n - 1) l /\ Permutation l (seq 0 N).
Proof.
  intros HN En. destruct (pend_all n) as (ls & HL & HP); [lia|]. rewrite (pend_end HN En) in *. exists (ls (n - 1)%nat). split; [apply HL; now left|]. cbn in HP. rewrite app_nil_r in HP. exact HP.
Qed.
End Pending.
