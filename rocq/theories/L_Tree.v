From Verif Require Import Prelude L_Prelude S_Tree M_Walk.
Local Open Scope Z_scope.

(** Induction over rose trees. *)
Fixpoint rtree_ind2 (P : rtree -> Prop)
  (H : forall c ks, Forall P ks -> P (RNode c ks)) (t : rtree) : P t :=
  match t with
  | RNode c ks =>
      H c ks ((fix go (l : list rtree) : Forall P l :=
                 match l with
                 | [] => Forall_nil P
                 | k :: l' => Forall_cons k (rtree_ind2 P H k) (go l')
                 end) ks)
  end.

Definition linked_list (Nc : Z) (copen cnext : Z -> res Z) :=
  fix linked_kids (ks : list rtree) (next : Z) : Prop :=
    match ks with
    | [] => True
    | k :: ks' =>
        linked Nc copen cnext k (match ks' with [] => next | k' :: _ => root k' end) /\
        linked_kids ks' next
    end.

Lemma linked_unfold : forall Nc co cn c ks next,
  linked Nc co cn (RNode c ks) next <->
  (exists x, cn c = Ok x /\ same_exit Nc x next) /\
  co c = Ok (match ks with [] => -1 | k :: _ => root k end) /\
  linked_list Nc co cn ks next.
Proof.
  intros. simpl.
  assert (E : forall l, (fix linked_kids (ks0 : list rtree) : Prop :=
     match ks0 with
     | [] => True
     | k :: ks' =>
         linked Nc co cn k match ks' with
                        | [] => next
                        | k' :: _ => root k'
                        end /\ linked_kids ks'
     end) l <-> linked_list Nc co cn l next).
  { induction l; simpl; [tauto|]. rewrite IHl. tauto. }
  rewrite E. tauto.
Qed.

(** Frame: [linked] only depends on the cells of the tree. *)
Lemma linked_ext : forall Nc co cn co' cn' t next,
  (forall c, In c (preorder t) -> co' c = co c /\ cn' c = cn c) ->
  linked Nc co cn t next -> linked Nc co' cn' t next.
Proof.
  intros Nc co cn co' cn'. induction t as [c ks IH] using rtree_ind2.
  intros next E. rewrite !linked_unfold. intros (A & B & C).
  destruct (E c) as [E1 E2]; [now left|].
  rewrite E1, E2. split; [easy|split; [easy|]].
  assert (E' : forall x, In x (flat_map preorder ks) -> co' x = co x /\ cn' x = cn x)
    by (intros; apply E; now right).
  clear E A B E1 E2 c. revert next C E'. induction IH as [|k ks Hk Hks IH2]; simpl; [easy|].
  intros next [C1 C2] E. split.
  - apply Hk; [|easy]. intros; apply E, in_or_app; now left.
  - apply IH2; [easy|]. intros; apply E, in_or_app; now right.
Qed.

(** Denotation of a walk: recursion on the tree. *)
Section Den.
Context {S : Type} (visit : Z -> S -> res (S * ctl)).
Fixpoint twalk (t : rtree) (s : S) : res (S * bool) :=
  match t with
  | RNode c ks =>
      let! (s', d) := visit c s in
      match d with
      | Stop => Ok (s', true)
      | Skip => Ok (s', false)
      | Down =>
        (fix tk (ks : list rtree) (s : S) : res (S * bool) :=
           match ks with
           | [] => Ok (s, false)
           | k :: ks' => let! (s1, b) := twalk k s in if b : bool then Ok (s1, true) else tk ks' s1
           end) ks s'
      end
  end.
Fixpoint twalks (ks : list rtree) (s : S) : res (S * bool) :=
  match ks with
  | [] => Ok (s, false)
  | k :: ks' => let! (s1, b) := twalk k s in if b : bool then Ok (s1, true) else twalks ks' s1
  end.
Lemma twalk_unfold : forall c ks s,
  twalk (RNode c ks) s =
  let! (s', d) := visit c s in
  match d with Stop => Ok (s', true) | Skip => Ok (s', false) | Down => twalks ks s' end.
Proof.
  intros; simpl. destruct (visit c s) as [[s' [| |]]| | |]; simpl; reflexivity.
Qed.
End Den.

Definition msize (t : rtree) : nat := length (preorder t).
Definition msizes (ks : list rtree) : nat := length (flat_map preorder ks).

(** Every walk over a linked tree computes the recursive walk.  [f] counts the
    iterations left after the subtree. *)
Section WalkCorrect.
Context {S : Type} (co cn : Z -> res Z) (Ncell : Z) (visit : Z -> S -> res (S * ctl)).
Hypothesis leaf_not_opened : forall c s s', visit c s = Ok (s', Down) -> co c <> Ok (-1).

(** What the loop does after the subtree: nothing if stopped. *)
Definition after (f : nat) (next : Z) (x : S * bool) : res (S * bool) :=
  let '(s, b) := x in if b : bool then Ok (s, true) else walk co cn Ncell visit f next s.

Lemma walk_mono : forall f f' c s r, (f <= f')%nat ->
  walk co cn Ncell visit f c s = Ok r -> walk co cn Ncell visit f' c s = Ok r.
Proof.
  induction f; intros f' c s r L; simpl.
  - destruct f'; simpl; destruct (c <? Ncell); try easy.
  - destruct f'; [lia|]. simpl. destruct (c <? Ncell); [|easy].
    destruct (visit c s) as [[s' d]| | |]; simpl; try easy.
    destruct d; try easy.
    + destruct (co c); simpl; try easy. apply IHf. lia.
    + destruct (cn c); simpl; try easy. apply IHf. lia.
Qed.

Lemma walk_subtree : forall t next f s x,
  (forall c, In c (preorder t) -> c < Ncell) ->
  linked Ncell co cn t next ->
  twalk visit t s = Ok x ->
  forall r, after f next x = Ok r ->
  walk co cn Ncell visit (msize t + f) (root t) s = Ok r.
Proof.
  induction t as [c ks IH] using rtree_ind2. intros next f s x B L T r W.
  rewrite linked_unfold in L. destruct L as (L1 & L2 & L3).
  rewrite twalk_unfold in T. unfold msize. simpl.
  assert (c <? Ncell = true) as -> by (specialize (B c (or_introl eq_refl)); lia).
  destruct (visit c s) as [[s' d]| | |] eqn:V; simpl in *; try easy.
  destruct d.
  - rewrite L2. simpl. pose proof (leaf_not_opened _ _ _ V) as NL.
    destruct ks as [|k ks]; [congruence|].
    clear V L1 L2 NL s.
    assert (B' : forall x, In x (flat_map preorder (k :: ks)) -> x < Ncell)
      by (intros; apply B; now right).
    clear B. fold (msizes (k :: ks)).
    (* strengthen over the list of children *)
    assert (G : forall ks k s', Forall (fun t => forall next f s x,
              (forall c, In c (preorder t) -> c < Ncell) ->
              linked Ncell co cn t next -> twalk visit t s = Ok x ->
              forall r, after f next x = Ok r ->
              walk co cn Ncell visit (msize t + f) (root t) s = Ok r) (k :: ks) ->
            linked_list Ncell co cn (k :: ks) next ->
            (forall x, In x (flat_map preorder (k :: ks)) -> x < Ncell) ->
            twalks visit (k :: ks) s' = Ok x ->
            walk co cn Ncell visit (msizes (k :: ks) + f) (root k) s' = Ok r).
    { clear - W. induction ks as [|k2 ks IHks]; intros k s' F L B T.
      - unfold msizes. simpl in *. rewrite app_nil_r.
        destruct (twalk visit k s') as [[s2 b]| | |] eqn:E; simpl in T; try easy.
        assert (x = (s2, b)) by (destruct b; congruence). subst x.
        inversion F; subst. destruct L as [L _].
        apply (H1 next f s' (s2, b)); auto. intros; apply B. now rewrite app_nil_r.
      - cbn [twalks] in T. destruct (twalk visit k s') as [[s2 b]| | |] eqn:E; cbn [bind] in T; try easy.
        inversion F; subst. destruct L as [La Lb].
        assert (Em : (msizes (k :: k2 :: ks) + f = msize k + (msizes (k2 :: ks) + f))%nat)
          by (unfold msizes, msize; simpl; rewrite !app_length; lia).
        rewrite Em.
        assert (Bk : forall c, In c (preorder k) -> c < Ncell)
          by (intros; apply B; simpl; apply in_or_app; now left).
        apply (H1 (root k2) _ s' (s2, b) Bk La E).
        destruct b; simpl.
        + inversion T; subst. exact W.
        + apply IHks; auto. intros; apply B. simpl. apply in_or_app. right. exact H. }
    apply G; auto.
  - destruct L1 as (y & L1 & SE). rewrite L1. simpl. inversion T; subst.
    apply walk_mono with (f := f); [lia|].
    destruct SE as [->|[SE1 SE2]]; [exact W|]. simpl in W.
    destruct f; simpl in *; replace (y <? Ncell) with false by lia;
      replace (next <? Ncell) with false in W by lia; exact W.
  - inversion T; subst. exact W.
Qed.

Theorem walk_correct : forall t next s x,
  (forall c, In c (preorder t) -> c < Ncell) ->
  linked Ncell co cn t next -> Ncell <= next ->
  twalk visit t s = Ok x ->
  walk co cn Ncell visit (msize t) (root t) s = Ok x.
Proof.
  intros t next s [s1 b] B L LN T. replace (msize t) with (msize t + 0)%nat by lia.
  eapply walk_subtree; eauto. simpl. replace (next <? Ncell) with false by lia. destruct b; reflexivity.
Qed.
End WalkCorrect.

Lemma zseq_app : forall n m a, zseq a (n + m) = zseq a n ++ zseq (a + Z.of_nat n) m.
Proof.
  induction n; intros.
  - simpl. replace (a + 0) with a by lia. reflexivity.
  - cbn [plus zseq app]. rewrite IHn. do 2 f_equal. f_equal. lia.
Qed.
Lemma zseq_length : forall n a, length (zseq a n) = n.
Proof. induction n; simpl; auto. Qed.
Lemma zseq_in : forall n a x, In x (zseq a n) <-> a <= x < a + Z.of_nat n.
Proof.
  induction n; intros; simpl.
  - lia.
  - rewrite IHn. lia.
Qed.
