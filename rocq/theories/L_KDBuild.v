From Verif Require Import Prelude L_Prelude S_Tree S_KD L_Tree M_KDTree L_KDStruct L_QuickSelect.
From Coq Require Import Permutation.
Local Open Scope Z_scope.

(** ** Chains *)
Lemma links_ext : forall n n' ps,
  (forall p, In p (removelast ps) -> aget n' p = aget n p) -> links n ps -> links n' ps.
Proof.
  induction ps as [|p [|q t] IH]; intros E L; auto.
  destruct L as [A B]. split.
  - rewrite E; [easy|]. now left.
  - apply IH; [|easy]. intros x Hx. apply E. now right.
Qed.
Lemma chain_ext : forall n n' f l ps,
  (forall p, In p (removelast ps) -> aget n' p = aget n p) -> chain n f l ps -> chain n' f l ps.
Proof.
  intros n n' f l [|p t] E; [now simpl|]. unfold chain. intros (A & B & C). split; [easy|]. split; [easy|].
  eapply links_ext; eauto.
Qed.
Lemma in_removelast : forall (A : Type) (l : list A) x, In x (removelast l) -> In x l.
Proof.
  induction l as [|a [|b t] IH]; intros x H; auto; [easy|].
  destruct H as [->|H]; [now left|right; apply IH, H].
Qed.
Lemma removelast_app_ne : forall (A : Type) (l m : list A), m <> [] -> removelast (l ++ m) = l ++ removelast m.
Proof. intros. now apply removelast_app. Qed.
Lemma links_app_inv : forall n l m, links n (l ++ m) -> links n l /\ links n m.
Proof.
  induction l as [|a [|b t] IH]; intros m H.
  - simpl in *. auto.
  - cbn [app] in H. split; [exact I|]. destruct m; [exact I|]. now destruct H.
  - cbn [app] in *. destruct H as [A B]. apply IH in B as [B C]. split; [|exact C]. split; auto.
Qed.
Lemma links_snoc : forall n l a x, links n (l ++ [a]) -> aget n a = Ok x -> links n (l ++ [a; x]).
Proof.
  induction l as [|b [|c t] IH]; intros a x H E.
  - simpl. auto.
  - cbn [app] in *. destruct H as [H _]. simpl. auto.
  - cbn [app] in *. destruct H as [A B]. split; [exact A|]. now apply (IH a x).
Qed.
Lemma links_app : forall n l a b m, links n (l ++ [a]) -> aget n a = Ok b -> links n (b :: m) ->
  links n (l ++ a :: b :: m).
Proof.
  induction l as [|c [|d t] IH]; intros a b m H E L.
  - split; auto.
  - cbn [app] in *. destruct H as [H _]. split; [exact H|]. split; auto.
  - cbn [app] in *. destruct H as [A B]. split; [exact A|]. now apply (IH a b m).
Qed.

Lemma exists_last' : forall (A : Type) (l : list A), l <> [] -> exists l' a, l = l' ++ [a].
Proof. intros A l H. destruct (exists_last H) as (l' & a & ->). eauto. Qed.

(** ** Purging the dead particles of a leaf *)
Definition is_dead (dead : list bool) (p : Z) : bool :=
  match aget dead p with Ok d => d | _ => false end.
Definition live (dead : list bool) (ps : list Z) := filter (fun p => negb (is_dead dead p)) ps.
Definition okpart (dead : list bool) (n : list Z) (p : Z) : Prop :=
  0 <= p < zlen n /\ exists d, aget dead p = Ok d.

Lemma last_app1 : forall (l : list Z) a d, last (l ++ [a]) d = a.
Proof. intros. apply last_last. Qed.

Lemma purge_spec : forall dead rest n i L first fuel,
  (length rest < fuel)%nat ->
  Forall (okpart dead n) (L ++ i :: rest) ->
  NoDup (L ++ i :: rest) ->
  links n L -> links n (i :: rest) ->
  first = match L with [] => -1 | a :: _ => a end ->
  exists n' f' l', purge fuel dead n i (last (i :: rest) (-1)) first (last L (-1)) = Ok (n', f', l') /\
    zlen n' = zlen n /\
    chain n' f' l' (L ++ live dead (i :: rest)) /\
    (forall p, ~ In p (L ++ i :: rest) -> aget n' p = aget n p).
Proof.
  intros dead. induction rest as [|j rest IH]; intros n i L first fuel Hf Hok Hnd HL Hr ->.
  - destruct fuel; [simpl in Hf; lia|]. cbn [purge last].
    assert (Hi : okpart dead n i) by (rewrite Forall_forall in Hok; apply Hok, in_or_app; right; now left).
    destruct Hi as [Hib [d Hd]].
    destruct (Z.eqb_spec i (-1)); [lia|]. rewrite Hd. cbn [bind].
    unfold live. cbn [filter]. unfold is_dead. rewrite Hd.
    destruct d; cbn [negb bind].
    + rewrite Z.eqb_refl. exists n. eexists. eexists. split; [reflexivity|]. split; [easy|].
      rewrite app_nil_r. split; [|easy].
      destruct L as [|a t]; simpl; auto.
    + destruct L as [|a t].
      * cbn [last]. simpl. rewrite Z.eqb_refl. exists n, i, i. split; [reflexivity|]. simpl. auto 6.
      * destruct (exists_last' _ (a :: t)) as (L' & b & E); [easy|]. rewrite E, last_app1 in *.
        assert (Hb : okpart dead n b).
        { rewrite Forall_forall in Hok. apply Hok. rewrite <- app_assoc. apply in_or_app; right; now left. }
        destruct Hb as [Hbb _].
        destruct (Z.eqb_spec b (-1)); [lia|].
        destruct (aset_spec n b i Hbb) as (n' & A1 & A2 & A3 & A4). rewrite A1. cbn [bind].
        rewrite Z.eqb_refl. eexists n', _, i. split; [reflexivity|]. split; [easy|]. split.
        -- rewrite <- E. cbn [app chain]. split; [reflexivity|]. split.
           ++ change (a :: t ++ [i]) with ((a :: t) ++ [i]). now rewrite last_app1.
           ++ change (a :: t ++ [i]) with ((a :: t) ++ [i]). rewrite E, <- app_assoc. cbn [app].
              apply links_snoc; [|easy]. eapply links_ext; [|exact HL].
              intros p Hp. apply A4. rewrite removelast_app in Hp by easy. simpl in Hp. rewrite app_nil_r in Hp.
              intros ->. rewrite <- app_assoc in Hnd. apply NoDup_remove_2 in Hnd. apply Hnd, in_or_app; now left.
        -- intros p Hp. apply A4. intros ->. apply Hp. apply in_or_app; left. apply in_or_app; right; now left.
  - destruct fuel; [simpl in Hf; lia|]. cbn [length] in Hf.
    assert (Hi : okpart dead n i) by (rewrite Forall_forall in Hok; apply Hok, in_or_app; right; now left).
    destruct Hi as [Hib [d Hd]].
    assert (Hne : i <> last (i :: j :: rest) (-1)).
    { cbn [last]. intros E.
      assert (In (last (j :: rest) (-1)) (j :: rest)).
      { destruct (exists_last' _ (j :: rest)) as (X & y & EX); [easy|]. rewrite EX, last_app1. apply in_or_app; right; now left. }
      apply NoDup_remove_2 in Hnd. apply Hnd. apply in_or_app; right. rewrite E. exact H. }
    cbn [purge]. destruct (Z.eqb_spec i (-1)); [lia|]. rewrite Hd. cbn [bind].
    destruct Hr as [Hij Hr].
    assert (Elast : last (i :: j :: rest) (-1) = last (j :: rest) (-1)) by reflexivity.
    rewrite Elast in *.
    assert (Elive : live dead (i :: j :: rest) = (if d then [] else [i]) ++ live dead (j :: rest)).
    { unfold live. cbn [filter]. unfold is_dead at 1. rewrite Hd. destruct d; reflexivity. }
    rewrite Elive.
    assert (Hnd' : NoDup (L ++ j :: rest)) by (apply NoDup_remove_1 in Hnd; exact Hnd).
    assert (Hok' : Forall (okpart dead n) (L ++ j :: rest)).
    { rewrite Forall_forall in *. intros x Hx. apply Hok. apply in_app_or in Hx as [?|?]; apply in_or_app; [now left|right; now right]. }
    destruct d; cbn [negb bind].
    + destruct (Z.eqb_spec i (last (j :: rest) (-1))); [congruence|].
      rewrite Hij. cbn [bind].
      destruct (IH n j L _ fuel ltac:(lia) Hok' Hnd' HL Hr eq_refl) as (n' & f' & l' & P1 & P2 & P3 & P4).
      exists n', f', l'. split; [exact P1|]. split; [easy|]. split; [exact P3|].
      intros p Hp. apply P4. intros X. apply Hp. apply in_app_or in X as [?|?]; apply in_or_app; [now left|right; now right].
    + destruct L as [|a t].
      * simpl (last [] (-1)). rewrite Z.eqb_refl.
        cbn [bind].
        destruct (Z.eqb_spec i (last (j :: rest) (-1))); [congruence|].
        rewrite Hij. cbn [bind].
        destruct (IH n j [i] i fuel ltac:(lia) Hok Hnd I Hr eq_refl) as (n' & f' & l' & P1 & P2 & P3 & P4).
        exists n', f', l'. split; [exact P1|]. split; [easy|]. split; [exact P3|]. exact P4.
      * destruct (exists_last' _ (a :: t)) as (L' & b & E); [easy|]. rewrite E, last_app1 in *.
        assert (Hb : okpart dead n b).
        { rewrite Forall_forall in Hok. apply Hok. rewrite <- app_assoc. apply in_or_app; right; now left. }
        destruct Hb as [Hbb _].
        destruct (Z.eqb_spec b (-1)); [lia|].
        destruct (aset_spec n b i Hbb) as (nn & A1 & A2 & A3 & A4). rewrite A1. cbn [bind].
        destruct (Z.eqb_spec i (last (j :: rest) (-1))); [congruence|].
        assert (Hbi : b <> i).
        { intros ->. rewrite <- app_assoc in Hnd. apply NoDup_remove_2 in Hnd. apply Hnd, in_or_app; right; now left. }
        rewrite A4 by congruence. rewrite Hij. cbn [bind].
        assert (Enext : L' ++ [b] ++ i :: j :: rest = ((L' ++ [b]) ++ [i]) ++ j :: rest)
          by (rewrite <- !app_assoc; reflexivity).
        destruct (IH nn j ((L' ++ [b]) ++ [i]) (match L' ++ [b] with [] => -1 | a0 :: _ => a0 end) fuel)
          as (n' & f' & l' & P1 & P2 & P3 & P4).
        -- lia.
        -- rewrite <- Enext. rewrite <- app_assoc in Hok. eapply Forall_impl; [|exact Hok].
           intros x [B D]. split; [lia|exact D].
        -- rewrite <- Enext. rewrite <- app_assoc in Hnd. exact Hnd.
        -- rewrite <- app_assoc. cbn [app]. apply links_snoc; [|exact A3].
           eapply links_ext; [|exact HL]. intros p Hp. apply A4.
           rewrite removelast_app in Hp by easy. simpl in Hp. rewrite app_nil_r in Hp.
           intros ->. rewrite <- app_assoc in Hnd. apply NoDup_remove_2 in Hnd. apply Hnd, in_or_app; now left.
        -- eapply links_ext; [|exact Hr]. intros p Hp. apply A4. apply in_removelast in Hp.
           intros ->. rewrite <- app_assoc in Hnd. apply NoDup_remove_2 in Hnd. apply Hnd, in_or_app; right; now right.
        -- destruct L'; reflexivity.
        -- exists n', f', l'. rewrite last_app1 in P1. split; [|split; [lia|split]].
           ++ rewrite <- E in P1. exact P1.
           ++ rewrite (app_assoc (L' ++ [b]) [i]). exact P3.
           ++ intros p Hp. rewrite P4.
              ** apply A4. intros ->. apply Hp. apply in_or_app; left. apply in_or_app; right; now left.
              ** intros X. apply Hp. rewrite <- app_assoc. rewrite Enext. exact X.
Qed.

Lemma count_live_spec : forall dead rest n i k fuel,
  (length rest < fuel)%nat -> i <> -1 -> ~ In (-1) rest ->
  NoDup (i :: rest) -> links n (i :: rest) ->
  Forall (fun p => aget dead p = Ok false) (i :: rest) ->
  count_live fuel dead n i (last (i :: rest) (-1)) k = Ok (k + zlen (i :: rest)).
Proof.
  intros dead. induction rest as [|j rest IH]; intros n i k fuel Hf Hi Hr Hnd HL Hok.
  - destruct fuel; [simpl in Hf; lia|]. cbn [count_live last].
    inversion Hok; subst. destruct (Z.eqb_spec i (-1)); [lia|]. rewrite H1. cbn [bind negb].
    rewrite Z.eqb_refl. reflexivity.
  - destruct fuel; [simpl in Hf; lia|]. cbn [count_live]. cbn [length] in Hf.
    inversion Hok; subst. destruct (Z.eqb_spec i (-1)); [lia|]. rewrite H1. cbn [bind negb].
    change (last (i :: j :: rest) (-1)) with (last (j :: rest) (-1)).
    destruct HL as [A B]. inversion Hnd; subst.
    destruct (Z.eqb_spec i (last (j :: rest) (-1))) as [E|].
    + exfalso. apply H3. destruct (exists_last' _ (j :: rest)) as (X & y & EX); [easy|].
      rewrite EX, last_app1 in *. subst. apply in_or_app; right; now left.
    + rewrite A. cbn [bind].
      rewrite IH; auto; try lia.
      * f_equal. unfold zlen. cbn [length]. lia.
      * intros ->; apply Hr; now left.
      * intros X; apply Hr; now right.
Qed.

Lemma nodup_bound : forall (ps : list Z) n, NoDup ps -> (forall p, In p ps -> 0 <= p < Z.of_nat n) ->
  (length ps <= n)%nat.
Proof.
  intros ps n Hnd Hb.
  assert (L : (length ps <= length (zseq 0 n))%nat).
  { apply NoDup_incl_length; [easy|]. intros p Hp. apply zseq_in. specialize (Hb p Hp). lia. }
  now rewrite zseq_length in L.
Qed.

Lemma live_all : forall dead ps, Forall (fun p => aget dead p = Ok false) ps -> live dead ps = ps.
Proof.
  induction 1; [reflexivity|]. unfold live in *. cbn [filter]. unfold is_dead at 1. rewrite H. simpl. now f_equal.
Qed.
Lemma live_forall : forall dead n ps, Forall (okpart dead n) ps ->
  Forall (fun p => aget dead p = Ok false) (live dead ps).
Proof.
  intros. rewrite Forall_forall in *. intros x Hx. unfold live in Hx. apply filter_In in Hx as [A B].
  destruct (H x A) as [_ [d Hd]]. unfold is_dead in B. rewrite Hd in *. destruct d; easy.
Qed.

(** Purging and counting a leaf: the new list holds exactly the live particles, in order. *)
Lemma purge_count : forall dead n f l ps,
  chain n f l ps -> NoDup ps -> Forall (okpart dead n) ps ->
  exists n' f' l',
    purge (S (length n)) dead n f l (-1) (-1) = Ok (n', f', l') /\
    zlen n' = zlen n /\ chain n' f' l' (live dead ps) /\
    (forall p, ~ In p ps -> aget n' p = aget n p) /\
    count_live (S (length n)) dead n' f' l' 0 = Ok (zlen (live dead ps)).
Proof.
  intros dead n f l ps HC Hnd Hok.
  assert (HB : forall p, In p ps -> 0 <= p < zlen n) by (rewrite Forall_forall in Hok; intros; now apply Hok).
  pose proof (nodup_bound ps (length n) Hnd HB) as HLen.
  assert (X : exists n' f' l',
    purge (S (length n)) dead n f l (-1) (-1) = Ok (n', f', l') /\
    zlen n' = zlen n /\ chain n' f' l' (live dead ps) /\
    (forall p, ~ In p ps -> aget n' p = aget n p)).
  { destruct ps as [|p t].
    - destruct HC as [-> ->]. exists n, (-1), (-1). simpl. auto.
    - destruct HC as (-> & -> & HL).
      destruct (purge_spec dead t n p [] (-1) (S (length n))) as (n' & f' & l' & A & B & C & D);
        [simpl in HLen; clear - HLen; lia | exact Hok | exact Hnd | exact I | exact HL | reflexivity | ].
      exists n', f', l'. repeat split; auto. }
  destruct X as (n' & f' & l' & A & B & C & D). exists n', f', l'. repeat split; auto.
  assert (HLn : length n' = length n) by (unfold zlen in B; lia).
  assert (Hl : Forall (fun p => aget dead p = Ok false) (live dead ps)) by (eapply live_forall; eauto).
  assert (Hnd' : NoDup (live dead ps)) by (now apply NoDup_filter).
  assert (Hlen' : (length (live dead ps) <= length ps)%nat).
  { unfold live. clear. induction ps; simpl; [lia|]. destruct (negb (is_dead dead a)); simpl; lia. }
  assert (Hin : forall p, In p (live dead ps) -> p <> -1).
  { intros p Hp. unfold live in Hp. apply filter_In in Hp as [Hp _]. specialize (HB p Hp). lia. }
  destruct (live dead ps) as [|p t] eqn:E.
  - destruct C as [-> ->]. reflexivity.
  - destruct C as (-> & -> & HL). rewrite count_live_spec; auto.
    + cbn [length] in *. lia.
    + apply Hin. now left.
    + intros X. apply (Hin (-1)); [now right|easy].
Qed.
