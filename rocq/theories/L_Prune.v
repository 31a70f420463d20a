From Verif Require Import Prelude L_Prelude S_Tree L_Tree M_Walk Vec M_Box M_Util M_Periodic M_Prune S_Prune L_KDBuild L_KDTop L_StockTree L_Oct4 L_Oct5.
Local Open Scope Z_scope.

Lemma prune_root : forall op t, root (prune op t) = root t.
Proof. intros op [c ks]. reflexivity. Qed.
Lemma relabel_root : forall f t, root (relabel f t) = f (root t).
Proof. intros f [c ks]. reflexivity. Qed.
Lemma fm_map : forall {A B C} (f : A -> B) (g : B -> list C) l, flat_map g (map f l) = flat_map (fun x => g (f x)) l.
Proof. intros. induction l; simpl; congruence. Qed.
Lemma fm_ext : forall {A C} (g h : A -> list C) l, Forall (fun x => g x = h x) l -> flat_map g l = flat_map h l.
Proof. intros. induction H; simpl; congruence. Qed.
Lemma map_fm : forall {A B C} (f : B -> C) (g : A -> list B) l, map f (flat_map g l) = flat_map (fun x => map f (g x)) l.
Proof. intros. induction l; simpl; [easy|]. rewrite map_app. congruence. Qed.
Lemma relabel_preorder : forall f t, preorder (relabel f t) = map f (preorder t).
Proof.
  intros f. induction t as [c ks IH] using rtree_ind2. cbn [relabel preorder map]. f_equal. rewrite fm_map, map_fm. apply fm_ext. exact IH.
Qed.
Lemma leaves_node : forall c ks, ks <> [] -> leaves (RNode c ks) = flat_map leaves ks.
Proof. intros c [|k ks]; [easy|reflexivity]. Qed.
Lemma relabel_leaves : forall f t, leaves (relabel f t) = map f (leaves t).
Proof.
  intros f. induction t as [c ks IH] using rtree_ind2. destruct ks as [|k ks]; [reflexivity|].
  cbn [relabel]. rewrite !leaves_node by (simpl; discriminate). rewrite fm_map, map_fm. apply fm_ext. exact IH.
Qed.
Lemma prune_incl : forall op t x, In x (preorder (prune op t)) -> In x (preorder t).
Proof.
  intros op. induction t as [c ks IH] using rtree_ind2. cbn [prune preorder]. intros x [->|H]; [now left|right].
  destruct (op c); [|destruct H]. rewrite fm_map in H. apply in_flat_map in H as (k & Hk & Hx). apply in_flat_map. exists k. split; [easy|].
  rewrite Forall_forall in IH. now apply IH.
Qed.
Lemma nodup_fm : forall {A} (f g : A -> list Z) l, (forall x y, In x l -> In y (g x) -> In y (f x)) -> (forall x, In x l -> NoDup (f x) -> NoDup (g x)) ->
  NoDup (flat_map f l) -> NoDup (flat_map g l).
Proof.
  induction l as [|a l IH]; simpl; intros Hi Hn H; [constructor|].
  apply nodup_app_inv in H as (H1 & H2 & H3). apply nodup_app_intro; auto.
  intros x Hx Hy. apply (H3 x); [apply Hi; auto|]. apply in_flat_map in Hy as (y & Hy1 & Hy2). apply in_flat_map. exists y. split; auto.
Qed.
Lemma prune_nodup : forall op t, NoDup (preorder t) -> NoDup (preorder (prune op t)).
Proof.
  intros op. induction t as [c ks IH] using rtree_ind2. cbn [prune preorder]. intros H. inversion H as [|? ? H1 H2]; subst.
  constructor.
  - intros K. apply H1. destruct (op c); [|destruct K]. rewrite fm_map in K. apply in_flat_map in K as (k & Hk & Hx). apply in_flat_map. exists k. split; [easy|]. now apply prune_incl in Hx.
  - destruct (op c); [|constructor]. rewrite fm_map. rewrite Forall_forall in IH. revert H2. apply nodup_fm.
    + intros; eapply prune_incl; eauto.
    + auto.
Qed.

Definition val (ids : list Z) (c : Z) : Z := match aget ids c with Ok x => x | _ => 0 end.

Section W.
Variables (ndim : nat) (simbox : dombox) (kernrange macfactor : R) (localNode : bool) (lmin lmax : Z) (hmn hmx : vec).
Variables (celldata : list pcell) (Nmax : Z).
Notation opn := (opens ndim simbox kernrange macfactor localNode lmin lmax hmn hmx).
Notation visit := (prune_visit ndim simbox kernrange macfactor localNode lmin lmax hmn hmx celldata Nmax).
Definition op (c : Z) : bool := match aget celldata c with Ok k => opn k | _ => false end.
Definition pcopy (k : pcell) : pcell := if opn k then k else set_copen (-1) k.
Definition cof (c : Z) : res Z := let! k := aget celldata c in Ok (k_copen k).
Definition cnf (c : Z) : res Z := let! k := aget celldata c in Ok (k_cnext k).

Lemma opens_copen : forall k, opn k = true -> k_copen k <> -1.
Proof.
  intros k. unfold opens. destruct (_ && _)%bool; [discriminate|]. destruct (Z.eqb_spec (k_copen k) (-1)) as [E|E]; [|auto].
  rewrite Bool.orb_true_r. discriminate.
Qed.

Record done (L Lv : list Z) (s s' : pstate) : Prop := {
  d_n : q_n s' = q_n s + zlen L;
  d_li : zlen (q_ids s') = zlen (q_ids s);
  d_lc : zlen (q_cells s') = zlen (q_cells s);
  d_id : forall k c, nth_error L k = Some c -> aget (q_ids s') c = Ok (q_n s + Z.of_nat k);
  d_idf : forall c, ~ In c L -> aget (q_ids s') c = aget (q_ids s) c;
  d_c : forall k c, nth_error L k = Some c -> exists kc, aget celldata c = Ok kc /\ aget (q_cells s') (q_n s + Z.of_nat k) = Ok (pcopy kc);
  d_cf : forall i, i < q_n s -> aget (q_cells s') i = aget (q_cells s) i;
  d_lf : q_leaf s' = q_leaf s ++ map (val (q_ids s')) Lv;
  d_ll : q_local s' = q_local s ++ Lv;
  d_in : incl Lv L }.

Lemma done_nil : forall s, done [] [] s s.
Proof.
  intros s. split; auto; try (intros [|]; discriminate); try (rewrite app_nil_r; reflexivity).
  - unfold zlen. cbn. lia.
  - intros x [].
Qed.
Lemma done_app : forall L1 L2 Lv1 Lv2 s s1 s2, done L1 Lv1 s s1 -> done L2 Lv2 s1 s2 -> NoDup (L1 ++ L2) -> done (L1 ++ L2) (Lv1 ++ Lv2) s s2.
Proof.
  intros L1 L2 Lv1 Lv2 s s1 s2 A B N. apply nodup_app_inv in N as (_ & _ & N). split.
  - rewrite (d_n _ _ _ _ B), (d_n _ _ _ _ A). unfold zlen. rewrite app_length. lia.
  - now rewrite (d_li _ _ _ _ B), (d_li _ _ _ _ A).
  - now rewrite (d_lc _ _ _ _ B), (d_lc _ _ _ _ A).
  - intros k c H. destruct (Nat.lt_ge_cases k (length L1)) as [K|K].
    + rewrite nth_error_app1 in H by exact K. rewrite (d_idf _ _ _ _ B). { now apply (d_id _ _ _ _ A). } apply N. eapply nth_error_In; eauto.
    + rewrite nth_error_app2 in H by exact K. rewrite (d_id _ _ _ _ B _ _ H), (d_n _ _ _ _ A). unfold zlen. f_equal. lia.
  - intros c H. rewrite (d_idf _ _ _ _ B), (d_idf _ _ _ _ A); [easy| |]; intros K; apply H, in_or_app; auto.
  - intros k c H. destruct (Nat.lt_ge_cases k (length L1)) as [K|K].
    + rewrite nth_error_app1 in H by exact K. destruct (d_c _ _ _ _ A _ _ H) as (kc & E1 & E2). exists kc. split; [easy|].
      rewrite (d_cf _ _ _ _ B); [easy|]. rewrite (d_n _ _ _ _ A). unfold zlen. lia.
    + rewrite nth_error_app2 in H by exact K. destruct (d_c _ _ _ _ B _ _ H) as (kc & E1 & E2). exists kc. split; [easy|].
      rewrite <- E2, (d_n _ _ _ _ A). unfold zlen. f_equal. lia.
  - intros i H. rewrite (d_cf _ _ _ _ B), (d_cf _ _ _ _ A); [easy|easy|]. rewrite (d_n _ _ _ _ A). unfold zlen. lia.
  - rewrite (d_lf _ _ _ _ B), (d_lf _ _ _ _ A), map_app, app_assoc. do 2 f_equal. apply map_ext_in. intros c H. unfold val. rewrite (d_idf _ _ _ _ B); [easy|].
    apply N. now apply (d_in _ _ _ _ A).
  - now rewrite (d_ll _ _ _ _ B), (d_ll _ _ _ _ A), app_assoc.
  - intros x H. apply in_app_iff in H as [H|H]; apply in_or_app; [left; now apply (d_in _ _ _ _ A)|right; now apply (d_in _ _ _ _ B)].
Qed.

(** One cell. *)
Lemma visit_ok : forall c s k, aget celldata c = Ok k -> 0 <= c < zlen (q_ids s) -> 0 <= q_n s < Nmax -> Nmax <= zlen (q_cells s) ->
  exists s', visit c s = Ok (s', if opn k then Down else Skip) /\ done [c] (if opn k then [] else [c]) s s'.
Proof.
  intros c s k Ek Hc Hn Hm. unfold prune_visit. destruct (Z.eqb_spec (q_n s) Nmax); [lia|].
  rewrite aset_in by lia. cbn [bind]. rewrite Ek. cbn [bind].
  assert (G : aget (upd (q_ids s) (Z.to_nat c) (q_n s)) c = Ok (q_n s)) by (apply aget_upd_eq; lia).
  assert (GF : forall x, ~ In x [c] -> aget (upd (q_ids s) (Z.to_nat c) (q_n s)) x = aget (q_ids s) x).
  { intros x Hx. destruct (Z.lt_ge_cases x 0) as [Ng|Ps].
    - unfold aget. destruct (Z.ltb_spec x 0); [easy|lia].
    - apply aget_upd_ne; [lia|]. intros ->. apply Hx. now left. }
  destruct (opn k) eqn:EO.
  - rewrite aset_in by lia. cbn [bind]. eexists. split; [reflexivity|].
    apply opens_copen in EO as EC. destruct (Z.eqb_spec (k_copen k) (-1)); [easy|].
    split; cbn [q_n q_ids q_cells q_leaf q_local].
    + reflexivity.
    + apply zlen_upd.
    + apply zlen_upd.
    + intros [|[|]] x H; try discriminate. injection H as <-. rewrite G. f_equal. lia.
    + exact GF.
    + intros [|[|]] x H; try discriminate. injection H as <-. exists k. split; [easy|]. unfold pcopy. rewrite EO.
      replace (q_n s + Z.of_nat 0) with (q_n s) by lia. apply aget_upd_eq. lia.
    + intros i Hi. destruct (Z.lt_ge_cases i 0) as [Ng|Ps].
      * unfold aget. destruct (Z.ltb_spec i 0); [easy|lia].
      * apply aget_upd_ne; lia.
    + now rewrite app_nil_r.
    + now rewrite app_nil_r.
    + intros x [].
  - rewrite aset_in by lia. cbn [bind]. eexists. split; [reflexivity|].
    split; cbn [q_n q_ids q_cells q_leaf q_local].
    + reflexivity.
    + apply zlen_upd.
    + apply zlen_upd.
    + intros [|[|]] x H; try discriminate. injection H as <-. rewrite G. f_equal. lia.
    + exact GF.
    + intros [|[|]] x H; try discriminate. injection H as <-. exists k. split; [easy|]. unfold pcopy. rewrite EO.
      replace (q_n s + Z.of_nat 0) with (q_n s) by lia. apply aget_upd_eq. lia.
    + intros i Hi. destruct (Z.lt_ge_cases i 0) as [Ng|Ps].
      * unfold aget. destruct (Z.ltb_spec i 0); [easy|lia].
      * apply aget_upd_ne; lia.
    + cbn [map]. unfold val. now rewrite G.
    + reflexivity.
    + intros x Hx. exact Hx.
Qed.

Definition outcome (L Lv : list Z) (r : res (pstate * bool)) (s : pstate) : Prop :=
  (q_n s + zlen L <= Nmax -> exists s', r = Ok (s', false) /\ done L Lv s s') /\
  (Nmax < q_n s + zlen L -> exists s', r = Ok (s', true)).

Variable Ncell : Z.
Hypothesis HN : Ncell <= zlen celldata.
Lemma twalk_done : forall t next s, linked Ncell cof cnf t next ->
  (forall c, In c (preorder t) -> 0 <= c < Ncell) -> NoDup (preorder t) ->
  0 <= q_n s <= Nmax -> Nmax <= zlen (q_cells s) -> Ncell <= zlen (q_ids s) ->
  outcome (preorder (prune op t)) (leaves (prune op t)) (twalk visit t s) s.
Proof.
  induction t as [c ks IH] using rtree_ind2. intros next s Li Hb Nd Hn Hm Hi.
  rewrite linked_unfold in Li. destruct Li as (_ & Co & Lk).
  assert (Bc : 0 <= c < Ncell) by (apply Hb; now left).
  destruct (aget_in celldata c) as [k Ek]; [lia|].
  rewrite twalk_unfold. cbn [prune]. unfold op at 1 3. rewrite Ek.
  destruct (Z.eq_dec (q_n s) Nmax) as [Full|NF].
  { unfold prune_visit at 1. rewrite (proj2 (Z.eqb_eq _ _) Full). cbn [bind]. split.
    - cbn [preorder]. unfold zlen. cbn [length]. lia.
    - intros _. eauto. }
  destruct (visit_ok c s k Ek) as (s1 & E1 & D1); [lia|lia|lia|]. rewrite E1. cbn [bind].
  destruct (opn k) eqn:EO.
  2:{ split.
      - intros _. exists s1. split; [reflexivity|]. exact D1.
      - cbn [preorder flat_map]. change (zlen [c]) with 1. lia. }
  assert (Kn : ks <> []).
  { intros ->. unfold cof in Co. rewrite Ek in Co. cbn in Co. injection Co as Co. now apply (opens_copen k EO). }
  rewrite leaves_node by (destruct ks; [easy|discriminate]). cbn [preorder].
  inversion Nd as [|? ? Nd1 Nd2]; subst.
  assert (F : forall l nx s2, linked_list Ncell cof cnf l nx -> Forall (fun t => forall next s, linked Ncell cof cnf t next ->
     (forall c, In c (preorder t) -> 0 <= c < Ncell) -> NoDup (preorder t) -> 0 <= q_n s <= Nmax -> Nmax <= zlen (q_cells s) -> Ncell <= zlen (q_ids s) ->
     outcome (preorder (prune op t)) (leaves (prune op t)) (twalk visit t s) s) l ->
     (forall c, In c (flat_map preorder l) -> 0 <= c < Ncell) -> NoDup (flat_map preorder l) ->
     0 <= q_n s2 <= Nmax -> Nmax <= zlen (q_cells s2) -> Ncell <= zlen (q_ids s2) ->
     outcome (flat_map preorder (map (prune op) l)) (flat_map leaves (map (prune op) l)) (twalks visit l s2) s2).
  { clear. induction l as [|t l IHl]; intros nx s2 Lk IH Hb Nd Hn Hm Hi.
    - cbn. split.
      + intros _. exists s2. split; [reflexivity|]. apply done_nil.
      + change (zlen (@nil Z)) with 0. lia.
    - cbn [linked_list] in Lk. destruct Lk as [L1 L2]. inversion IH as [|? ? IH1 IH2]; subst. cbn [flat_map map] in *.
      apply nodup_app_inv in Nd as (N1 & N2 & N3).
      destruct (IH1 _ s2 L1) as [A B]; auto. { intros; apply Hb, in_or_app; auto. }
      cbn [twalks]. set (P1 := preorder (prune op t)) in *. set (P2 := flat_map preorder (map (prune op) l)) in *.
      assert (ZP : zlen (P1 ++ P2) = zlen P1 + zlen P2) by (unfold zlen; rewrite app_length; lia).
      assert (Z2 : 0 <= zlen P2) by (unfold zlen; lia).
      destruct (Z.le_gt_cases (q_n s2 + zlen P1) Nmax) as [K|K].
      + destruct (A K) as (s3 & E3 & D3). rewrite E3. cbn [bind].
        destruct (IHl nx s3 L2 IH2) as [A2 B2]; auto.
        { intros; apply Hb, in_or_app; auto. }
        { rewrite (d_n _ _ _ _ D3). unfold zlen in *. lia. }
        { rewrite (d_lc _ _ _ _ D3). exact Hm. }
        { rewrite (d_li _ _ _ _ D3). exact Hi. }
        split; intros H; rewrite ZP in H.
        * destruct A2 as (s4 & E4 & D4). { rewrite (d_n _ _ _ _ D3). fold P2. lia. }
          exists s4. split; [exact E4|]. eapply done_app; eauto.
          apply nodup_app_intro.
          -- now apply prune_nodup.
          -- unfold P2. rewrite fm_map. revert N2. apply nodup_fm; intros; [eapply prune_incl; eauto|now apply prune_nodup].
          -- intros x Hx Hy. apply (N3 x). { now apply prune_incl in Hx. }
             unfold P2 in Hy. rewrite fm_map in Hy. apply in_flat_map in Hy as (y & Y1 & Y2). apply in_flat_map. exists y. split; [easy|]. now apply prune_incl in Y2.
        * destruct B2 as (s4 & E4). { rewrite (d_n _ _ _ _ D3). fold P2. lia. } exists s4. exact E4.
      + destruct (B ltac:(lia)) as (s3 & E3). rewrite E3. cbn [bind]. split; intros H; rewrite ZP in H; [lia|]. eauto. }
  destruct (F ks next s1 Lk IH) as [A B]; auto.
  { intros; apply Hb; now right. }
  { rewrite (d_n _ _ _ _ D1). unfold zlen. cbn [length]. lia. }
  { now rewrite (d_lc _ _ _ _ D1). }
  { now rewrite (d_li _ _ _ _ D1). }
  rewrite (d_n _ _ _ _ D1) in A, B. change (zlen [c]) with 1 in A, B.
  assert (ZP : zlen (c :: flat_map preorder (map (prune op) ks)) = 1 + zlen (flat_map preorder (map (prune op) ks))) by (unfold zlen; cbn [length]; lia).
  split; intros H; rewrite ZP in H.
  - destruct A as (s2 & E2 & D2); [lia|]. exists s2. split; [exact E2|].
    change (c :: flat_map preorder (map (prune op) ks)) with ([c] ++ flat_map preorder (map (prune op) ks)).
    change (flat_map leaves (map (prune op) ks)) with ([] ++ flat_map leaves (map (prune op) ks)).
    eapply done_app; eauto. assert (O : op c = true) by (unfold op; now rewrite Ek).
    pose proof (prune_nodup op (RNode c ks) Nd) as Q. cbn [prune preorder] in Q. rewrite O in Q. exact Q.
  - apply B. lia.
Qed.
End W.
