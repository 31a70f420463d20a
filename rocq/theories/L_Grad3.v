(** Gradients and limiters seen by a moving observer; counterexamples. *)
From Verif Require Import Prelude L_Prelude Vec M_Box L_Box M_Force M_Matrix L_Matrix M_Mfv M_Grad S_Grad S_Mfv S_Stock L_Stock L_Grad L_Grad2.
From Coq Require Import Reals Lra Lia Psatz FunctionalExtensionality.
Local Open Scope R_scope.

Section Moving.
Variables (n : nat) (V : vec).
Notation mv := (moving n V).
Notation mvl l := (map (moving n V) l).
Lemma mv_diff : forall p q var, g_W (mv q) var - g_W (mv p) var = g_W q var - g_W p var.
Proof. intros p q var. cbn [moving g_W]. destruct (Nat.ltb var n); lra. Qed.
Lemma mv_e : forall w0 p l E, e_loop n w0 (mv p) (mvl l) E = e_loop n w0 p l E.
Proof. intros w0 p l. induction l as [|q l IH]; intros E; cbn [map e_loop]; [reflexivity|]. rewrite IH. reflexivity. Qed.
Lemma mv_tmp : forall w0 p l G, tmp_loop n w0 (mv p) (mvl l) G = tmp_loop n w0 p l G.
Proof.
  intros w0 p l. induction l as [|q l IH]; intros G; cbn [map tmp_loop]; [reflexivity|]. rewrite IH. f_equal.
  extensionality var. extensionality k. rewrite mv_diff. reflexivity.
Qed.
Lemma mv_sph : forall w1 p l G, sph_loop n w1 (mv p) (mvl l) G = sph_loop n w1 p l G.
Proof.
  intros w1 p l. induction l as [|q l IH]; intros G; cbn [map sph_loop]; [reflexivity|].
  change (g_r (mv q)) with (g_r q). change (g_r (mv p)) with (g_r p). change (g_hfactor (mv p)) with (g_hfactor p). change (g_ndens (mv p)) with (g_ndens p). change (g_h (mv p)) with (g_h p).
  cbv zeta. destruct (Req_EM_T _ 0); rewrite IH; [reflexivity|]. f_equal. extensionality var. extensionality k. rewrite mv_diff. reflexivity.
Qed.
Lemma grad_moving : forall w0 w1 p l, ComputeGradients n w0 w1 (mv p) (mvl l) = mv (ComputeGradients n w0 w1 p l).
Proof.
  intros w0 w1 p l. unfold ComputeGradients. rewrite mv_e, mv_tmp, mv_sph. destruct (if Req_EM_T _ _ then _ else _); reflexivity.
Qed.
Lemma slopes_moving : forall p q d, Slopes n (mv p) (mv q) d = Slopes n p q d.
Proof. reflexivity. Qed.
Lemma mv_tvd : forall edge p var l a, tvd_loop n edge (mv p) var (mvl l) a = tvd_loop n edge p var l a.
Proof.
  intros edge p var l. induction l as [|q l IH]; intros a; cbn [map tvd_loop]; [reflexivity|]. rewrite IH. rewrite mv_diff. reflexivity.
Qed.
Lemma tvd_moving : forall edge p l, TVDCell n edge (mv p) (mvl l) = mv (TVDCell n edge p l).
Proof. intros edge p l. unfold TVDCell, set_alpha, moving. cbn. f_equal. extensionality var. apply mv_tvd. Qed.
Lemma max_shift : forall c var l x, fold_left (fun x q => Rmax x (g_W q var + c)) l (x + c) = fold_left (fun x q => Rmax x (g_W q var)) l x + c.
Proof.
  intros c var l. induction l as [|q l IH]; intros x; cbn [fold_left]; [reflexivity|]. rewrite <- IH. f_equal. unfold Rmax. destruct (Rle_dec (x + c) _), (Rle_dec x _); lra.
Qed.
Lemma min_shift : forall c var l x, fold_left (fun x q => Rmin x (g_W q var + c)) l (x + c) = fold_left (fun x q => Rmin x (g_W q var)) l x + c.
Proof.
  intros c var l. induction l as [|q l IH]; intros x; cbn [fold_left]; [reflexivity|]. rewrite <- IH. f_equal. unfold Rmin. destruct (Rle_dec (x + c) _), (Rle_dec x _); lra.
Qed.
Lemma fold_map : forall {A B C} (f : A -> B -> A) (g : C -> B) l x, fold_left f (map g l) x = fold_left (fun x c => f x (g c)) l x.
Proof. intros A B C f g l. induction l as [|c l IH]; intros x; cbn; [reflexivity | apply IH]. Qed.
Lemma mv_max : forall p l var, wmax (mv p) (mvl l) var - g_W (mv p) var = wmax p l var - g_W p var.
Proof.
  intros p l var. unfold wmax. rewrite fold_map. cbn [moving g_W]. destruct (Nat.ltb var n); [|reflexivity]. rewrite max_shift. lra.
Qed.
Lemma mv_min : forall p l var, wmin (mv p) (mvl l) var - g_W (mv p) var = wmin p l var - g_W p var.
Proof.
  intros p l var. unfold wmin. rewrite fold_map. cbn [moving g_W]. destruct (Nat.ltb var n); [|reflexivity]. rewrite min_shift. lra.
Qed.
Lemma set_alpha_moving : forall p a a', (forall k, a k = a' k) -> set_alpha (mv p) a = mv (set_alpha p a').
Proof. intros p a a' H. replace a with a' by (extensionality k; symmetry; apply H). reflexivity. Qed.
Lemma springel_moving : forall edge p l, SpringelCell n edge (mv p) (mvl l) = mv (SpringelCell n edge p l).
Proof.
  intros edge p l. apply set_alpha_moving. intros var.
  rewrite mv_max, mv_min. generalize (wmax p l var - g_W p var) (wmin p l var - g_W p var). intros M m. generalize 1.
  induction l as [|q l IH]; intros a; cbn [map springel_loop]; [reflexivity|]. rewrite IH. reflexivity.
Qed.
Lemma scalar_moving : forall edge p l, ScalarCell n edge (mv p) (mvl l) = mv (ScalarCell n edge p l).
Proof.
  intros edge p l. apply set_alpha_moving. intros var. replace (drmaxsqd n (mv p) (mvl l)) with (drmaxsqd n p l) by (unfold drmaxsqd; rewrite fold_map; reflexivity).
  change (g_h (mv p)) with (g_h p). change (g_grad (mv p) var) with (g_grad p var). rewrite mv_max.
  replace (g_W (mv p) var - wmin (mv p) (mvl l) var) with (g_W p var - wmin p l var) by (pose proof (mv_min p l var); lra). reflexivity.
Qed.
End Moving.
