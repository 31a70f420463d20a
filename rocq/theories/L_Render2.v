(** The table of kernels integrated along a line. *)
From Coq Require Import Reals Lra Psatz.
From Coquelicot Require Import Coquelicot.
From Verif Require Import Prelude M_Box L_Box M_Render.
Local Open Scope R_scope.

(** Left sums of a function that does not increase. *)
Lemma cell_int (g : R -> R) a b : a <= b -> (forall x, continuous g x) -> (forall x y, a <= x <= y -> y <= b -> g y <= g x) ->
  (b - a) * g b <= RInt g a b <= (b - a) * g a.
Proof.
  intros Hab Hc Hm. assert (I : ex_RInt g a b) by (apply (@ex_RInt_continuous R_CompleteNormedModule); intros; apply Hc).
  split.
  - replace ((b - a) * g b) with (RInt (fun _ => g b) a b) by (rewrite RInt_const; reflexivity).
    apply RInt_le; auto; [apply ex_RInt_const|]. intros x Hx. apply Hm; lra.
  - replace ((b - a) * g a) with (RInt (fun _ => g a) a b) by (rewrite RInt_const; reflexivity).
    apply RInt_le; auto; [apply ex_RInt_const|]. intros x Hx. apply Hm; lra.
Qed.
Lemma los_sum_bounds w b2 step n : 0 <= step -> 0 <= b2 -> (forall x, continuous (fun l => w (sqrt (l * l + b2))) x) ->
  (forall s t, 0 <= s <= t -> w t <= w s) ->
  let g := fun l => w (sqrt (l * l + b2)) in
  RInt g 0 (step * INR n) <= los_sum w b2 step n <= RInt g 0 (step * INR n) + step * (g 0 - g (step * INR n)).
Proof.
  intros Hs Hb Hc Hm g. induction n as [|n IH].
  - cbn [los_sum INR]. rewrite Rmult_0_r, RInt_point. change (@zero R_CompleteNormedModule) with 0. lra.
  - cbn [los_sum]. rewrite S_INR. set (a := step * INR n) in *. replace (step * (INR n + 1)) with (a + step) by (unfold a; ring).
    assert (Ha : 0 <= a) by (unfold a; pose proof (pos_INR n); nra).
    assert (I : forall x y, ex_RInt g x y) by (intros; apply (@ex_RInt_continuous R_CompleteNormedModule); intros; apply Hc).
    rewrite <- (RInt_Chasles g 0 a (a + step)) by apply I. change (plus (RInt g 0 a) (RInt g a (a + step))) with (RInt g 0 a + RInt g a (a + step)).
    destruct (cell_int g a (a + step)) as [A B]; [lra|exact Hc| |].
    { intros x y H1 H2. unfold g. apply Hm. split; [apply sqrt_pos|]. apply sqrt_le_1_alt. nra. }
    replace (a + step - a) with step in A, B by ring. change (w (sqrt (a * a + b2))) with (g a). destruct IH as [J1 J2]. split; lra.
Qed.
Lemma comp_cont (w : R -> R) b2 : 0 <= b2 -> (forall s, continuous w s) -> forall x, continuous (fun l => w (sqrt (l * l + b2))) x.
Proof.
  intros Hb Hw x. apply (continuous_comp (fun l => sqrt (l * l + b2)) w); [|apply Hw].
  apply (continuous_comp (fun l => l * l + b2) sqrt); [|apply continuous_sqrt].
  apply (@ex_derive_continuous R_AbsRing R_NormedModule). auto_derive. exact I.
Qed.
(** Change of length along the line. *)
Lemma los_scale (w : R -> R) b h L : 0 < h -> (forall s, continuous w s) ->
  RInt (fun z => w (sqrt (b * b + z * z) / h) / h ^ 3) 0 (h * L) = RInt (fun l => w (sqrt (l * l + b / h * (b / h)))) 0 L / h ^ 2.
Proof.
  intros Hh Hw.
  assert (C : forall x, continuous (fun l => w (sqrt (l * l + b / h * (b / h)))) x) by (apply comp_cont; [apply Rle_0_sqr|exact Hw]).
  assert (E : ex_RInt (fun l => w (sqrt (l * l + b / h * (b / h)))) 0 L) by (apply (@ex_RInt_continuous R_CompleteNormedModule); intros; apply C).
  set (g := fun l => w (sqrt (l * l + b / h * (b / h)))) in *.
  transitivity (RInt (fun z => / h ^ 2 * (/ h * g (/ h * z + 0))) 0 (h * L)).
  - apply RInt_ext. intros z _. unfold g.
    replace (sqrt ((/ h * z + 0) * (/ h * z + 0) + b / h * (b / h))) with (sqrt (b * b + z * z) / h).
    + match goal with |- @eq _ ?a ?b => change (@eq R a b) end. field. lra.
    + replace ((/ h * z + 0) * (/ h * z + 0) + b / h * (b / h)) with ((b * b + z * z) * (/ h * / h)) by (field; lra).
      rewrite sqrt_mult_alt by nra. rewrite sqrt_square; [reflexivity|]. apply Rlt_le, Rinv_0_lt_compat, Hh.
  - assert (E2 : ex_RInt g (/ h * 0 + 0) (/ h * (h * L) + 0)) by (replace (/ h * 0 + 0) with 0 by ring; replace (/ h * (h * L) + 0) with L by (field; lra); exact E).
    transitivity (/ h ^ 2 * RInt (fun z => / h * g (/ h * z + 0)) 0 (h * L)).
    + apply (RInt_scal (V := R_CompleteNormedModule) (fun z => / h * g (/ h * z + 0)) 0 (h * L) (/ h ^ 2)).
      apply (ex_RInt_comp_lin g (/ h) 0 0 (h * L)). exact E2.
    + pose proof (RInt_comp_lin (V := R_CompleteNormedModule) g (/ h) 0 0 (h * L) E2) as Q. change (RInt (fun z => / h * g (/ h * z + 0)) 0 (h * L) = RInt g (/ h * 0 + 0) (/ h * (h * L) + 0)) in Q. rewrite Q.
      replace (/ h * 0 + 0) with 0 by ring. replace (/ h * (h * L) + 0) with L by (field; lra). match goal with |- @eq _ ?a ?b => change (@eq R a b) end. field. lra.
Qed.
