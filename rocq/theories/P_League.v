(** C54: the calendar of the processes and the blocking exchange of particles. *)
From Verif Require Import Prelude L_Prelude S_Tree M_Util P_Util M_League S_League L_League L_League2.
Local Open Scope Z_scope.

(** Every number of processes that the program accepts: one process has nothing to do; otherwise the calendar is a round
    robin, written without leaving the arrays. *)
Theorem C54_calendar : forall Nmpi, main_check Nmpi = Ok tt ->
  exists cal, CreateLeagueCalendar Nmpi = Ok cal /\ round_robin Nmpi cal.
Proof.
  intros n H. unfold main_check in H. destruct (C39_isPowerOfTwo n) as (b & E & B). rewrite E in H. cbn [bind] in H. destruct b; [|discriminate].
  destruct (proj1 B eq_refl) as (k & Hk & ->). destruct (Z.eq_dec k 0) as [->|Nk].
  - exists [[]]. split; [reflexivity|]. constructor.
    + split; [reflexivity|]. intros a row Ea. apply aget_Ok_inv in Ea as [_ Ea]. apply nth_error_In in Ea as [<-|[]]. reflexivity.
    + intros a t Ha Ht. exfalso. change (2 ^ 0) with 1 in Ht. lia.
    + intros a b Ha Hb Hab. exfalso. change (2 ^ 0) with 1 in *. lia.
  - replace k with (Z.succ (k - 1)) by lia. rewrite Z.pow_succ_r by lia. assert (0 < 2 ^ (k - 1)) by (apply Z.pow_pos_nonneg; lia).
    set (h := 2 ^ (k - 1)) in *. clearbody h. apply calendar_round_robin; [lia|]. rewrite Z.mul_comm. apply Z_mod_mult.
Qed.
(** The exchange of the processes under every schedule and every choice of which sends are buffered: it takes at most
    2 Nmpi (Nmpi - 1) steps, at every moment before the end some process can go on without any buffering, and at the end
    every process has from every other process exactly what was meant for it. *)
Theorem C54_exchange : forall Nmpi cal M (msg : Z -> Z -> M), main_check Nmpi = Ok tt -> CreateLeagueCalendar Nmpi = Ok cal ->
  forall n s, steps msg n (start Nmpi cal) s ->
  Z.of_nat n <= 2 * Nmpi * (Nmpi - 1) /\ (finished msg Nmpi s \/ exists s', sure_step msg s s').
Proof.
  intros Nmpi cal M msg Hm E n s H. destruct (C54_calendar Nmpi Hm) as (cal' & E' & RR). rewrite E in E'. injection E' as <-.
  destruct (Z_le_gt_dec 2 Nmpi) as [H2|H1]; [exact (exchange_ok msg Nmpi cal H2 RR n s H)|].
  assert (N1 : Nmpi = 1).
  { unfold main_check in Hm. destruct (C39_isPowerOfTwo Nmpi) as (b & Eb & B). rewrite Eb in Hm. cbn [bind] in Hm. destruct b; [|discriminate].
    destruct (proj1 B eq_refl) as (k & Hk & Ek). assert (0 < 2 ^ k) by (apply Z.pow_pos_nonneg; lia). lia. }
  subst Nmpi. injection E as <-.
  assert (P0 : forall r, prog (@start M 1 [[]]) r = []). { intros r. cbn. destruct ((0 <=? r) && (r <? 1)) eqn:X; [|reflexivity]. destruct (Z.to_nat r) as [|[|?]]; reflexivity. }
  assert (X : n = O /\ s = start 1 [[]]).
  { remember (start 1 [[]]) as s0 eqn:E0. induction H as [s|n s s' s'' H IH St]; subst; [now split|]. destruct (IH eq_refl P0) as [-> ->]. exfalso.
    inversion St as [? ? Sr|? p q a Ep]; subst; [|now rewrite P0 in Ep]. inversion Sr as [? p q a m l Ep|? p q a b _ Ep]; subst; now rewrite P0 in Ep. }
  destruct X as [-> ->]. split; [cbn; lia|]. left. split; [exact P0|]. split; [reflexivity|]. intros q Hq. split; [constructor|]. intros p m. cbn. lia.
Qed.
(** The test of MpiControl's constructor for an even number of processes refuses nothing. *)
Theorem C54_constructor_check_passes_all : forall Nmpi, 1 <= Nmpi -> even_check Nmpi = Ok tt.
Proof. intros n H. unfold even_check. destruct (Z.eqb_spec n 0); [lia|reflexivity]. Qed.
(** With three processes the calendar would make process 1 wait for itself and process 0 and 2 for each other. *)
Theorem C54_three_processes : even_check 3 = Ok tt /\ exists cal, CreateLeagueCalendar 3 = Ok cal /\ ~ round_robin 3 cal.
Proof.
  split; [reflexivity|]. eexists. split; [vm_compute; reflexivity|]. intros RR. destruct (rr_pairs _ _ RR 1 0) as (b & _ & Hb & (row & E1 & E2) & (row' & E3 & E4)); try lia.
  vm_compute in E1. injection E1 as <-. vm_compute in E2. injection E2 as <-. vm_compute in E3. injection E3 as <-. vm_compute in E4. discriminate.
Qed.

(** Eight processes. *)
Example C54_example : main_check 8 = Ok tt /\ exists cal, CreateLeagueCalendar 8 = Ok cal /\
  aget cal 0 = Ok [7; 2; 4; 6; 1; 3; 5] /\ aget cal 5 = Ok [2; 4; 6; 1; 3; 7; 0] /\
  exists s, @steps Z (fun p q => 10 * p + q) 1 (start 8 cal) s /\ got s 7 = [(0, 7)].
Proof.
  split; [reflexivity|]. eexists. split; [vm_compute; reflexivity|]. split; [reflexivity|]. split; [reflexivity|].
  eexists. split.
  - eapply steps_S; [apply steps_O|]. apply sure. eapply (meet _ _ 0 7); [lia|vm_compute; reflexivity|vm_compute; reflexivity|reflexivity].
  - reflexivity.
Qed.

Print Assumptions C54_calendar.
Print Assumptions C54_exchange.
Print Assumptions C54_constructor_check_passes_all.
Print Assumptions C54_three_processes.
