(** Restarted runs. *)
From Coq Require Import Ascii String Reals Lra.
From Verif Require Import Prelude M_Params S_Params L_Params M_Output S_Output L_Output L_Output2 L_Output3.
Local Open Scope Z_scope.

(** ** Words *)
Definition solid (s : text) : Prop := Forall (fun c => is_space c = false) s.
Lemma solid_app : forall a b, solid a -> solid b -> solid (a ++ b).
Proof. intros. apply Forall_app. auto. Qed.
Lemma solid_sub : forall a b, solid (a ++ b) -> solid a.
Proof. intros a b H. apply Forall_app in H. tauto. Qed.
Lemma skip_solid : forall s r, solid s -> s <> [] -> skip_ws (s ++ r) = s ++ r.
Proof. intros [|c s] r H N; [contradiction|]. cbn. now rewrite (Forall_inv H). Qed.
Lemma upto_solid : forall s, solid s -> upto_space s = (s, []).
Proof. induction s as [|c s IH]; intros H; [reflexivity|]. cbn. rewrite (Forall_inv H), (IH (Forall_inv_tail H)). reflexivity. Qed.
Lemma upto_solid_sp : forall s c r, solid s -> is_space c = true -> upto_space (s ++ c :: r) = (s, c :: r).
Proof. induction s as [|x s IH]; intros c r H C; cbn; [now rewrite C|]. rewrite (Forall_inv H), (IH c r (Forall_inv_tail H) C). reflexivity. Qed.
Lemma word_solid : forall s, solid s -> word s = (s, []).
Proof.
  intros s H. unfold word. destruct s as [|c s]; [reflexivity|]. rewrite <- (app_nil_r (c :: s)) at 1. rewrite skip_solid by (auto; discriminate). rewrite app_nil_r. now apply upto_solid.
Qed.
Lemma word_sp : forall s c r, solid s -> s <> [] -> is_space c = true -> word (s ++ c :: r) = (s, c :: r).
Proof. intros. unfold word. rewrite skip_solid by auto. now apply upto_solid_sp. Qed.
Lemma word_nl : forall s, word (newline :: s) = word s.
Proof. reflexivity. Qed.
Lemma chars_Ch : forall s, chars (map Ch s) = s.
Proof. induction s as [|c s IH]; [reflexivity|]. cbn. now f_equal. Qed.
(** The words of a part of the restart file. *)
Lemma two_words : forall form f pre suf w1 r w2 r2, solid form -> form <> [] -> solid f -> form ++ newline :: f ++ [newline] = pre ++ suf ->
  word pre = (w1, r) -> word r = (w2, r2) -> w2 <> [] ->
  w1 = form /\ (pre = form ++ newline :: w2 \/ w2 = f /\ pre = form ++ newline :: f ++ [newline]) /\ exists v, f = w2 ++ v.
Proof.
  intros form f pre suf w1 r w2 r2 SF NF S E W1 W2 N.
  assert (C : (exists u, form = pre ++ u) \/ exists g, pre = form ++ newline :: g /\ f ++ [newline] = g ++ suf).
  { clear - E. revert pre E. induction form as [|c form IH]; intros [|x pre] E; cbn in *.
    - left. now exists [].
    - right. injection E as <- E. exists pre. auto.
    - left. now exists (c :: form).
    - injection E as <- E. destruct (IH pre E) as [(u & ->) | (g & -> & A)]; [left; now exists u | right; now exists g]. }
  destruct C as [(u & ->) | (g & -> & A)].
  - apply solid_sub in SF. rewrite word_solid in W1 by exact SF. injection W1 as <- <-. injection W2 as <- _. contradiction.
  - rewrite word_sp in W1 by auto. injection W1 as <- <-. split; [reflexivity|]. rewrite word_nl in W2.
    destruct suf as [|x suf] using rev_ind.
    + rewrite app_nil_r in A. subst g. destruct f as [|c f']; [cbn in W2; injection W2 as <- _; contradiction|]. rewrite word_sp in W2 by (auto; discriminate). injection W2 as <- _.
      split; [right; auto|]. exists []. now rewrite app_nil_r.
    + clear IHsuf. rewrite app_assoc in A. apply app_inj_tail in A as [A _]. subst f. apply solid_sub in S. rewrite word_solid in W2 by exact S. injection W2 as <- _.
      split; [left; reflexivity|]. now exists suf.
Qed.

Section Hist.
Variable p : pars.
Hypothesis G : good_pars p.
Hypothesis SP : seren_pars p.
Hypothesis NB : nbody p = false.
Hypothesis SC : (0 < scale p)%R.
Hypothesis TF : tsnapfirst p = dt_snap p \/ (tsnapfirst p <= 0)%R.
Notation chunks := (chunks p). Notation calls := (calls p). Notation cont := (cont p). Notation sched := (sched p).

Lemma fmt_seren : fmt p = SerenForm \/ fmt p = SerenUnform.
Proof. unfold fmt. pose proof SP as H. unfold seren_pars in H. forms H; rewrite <- H; cbn; auto. Qed.
Lemma form_solid : solid (out_file_form p) /\ out_file_form p <> [].
Proof. destruct G as [H _]. forms H; rewrite <- H; (split; [repeat constructor | discriminate]). Qed.
Lemma digits_solid : forall l, ten_digits l -> solid (show_digits l).
Proof.
  intros l H. unfold solid, show_digits. apply Forall_forall. intros c C. apply in_map_iff in C as (d & <- & D). unfold ten_digits in H. rewrite Forall_forall in H. specialize (H d D).
  destruct (show_digits_nonspace [d] (char_of_digit d) []) as [A _]; [constructor; [lia | constructor] | reflexivity | exact A].
Qed.
Lemma run_solid : solid (run_id p).
Proof.
  destruct G as [_ H]. apply Forall_forall. intros c C. specialize (H c C). unfold is_space. cbv zeta. destruct (N.eqb_spec (N_of_ascii c) 32) as [E | N]; [exfalso; apply H; rewrite E; cbn; tauto|].
  cbn [orb]. destruct (N.leb_spec 9 (N_of_ascii c)); [|reflexivity]. destruct (N.leb_spec (N_of_ascii c) 13); [|reflexivity]. exfalso. apply H. cbn. lia.
Qed.
Lemma snap_solid : forall k, 0 <= k -> solid (snap_name p k).
Proof.
  intros k K. unfold snap_name. apply solid_app; [exact run_solid|]. constructor; [reflexivity|]. apply solid_app; [apply form_solid|]. constructor; [reflexivity|].
  destruct (numbered_digits _ _ (show5_numbered k K)) as (l & T & -> & _). now apply digits_solid.
Qed.
Lemma tmp_solid : solid (tmp_name p).
Proof. unfold tmp_name. apply solid_app; [exact run_solid|]. constructor; [reflexivity|]. apply solid_app; [apply form_solid|]. repeat constructor. Qed.

(** ** What the files of a run contain *)
Definition hok (f : text) (h : header) : Prop := exists n nout nlite nsteps th tl tll, h = SerenHeader n nout nlite nsteps (th * scale p) tl tll /\
  (0 <= th)%R /\ 0 <= nout /\ tl = (last p nout * scale p)%R /\ (nout = 0 -> tsnapfirst p = dt_snap p) /\ (f = tmp_name p \/ 1 <= nout /\ f = snap_name p nout).
Definition fok (f : text) (c : file) : Prop := forall k h l, c = Hdr k h :: l -> k = SerenLite \/ k = fmt p /\ (exists xs, l = map Dat xs) /\ hok f h.
Definition rok (c : file) : Prop := exists f pre suf, solid f /\ c = map Ch pre /\ restart_text p f = pre ++ suf.
Definition consistent (d : disk) : Prop :=
  (forall f c, f <> restart_name p -> d f = Some c -> fok f c) /\ (forall c, d (restart_name p) = Some c -> rok c).
Lemma fok_prefix : forall f l1 l2, fok f (l1 ++ l2) -> fok f l1.
Proof.
  intros f l1 l2 H k h l ->. destruct (H k h (l ++ l2) eq_refl) as [A | (A & (xs & B) & C)]; [now left|]. right. split; [exact A|]. split; [|exact C].
  symmetry in B. apply map_eq_app in B as (a & b & _ & <- & _). now exists a.
Qed.
Lemma write_cons : forall d f l d', consistent d -> f <> restart_name p -> fok f l -> crash d (write f l) d' -> consistent d'.
Proof.
  intros d f l d' [A B] NF F C. split.
  - intros g c NG E. destruct (list_eq_dec ascii_dec g f) as [-> | N]; [|apply A; [exact NG|]; rewrite <- E; symmetry; now apply (crash_any _ _ _ _ g C)].
    apply crash_self in C as [E' | (l1 & l2 & -> & E')]; [apply A; congruence|]. assert (c = l1) by congruence. subst c. now apply fok_prefix with l2.
  - intros c E. apply B. rewrite <- E. symmetry. apply (crash_any _ _ _ _ _ C). congruence.
Qed.
Lemma wr_cons : forall d f d', consistent d -> solid f -> crash d (write_restart p f) d' -> consistent d'.
Proof.
  intros d f d' [A B] S C. change (write_restart p f) with (write (restart_name p) (map Ch (restart_text p f))) in C. split.
  - intros g c NG E. apply A; [exact NG|]. rewrite <- E. symmetry. now apply (crash_any _ _ _ _ g C).
  - intros c E. apply crash_self in C as [E' | (l1 & l2 & L & E')]; [apply B; congruence|]. assert (c = l1) by congruence. subst c.
    apply map_eq_app in L as (a & b & L & <- & _). exists f, a, b. auto.
Qed.
Lemma cont_fok : forall f s, sched s -> (0 <= t s)%R -> (Noutsnap s = 0 -> tsnapfirst p = dt_snap p) -> f = tmp_name p \/ 1 <= Noutsnap s /\ f = snap_name p (Noutsnap s) -> fok f (cont s).
Proof.
  intros f s (N & _ & L) T Z F k h l E. right. unfold L_Output2.cont in E. injection E as <- <- <-. split; [reflexivity|]. split; [now exists (parts s)|].
  unfold hok, header_of. destruct fmt_seren as [-> | ->]; do 7 eexists; (split; [reflexivity|]); rewrite L; auto.
Qed.
Lemma chunks_cons : forall th n o n' d, chunks th n o n' -> (0 <= th)%R -> 0 <= n -> consistent d -> forall d', crash d o d' -> consistent d'.
Proof.
  intros th n o n' d C T. revert d. induction C as [n | n m c o n' _ IH (h & r & ->) | n s o n' S TS N N0 C IH | n s o n' S TS N Z C IH]; intros d NN H d' D.
  - now apply crash_nil in D as ->.
  - assert (A : forall d', crash d (write (lite_name p m) (Hdr SerenLite h :: r)) d' -> consistent d').
    { intros d1. apply write_cons; [exact H | apply lite_not_restart|]. intros k' h' l' X. injection X as <- _ _. now left. }
    apply crash_app in D as [D | D]; [auto|]. apply (IH _ NN (A _ (crash_end _ _)) _ D).
  - assert (A : forall d', crash d (write (snap_name p (n + 1)) (cont s)) d' -> consistent d').
    { intros d1. apply write_cons; [exact H | now apply snap_not_restart|]. apply cont_fok; [exact S | congruence | lia | right; rewrite N; split; [lia | reflexivity]]. }
    assert (A2 : forall d', crash (apply d (write (snap_name p (n + 1)) (cont s))) (write_restart p (snap_name p (n + 1))) d' -> consistent d').
    { intros d1. apply wr_cons; [exact (A _ (crash_end _ _)) | apply snap_solid; lia]. }
    apply crash_app in D as [D | D]; [apply crash_app in D as [D | D]; auto|]. rewrite apply_app in D. exact (IH _ ltac:(lia) (A2 _ (crash_end _ _)) _ D).
  - assert (A : forall d', crash d (write (tmp_name p) (cont s)) d' -> consistent d').
    { intros d1. apply write_cons; [exact H | now apply tmp_not_restart|]. apply cont_fok; [exact S | congruence | | now left].
      intros N1. destruct TF as [X | X]; [exact X|]. exfalso. assert (n = 0) as N2 by congruence. specialize (Z N2). unfold due in Z. cbn in Z. lra. }
    assert (A2 : forall d', crash (apply d (write (tmp_name p) (cont s))) (write_restart p (tmp_name p)) d' -> consistent d').
    { intros d1. apply wr_cons; [exact (A _ (crash_end _ _)) | exact tmp_solid]. }
    apply crash_app in D as [D | D]; [apply crash_app in D as [D | D]; auto|]. rewrite apply_app in D. exact (IH _ ltac:(lia) (A2 _ (crash_end _ _)) _ D).
Qed.
Lemma calls_cons : forall n cs n' d, calls n cs n' -> Forall (fun c => 0 <= c_t c)%R cs -> consistent d -> forall d', crash d (ops_of cs) d' -> consistent d'.
Proof.
  intros n cs n' d H. revert d. induction H as [n|n c m cs n' N0 C O H IH]; intros d T S d' D; [now apply crash_nil in D as ->|].
  cbn [ops_of flat_map] in D. fold (ops_of cs) in D. pose proof (chunks_cons _ _ _ _ d C (Forall_inv T) N0 S) as A.
  apply crash_app in D as [D | D]; [auto|]. exact (IH _ (Forall_inv_tail T) (A _ (crash_end _ _)) _ D).
Qed.
(** ** Starting from such files *)
Lemma fmt_read2 : forall w k, read_format w = Some k -> w = out_file_form p -> k = fmt p.
Proof. intros w k E ->. rewrite (fmt_read p G) in E. congruence. Qed.
Lemma zlen_Dat : forall xs, flat_map (fun i => match i with Dat x => [x] | _ => [] end) (map Dat xs) = xs.
Proof. induction xs as [|x xs IH]; [reflexivity|]. cbn. now f_equal. Qed.
Lemma restart_state : forall d ic s0, consistent d -> GenerateIC p d true ic (initial p) = Some s0 -> d (restart_name p) <> None ->
  sched s0 /\ (0 <= t s0)%R /\ exists f c n nlite nsteps th tl tll xs, names p d f /\ d f = Some c /\ snapshot p c (SerenHeader n (Noutsnap s0) nlite nsteps th tl tll) xs /\
   (f = tmp_name p \/ f = snap_name p (Noutsnap s0)).
Proof.
  intros d ic s0 [CF CR] E NN. unfold GenerateIC in E. destruct (d (restart_name p)) as [rc|] eqn:ER; [|contradiction]. destruct (CR rc eq_refl) as (f & pre & suf & SF & -> & TX).
  rewrite chars_Ch in E. destruct (word pre) as [w1 r] eqn:W1. destruct (word r) as [w2 r2] eqn:W2. destruct form_solid as [FS FN].
  destruct (ReadSnapshotFile p d w2 w1 (initial p)) as [s1|] eqn:ES; [|discriminate]. injection E as <-.
  unfold ReadSnapshotFile in ES. destruct (read_format w1) as [k|] eqn:EK; [|discriminate]. destruct (d w2) as [c2|] eqn:E2; [|discriminate]. destruct c2 as [|[?|k' h|?] l]; try discriminate.
  assert (NR : w2 <> restart_name p). { intros ->. rewrite ER in E2. injection E2 as E2. destruct pre; discriminate. }
  destruct (CF w2 _ NR E2 k' h l eq_refl) as [-> | (-> & (xs & ->) & HK)]; [destruct k; discriminate|].
  destruct HK as (n & nout & nlite & nsteps & th & tl & tll & -> & TH & NO & TL & Z & NM).
  assert (N2 : w2 <> []).
  { intros ->. destruct NM as [X | [_ X]]; [unfold tmp_name in X | unfold snap_name in X]; destruct (run_id p); discriminate. }
  destruct (two_words (out_file_form p) f pre suf w1 r w2 r2 FS FN SF TX W1 W2 N2) as (-> & PR & _).
  assert (k = fmt p) as -> by (apply (fmt_read2 _ _ EK eq_refl)).
  rewrite zlen_Dat in ES. destruct (Z.eqb_spec n (zlen xs)) as [-> | NE]; [|destruct fmt_seren as [X|X]; rewrite X in ES; discriminate].
  assert (ES' : s1 = {| t := th * scale p; tsnapnext := tsnapnext (initial p); tsnaplast := tl; Noutsnap := nout; tlitesnapnext := tlitesnapnext (initial p); tlitesnaplast := tll; Noutlitesnap := nlite;
     Nsteps := nsteps; nlastrestart := nlastrestart (initial p); kill := kill (initial p); parts := xs |}) by (destruct fmt_seren as [X|X]; rewrite X in ES; congruence).
  clear ES. subst s1. assert (TL' : (tl / scale p = last p nout)%R) by (subst tl; field; lra). assert (TH' : (th * scale p / scale p = th)%R) by (field; lra).
  split; [|split].
  - unfold L_Output2.sched, ConvertToCodeUnits. cbn [Noutsnap tsnapnext tsnaplast]. rewrite TL'. split; [exact NO|]. split; [|reflexivity]. unfold last.
    destruct (Z.eqb_spec nout 0) as [-> | N0]; [|rewrite due_S; reflexivity]. rewrite <- (Z eq_refl). unfold due. cbn. lra.
  - unfold ConvertToCodeUnits. cbn [t]. rewrite TH'. exact TH.
  - unfold ConvertToCodeUnits. cbn [Noutsnap]. exists w2, (Hdr (fmt p) (SerenHeader (zlen xs) nout nlite nsteps (th * scale p) tl tll) :: map Dat xs), (zlen xs), nlite, nsteps, (th * scale p)%R, tl, tll, xs.
    split; [|split; [exact E2 | split; [|tauto]]].
    + unfold names. rewrite restart_eq, ER. destruct PR as [-> | [-> ->]]; [right | left]; reflexivity.
    + exists (fmt p). split; [now apply fmt_of | split; reflexivity].
Qed.
Lemma Run_times : forall N xs s s' cs, Forall (fun x => (0 <= s_dt x)%R) xs -> sched s -> (0 <= t s)%R -> Run p N xs s = (s', cs) -> Forall (fun c => 0 <= c_t c)%R cs.
Proof.
  intros N xs. induction xs as [|x xs IH]; intros s s' cs H D T0 E; cbn [Run] in E; [injection E as <- <-; constructor|].
  destruct ((if Rlt_dec _ _ then _ else _) && _); [|injection E as <- <-; constructor].
  destruct (Output p (s_sync x) (s_late x) (MainLoop x s)) as [s1 o] eqn:E1. apply Output_chunks in E1 as (_ & _ & D1 & T & _); [|exact G | exact D]. cbn in T.
  pose proof (Forall_inv H) as H1. cbn in H1. destruct (kill s1 || s_stop x).
  - injection E as <- <-. constructor; [cbn; lra | constructor].
  - destruct (Run p N xs s1) as [s2 cs2] eqn:E2. injection E as <- <-. constructor; [cbn; lra|]. eapply IH; [exact (Forall_inv_tail H) | exact D1 | lra | exact E2].
Qed.
(** Every job on consistent files. *)
Lemma Job_any : forall d j s cs, consistent d -> Forall (fun x => (0 <= s_dt x)%R) (j_steps j) -> Job_run p d j = Some (s, cs) ->
  exists n, 0 <= n /\ calls n cs (Noutsnap s) /\ Forall (fun c => 0 <= c_t c)%R cs /\ starts_after p d j n /\
    (j_restart j = true \/ d (restart_file p) = None -> start_ok p n d).
Proof.
  intros d j s cs CD ST J. assert (J' := J). unfold Job_run, SetupSimulation in J'. destruct (GenerateIC p d (j_restart j) (j_ic j) (initial p)) as [s0|] eqn:E0; [|discriminate].
  assert (POST : PostInitialConditionsSetup p s0 = s0) by (unfold PostInitialConditionsSetup; now rewrite NB). rewrite POST in J'.
  assert (S0 : sched s0 /\ (0 <= t s0)%R /\ starts_after p d j (Noutsnap s0) /\ (j_restart j = true \/ d (restart_file p) = None -> start_ok p (Noutsnap s0) d)).
  { assert (FR : GenerateIC p d false (j_ic j) (initial p) = Some s0 -> sched s0 /\ (0 <= t s0)%R /\ Noutsnap s0 = 0).
    { intros E. apply fresh_sched in E as (A & B & C). rewrite POST in *. repeat split; try apply A; [lra | exact B]. }
    destruct (j_restart j) eqn:ER.
    - destruct (d (restart_name p)) as [rc|] eqn:DR.
      + destruct (restart_state d (j_ic j) s0 CD E0 ltac:(congruence)) as (A & B & f & c & n & nlite & nsteps & th & tl & tll & xs & C1 & C2 & C3 & C4).
        split; [exact A|]. split; [exact B|]. split.
        * right. split; [exact ER|]. exists f, c, n, nlite, nsteps, th, tl, tll, xs. repeat split; auto. intros m M. apply snapshot_name_iff in M as [M M'].
          destruct C4 as [-> | ->]; [exfalso; exact (nst p m M M')|]. symmetry. apply (snap_name_inj p); [apply A | exact M | exact M'].
        * intros _. right. exists f. split; [exact C1|]. split; [eexists c, _, xs; split; [exact C2 | exact C3]|]. destruct C4 as [-> | ->]; [now left|]. right. exists (Noutsnap s0). split; [split; [apply A | lia] | reflexivity].
      + unfold GenerateIC in E0. rewrite DR in E0. destruct FR as (A & B & C); [exact E0|]. split; [exact A|]. split; [exact B|]. split; [left; split; [right; exact DR | exact C]|]. intros _. left. exact DR.
    - destruct (FR E0) as (A & B & C). split; [exact A|]. split; [exact B|]. split; [left; auto|]. intros [X | X]; [discriminate | now left]. }
  destruct S0 as (A & B & C & D). destruct (Job_calls p G d j s0 s cs E0 ltac:(now rewrite POST) J) as [H _]. rewrite POST in H. exists (Noutsnap s0). split; [apply A|]. split; [exact H|]. split; [|auto].
  destruct (Output p true (j_late j) s0) as [s1 o] eqn:E1. apply Output_chunks in E1 as (_ & _ & D1 & T & _); [|exact G | exact A].
  destruct (Run p (j_target j) (j_steps j) s1) as [s2 cs2] eqn:E2. injection J' as <- <-. cbn [app]. constructor; [cbn; lra|]. eapply Run_times; [exact ST | exact D1 | lra | exact E2].
Qed.
Lemma history_cons : forall d, history p d -> consistent d.
Proof.
  induction 1 as [|d j s cs d' H IH ST J C]; [split; discriminate|]. destruct (Job_any d j s cs IH ST J) as (n & N & H1 & H2 & _). exact (calls_cons _ _ _ _ H1 H2 IH _ C).
Qed.
End Hist.
