(** What is on disk during and after the calls of Output. *)
From Coq Require Import Ascii String Reals Lra.
From Verif Require Import Prelude M_Params S_Params L_Params M_Output S_Output L_Output L_Output2.
Local Open Scope Z_scope.

Section Disk.
Variable p : pars.
Hypothesis G : good_pars p.
Notation chunks := (chunks p). Notation calls := (calls p). Notation cont := (cont p). Notation sched := (sched p).

Lemma restart_eq : restart_file p = restart_name p. Proof. reflexivity. Qed.
Lemma tmp_eq : tmp_file p = tmp_name p. Proof. reflexivity. Qed.
Lemma lines_eq : forall f, restart_lines p f = map Ch (restart_text p f). Proof. reflexivity. Qed.
Lemma wr_eq : forall f, write_restart p f = write (restart_name p) (restart_lines p f). Proof. reflexivity. Qed.
Lemma nst : forall n, 0 <= n -> tmp_name p <> snap_name p n. Proof. intros n N E. exact (snap_not_tmp p n N (eq_sym E)). Qed.
Lemma nrs : forall n, restart_name p <> snap_name p n. Proof. intros n E. exact (snap_not_restart p G n (eq_sym E)). Qed.
Lemma nrt : restart_name p <> tmp_name p. Proof. intros E. exact (tmp_not_restart p G (eq_sym E)). Qed.
Lemma nlr : forall n, restart_name p <> lite_name p n. Proof. intros n E. exact (lite_not_restart p n (eq_sym E)). Qed.
Lemma nls : forall n m, snap_name p m <> lite_name p n. Proof. intros n m E. exact (lite_not_snap p G n m (eq_sym E)). Qed.
Lemma nlt : forall n, tmp_name p <> lite_name p n. Proof. intros n E. exact (lite_not_tmp p G n (eq_sym E)). Qed.

Lemma crash_any : forall d f l d' g, crash d (write f l) d' -> g <> f -> d' g = d g.
Proof. intros d f l d' g C N. apply crash_write in C as [-> | (l1 & l2 & -> & ->)]; [reflexivity|]. now apply apply_write_other. Qed.
Lemma crash_self : forall d f l d', crash d (write f l) d' -> d' f = d f \/ exists l1 l2, l = l1 ++ l2 /\ d' f = Some l1.
Proof. intros d f l d' C. apply crash_write in C as [-> | (l1 & l2 & -> & ->)]; [now left|]. right. exists l1, l2. split; [reflexivity | apply apply_write]. Qed.
Lemma crash_end : forall d l, crash d l (apply d l).
Proof. intros. exists l, []. now rewrite app_nil_r. Qed.

(** ** Contents *)
Lemma chunks_keep : forall th n o n' k d, chunks th n o n' -> 0 <= k <= n -> apply d o (snap_name p k) = d (snap_name p k).
Proof.
  intros th n o n' k d C. revert d. induction C as [n | n m c o n' _ IH _ | n s o n' _ _ _ N0 _ IH | n s o n' _ _ _ _ _ IH]; intros d K; [reflexivity| | |].
  - rewrite apply_app, IH by lia. apply apply_write_other. apply nls.
  - rewrite !apply_app, IH by lia. rewrite wr_eq, !apply_write_other; [reflexivity | | ].
    + intros E. apply snap_name_inj in E; lia.
    + intros E. exact (nrs _ (eq_sym E)).
  - rewrite !apply_app, IH by lia. rewrite wr_eq, !apply_write_other; [reflexivity | | ].
    + intros E. exact (nst k ltac:(lia) (eq_sym E)).
    + intros E. exact (nrs _ (eq_sym E)).
Qed.
Lemma calls_keep : forall n cs n' k d, calls n cs n' -> 0 <= k <= n -> apply d (ops_of cs) (snap_name p k) = d (snap_name p k).
Proof.
  intros n cs n' k d H. revert d. induction H as [|n c m cs n' N0 C O H IH]; intros d K; [reflexivity|]. cbn [ops_of flat_map]. fold (ops_of cs).
  rewrite apply_app, IH by (destruct (chunks_opens p G _ _ _ _ C); lia). exact (chunks_keep _ _ _ _ k d C K).
Qed.
Lemma chunks_content : forall th n o n' k d, chunks th n o n' -> n < k <= n' -> exists s, sched s /\ t s = th /\ Noutsnap s = k /\ apply d o (snap_name p k) = Some (cont s).
Proof.
  intros th n o n' k d C. revert d. induction C as [n | n m c o n' _ IH _ | n s o n' S T N N0 C IH | n s o n' _ _ _ _ _ IH]; intros d K; [lia| | |].
  - destruct (IH (apply d (write (lite_name p m) c)) K) as (s & A & B & D & E). exists s. rewrite apply_app. auto.
  - rewrite apply_app. destruct (Z.eq_dec k (n + 1)) as [-> | NK]; [|apply IH; lia]. exists s. repeat split; auto; try apply S. rewrite (chunks_keep _ _ _ _ (n + 1) _ C) by lia.
    rewrite apply_app, wr_eq, apply_write_other by (intros E; exact (nrs _ (eq_sym E))). apply apply_write.
  - rewrite apply_app. apply IH; lia.
Qed.
Lemma ops_app : forall a b, ops_of (a ++ b) = ops_of a ++ ops_of b.
Proof. intros. apply flat_map_app. Qed.
Lemma calls_content : forall n cs n' d i c k f, 0 <= n -> calls n cs n' -> nth_error cs i = Some c -> snapshot_name p k f -> opened f c ->
  exists s, sched s /\ t s = c_t c /\ Noutsnap s = k /\ apply d (ops_of cs) f = Some (cont s).
Proof.
  intros n cs n' d i c k f N H E F O. destruct (calls_nth p n cs n' i c H E) as (m & m' & A & M & C & ON & B).
  pose proof (proj1 (opened_iff p G (c_t c) m c m' k f eq_refl M C ON F) O) as [-> D]. apply snapshot_name_iff in F as [K ->].
  assert (m' = m + 1) as ->. { destruct ON as [[-> _] | [_ L]]; [reflexivity | lra]. }
  assert (cs = firstn i cs ++ c :: skipn (S i) cs) as ->.
  { clear - E. revert i E. induction cs as [|x cs IH]; intros [|i] E; try discriminate; cbn in *; [congruence|]. f_equal. now apply IH. }
  rewrite ops_app, apply_app. cbn [ops_of flat_map]. fold (ops_of (skipn (S i) cs)). rewrite apply_app.
  destruct (chunks_content _ _ _ _ (m + 1) (apply d (ops_of (firstn i cs))) C ltac:(lia)) as (s & S1 & S2 & S3 & S4). exists s. repeat split; auto; try apply S1.
  rewrite (calls_keep _ _ _ _ _ B) by lia. exact S4.
Qed.
Lemma cont_header : forall s, sched s -> 1 <= Noutsnap s -> snapshot_header p (Noutsnap s) (t s) (header_of p (fmt p) s).
Proof.
  intros s (_ & _ & L) N. unfold header_of, snapshot_header. unfold last in L. destruct (Z.eqb_spec (Noutsnap s) 0); [lia|]. rewrite L.
  destruct (fmt p); auto.
Qed.

(** ** Crashes *)
Definition crashes_ok (p : pars) (d : disk) : Prop := d (restart_file p) = None \/ usable p d \/ rewriting_restart p d \/ rewriting_tmp p d.
Definition start_ok (n : Z) (d : disk) : Prop :=
  d (restart_file p) = None \/ exists f, names p d f /\ complete p d f /\ (f = tmp_name p \/ exists k, 0 <= k <= n /\ f = snap_name p k).
Lemma start_crash : forall n d, start_ok n d -> crashes_ok p d.
Proof. intros n d [E | (f & A & B & _)]; [now left|]. right. left. exists f. auto. Qed.
Lemma complete_eq : forall d d' f, d' f = d f -> complete p d f -> complete p d' f.
Proof. intros d d' f E (c & h & xs & A & B). exists c, h, xs. rewrite E. auto. Qed.
Lemma names_eq : forall d d' f, d' (restart_name p) = d (restart_name p) -> names p d f -> names p d' f.
Proof. intros d d' f E. unfold names. rewrite restart_eq, E. auto. Qed.
Lemma start_other : forall n d d', start_ok n d -> d' (restart_name p) = d (restart_name p) -> d' (tmp_name p) = d (tmp_name p) ->
  (forall k, 0 <= k <= n -> d' (snap_name p k) = d (snap_name p k)) -> start_ok n d'.
Proof.
  intros n d d' [E | (f & A & B & C)] R T S; [left; rewrite restart_eq in *; congruence|]. right. exists f. split; [exact (names_eq d d' f R A)|]. split; [|exact C].
  apply (complete_eq d); [|exact B]. destruct C as [-> | (k & K & ->)]; [exact T | exact (S k K)].
Qed.
Lemma start_mono : forall n m d, n <= m -> start_ok n d -> start_ok m d.
Proof. intros n m d L [E | (f & A & B & [C | (k & K & C)])]; [now left | right; exists f; auto|]. right. exists f. split; [auto|]. split; [auto|]. right. exists k. split; [lia | auto]. Qed.
(** Rewriting the restart file, when the snapshot [f] is on disk. *)
Lemma restart_crash : forall n d d' f, complete p d f -> f <> restart_name p -> start_ok n d -> crash d (write_restart p f) d' -> crashes_ok p d'.
Proof.
  intros n d d' f F NF S C. rewrite wr_eq in C. pose proof (crash_any _ _ _ _ f C NF) as EF. apply (complete_eq _ d') in F; [|exact EF].
  pose proof (fun g => crash_any _ _ _ _ g C) as O. apply crash_self in C as [E | (l1 & l2 & L & E)].
  - apply start_crash with n. apply (start_other n d); auto; [apply O; intros X; exact (nrt (eq_sym X)) | intros k _; apply O; intros X; exact (nrs k (eq_sym X))].
  - right. destruct l2 as [|i l2].
    + left. exists f. split; [|exact F]. left. rewrite restart_eq, E, L, app_nil_r. reflexivity.
    + right. left. exists f, l1. split; [exact F|]. split; [exact E|]. exists (i :: l2). split; [discriminate | exact L].
Qed.
Lemma restart_done : forall n d f, complete p d f -> f = tmp_name p \/ (exists k, 0 <= k <= n /\ f = snap_name p k) -> start_ok n (apply d (write_restart p f)).
Proof.
  intros n d f F K. right. exists f. rewrite wr_eq. split; [left; rewrite restart_eq; apply apply_write|]. split; [|exact K].
  apply (complete_eq d); [|exact F]. apply apply_write_other. destruct K as [-> | (k & _ & ->)]; intros X; [exact (nrt (eq_sym X)) | exact (nrs k (eq_sym X))].
Qed.
Lemma chunks_crash : forall th n o n' d, chunks th n o n' -> 0 <= n -> start_ok n d -> (forall d', crash d o d' -> crashes_ok p d') /\ start_ok n' (apply d o).
Proof.
  intros th n o n' d C. revert d. induction C as [n | n m c o n' _ IH _ | n s o n' S T N N0 C IH | n s o n' S T N Z C IH]; intros d NN H.
  - split; [|exact H]. intros d' D. apply crash_nil in D as ->. now apply start_crash with n.
  - assert (A : forall d', crash d (write (lite_name p m) c) d' -> start_ok n d').
    { intros d' D. apply (start_other n d); [exact H | | | intros k K]; apply (crash_any _ _ _ _ _ D); [apply nlr | apply nlt | apply nls]. }
    rewrite apply_app. destruct (IH (apply d (write (lite_name p m) c)) NN (A _ (crash_end _ _))) as [I1 I2]. split; [|exact I2].
    intros d' D. apply crash_app in D as [D | D]; [apply start_crash with n; auto | auto].
  - set (W := write (snap_name p (n + 1)) (cont s)) in *.
    assert (A : forall d', crash d W d' -> start_ok n d').
    { intros d' D. apply (start_other n d); [exact H | | | intros k K]; apply (crash_any _ _ _ _ _ D); [apply nrs | apply nst; lia |].
      intros X. apply snap_name_inj in X; lia. }
    assert (B : complete p (apply d W) (snap_name p (n + 1))).
    { exists (cont s), (header_of p (fmt p) s), (parts s). split; [apply apply_write | now apply cont_snapshot]. }
    rewrite !apply_app. destruct (IH (apply (apply d W) (write_restart p (snap_name p (n + 1))))) as [I1 I2]; [lia | |].
    { apply restart_done; [exact B|]. right. exists (n + 1). split; [lia | reflexivity]. }
    split; [|exact I2]. intros d' D. apply crash_app in D as [D | D].
    + apply crash_app in D as [D | D]; [apply start_crash with n; auto|]. eapply restart_crash; [exact B | | exact (A _ (crash_end _ _)) | exact D].
      intros X. exact (nrs _ (eq_sym X)).
    + apply I1. rewrite apply_app in D. exact D.
  - set (W := write (tmp_name p) (cont s)) in *.
    assert (B : complete p (apply d W) (tmp_name p)).
    { exists (cont s), (header_of p (fmt p) s), (parts s). split; [apply apply_write | now apply cont_snapshot]. }
    assert (A : forall d', crash d W d' -> crashes_ok p d').
    { intros d' D. pose proof (fun g => crash_any _ _ _ _ g D) as O. apply crash_self in D as [E | (l1 & l2 & L & E)].
      - apply start_crash with n. apply (start_other n d); auto; [apply O; exact nrt|]. intros k K. apply O. intros X. exact (nst k ltac:(lia) (eq_sym X)).
      - destruct H as [E1 | (f & F1 & F2 & F3)]; [left; rewrite restart_eq, O by exact nrt; exact E1|]. right.
        assert (names p d' f) as F1' by (apply (names_eq d); [apply O; exact nrt | exact F1]). destruct F3 as [-> | (k & K & ->)].
        + destruct l2 as [|i l2].
          * left. exists (tmp_name p). split; [exact F1'|]. exists (cont s), (header_of p (fmt p) s), (parts s). split; [rewrite E, L, app_nil_r; reflexivity | now apply cont_snapshot].
          * right. right. split; [exact F1'|]. exists l1, (cont s), (header_of p (fmt p) s), (parts s). split; [exact E|]. split; [|now apply cont_snapshot].
            exists (i :: l2). split; [discriminate | exact L].
        + left. exists (snap_name p k). split; [exact F1'|]. apply (complete_eq d); [|exact F2]. apply O. intros X. exact (nst k ltac:(lia) (eq_sym X)). }
    assert (A2 : start_ok n (apply d W)).
    { destruct H as [E1 | (f & F1 & F2 & F3)]; [left; rewrite restart_eq; unfold W; rewrite apply_write_other by exact nrt; exact E1|]. right. exists f.
      split; [apply (names_eq d); [unfold W; now rewrite apply_write_other by exact nrt | exact F1]|]. split; [|exact F3].
      destruct F3 as [-> | (k & K & ->)]; [exact B|]. apply (complete_eq d); [|exact F2]. apply apply_write_other. intros X. exact (nst k ltac:(lia) (eq_sym X)). }
    rewrite !apply_app. destruct (IH (apply (apply d W) (write_restart p (tmp_name p)))) as [I1 I2]; [lia | |].
    { apply restart_done; [exact B|]. now left. }
    split; [|exact I2]. intros d' D. apply crash_app in D as [D | D].
    + apply crash_app in D as [D | D]; [auto|]. eapply restart_crash; [exact B | | exact A2 | exact D]. intros X. exact (nrt (eq_sym X)).
    + apply I1. rewrite apply_app in D. exact D.
Qed.
Lemma calls_crash : forall n cs n' d, calls n cs n' -> start_ok n d -> (forall d', crash d (ops_of cs) d' -> crashes_ok p d').
Proof.
  intros n cs n' d H. revert d. induction H as [n|n c m cs n' N0 C O H IH]; intros d S d' D.
  - apply crash_nil in D as ->. now apply start_crash with n.
  - destruct (chunks_crash _ _ _ _ d C N0 S) as [A B]. cbn [ops_of flat_map] in D. fold (ops_of cs) in D. apply crash_app in D as [D | D]; [auto|]. now apply (IH (apply d (c_ops c))).
Qed.

(** ** Numbered snapshots stay *)
Definition have (n0 n : Z) (d : disk) : Prop :=
  (forall k, n0 < k <= n -> exists s, sched s /\ Noutsnap s = k /\ d (snap_name p k) = Some (cont s)) /\ (forall k, n < k -> d (snap_name p k) = None).
Definition have_most (n0 n : Z) (d : disk) : Prop :=
  (forall k, n0 < k <= n -> exists s, sched s /\ Noutsnap s = k /\ d (snap_name p k) = Some (cont s)) /\ (forall k, n + 1 < k -> d (snap_name p k) = None).
Lemma have_other : forall n0 n d d', have n0 n d -> (forall k, n0 < k -> d' (snap_name p k) = d (snap_name p k)) -> n0 <= n -> have n0 n d'.
Proof. intros n0 n d d' [A B] E L. split; intros k K; rewrite E by lia; [auto | auto]. Qed.
Lemma have_have : forall n0 n d, have n0 n d -> have_most n0 n d.
Proof. intros n0 n d [A B]. split; [exact A|]. intros. apply B. lia. Qed.
Lemma chunks_have : forall th n o n' n0 d, chunks th n o n' -> 0 <= n0 <= n -> have n0 n d ->
  (forall d', crash d o d' -> exists m, n0 <= m /\ have_most n0 m d') /\ have n0 n' (apply d o).
Proof.
  intros th n o n' n0 d C. revert d. induction C as [n | n m c o n' _ IH _ | n s o n' S T N N0 C IH | n s o n' S T N Z C IH]; intros d NN H.
  - split; [|exact H]. intros d' D. apply crash_nil in D as ->. exists n. split; [lia | now apply have_have].
  - assert (A : forall d', crash d (write (lite_name p m) c) d' -> have n0 n d').
    { intros d' D. apply (have_other n0 n d); auto; [|lia]. intros k K. apply (crash_any _ _ _ _ _ D). apply nls. }
    rewrite apply_app. destruct (IH _ NN (A _ (crash_end _ _))) as [I1 I2]. split; [|exact I2].
    intros d' D. apply crash_app in D as [D | D]; [exists n; split; [lia | apply have_have; auto] | auto].
  - set (W := write (snap_name p (n + 1)) (cont s)) in *.
    assert (A : forall d', crash d W d' -> have_most n0 n d').
    { intros d' D. destruct H as [H1 H2]. split; intros k K.
      - rewrite (crash_any _ _ _ _ (snap_name p k) D); [auto|]. intros X. apply snap_name_inj in X; lia.
      - rewrite (crash_any _ _ _ _ (snap_name p k) D); [apply H2; lia|]. intros X. apply snap_name_inj in X; lia. }
    assert (B : have n0 (n + 1) (apply d W)).
    { destruct H as [H1 H2]. split; intros k K.
      - destruct (Z.eq_dec k (n + 1)) as [-> | NK]; [exists s; split; [exact S|]; split; [exact N | apply apply_write]|].
        unfold W. rewrite apply_write_other; [apply H1; lia|]. intros X. apply snap_name_inj in X; lia.
      - unfold W. rewrite apply_write_other; [apply H2; lia|]. intros X. apply snap_name_inj in X; lia. }
    assert (B2 : forall d', crash (apply d W) (write_restart p (snap_name p (n + 1))) d' -> have n0 (n + 1) d').
    { intros d' D. rewrite wr_eq in D. apply (have_other n0 (n + 1) (apply d W)); auto; [|lia]. intros k K. apply (crash_any _ _ _ _ _ D). intros X. exact (nrs k (eq_sym X)). }
    rewrite !apply_app. destruct (IH _ ltac:(lia) (B2 _ (crash_end _ _))) as [I1 I2]. split; [|exact I2]. intros d' D. apply crash_app in D as [D | D].
    + apply crash_app in D as [D | D]; [exists n; split; [lia | auto] | exists (n + 1); split; [lia | apply have_have; auto]].
    + rewrite apply_app in D. auto.
  - assert (A : forall d', crash d (write (tmp_name p) (cont s) ++ write_restart p (tmp_name p)) d' -> have n0 n d').
    { intros d' D. apply (have_other n0 n d); auto; [|lia]. intros k K. assert (snap_name p k <> tmp_name p) by (apply snap_not_tmp; lia).
      assert (snap_name p k <> restart_name p) by (intros X; exact (nrs k (eq_sym X))).
      apply crash_app in D as [D | D]; [apply (crash_any _ _ _ _ _ D); assumption|]. rewrite wr_eq in D. rewrite (crash_any _ _ _ _ (snap_name p k) D) by assumption.
      apply apply_write_other; assumption. }
    rewrite (apply_app d (_ ++ _)). destruct (IH _ NN (A _ (crash_end _ _))) as [I1 I2]. split; [|exact I2].
    intros d' D. apply crash_app in D as [D | D]; [exists n; split; [lia | apply have_have; auto] | auto].
Qed.
Lemma calls_have : forall n cs n' n0 d, calls n cs n' -> 0 <= n0 <= n -> have n0 n d -> forall d', crash d (ops_of cs) d' -> exists m, n0 <= m /\ have_most n0 m d'.
Proof.
  intros n cs n' n0 d H. revert d. induction H as [n|n c m cs n' N0 C O H IH]; intros d NN S d' D.
  - apply crash_nil in D as ->. exists n. split; [lia | now apply have_have].
  - destruct (chunks_have _ _ _ _ n0 d C NN S) as [A B]. cbn [ops_of flat_map] in D. fold (ops_of cs) in D. apply crash_app in D as [D | D]; [auto|].
    apply (IH (apply d (c_ops c))); auto. destruct (chunks_opens p G _ _ _ _ C); lia.
Qed.
End Disk.
