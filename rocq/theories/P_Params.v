(** C30: parameter files. *)
From Coq Require Import Ascii String Reals Lra.
From Flocq Require Import Core.
From Verif Require Import Prelude M_Params S_Params L_Params L_Params2 L_Params3.
Local Open Scope Z_scope.

(** A line [name = value] or [comment : name = value] (with blanks anywhere, and not starting
    with #): the named parameter gets the value, every other parameter keeps its own, and a name
    that is not a parameter changes nothing.  In the first form the value must not contain a
    colon (see C30_colon_refuted). *)
Theorem C30_assign_partial : forall line pre key value t,
  (line = key ++ "="%char :: value /\ ~ In ":"%char value \/ line = pre ++ ":"%char :: key ++ "="%char :: value) ->
  ~ In "="%char pre -> ~ In ":"%char pre -> ~ In "="%char key -> ~ In ":"%char key ->
  hd_error (noblank line) <> Some "#"%char ->
  exists t', ParseLine line t = Ok t' /\
    (forall k, k <> noblank key -> value_of t' k = value_of t k) /\
    (value_of t (noblank key) = None -> t' = t) /\
    (forall b, value_of t (noblank key) = Some b -> exists a, value_of t' (noblank key) = Some a /\ assigned (noblank value) b a).
Proof. exact assign_line. Qed.
Print Assumptions C30_assign_partial.

(** Lines that change nothing: blank lines, lines starting with #, and lines without an equals
    sign, unless such a line is just the name of a parameter (see C30_bare_name_refuted). *)
Theorem C30_ignored_partial : forall line t,
  noblank line = [] \/ hd_error (noblank line) = Some "#"%char \/
  (~ In "="%char line /\ value_of t (noblank line) = None) ->
  ParseLine line t = Ok t.
Proof.
  intros line t [H|[H|[H1 H2]]]; [now apply ParseLine_empty| |now apply no_equals_line].
  destruct (noblank line) eqn:E; [discriminate|]. apply ParseLine_hash. now rewrite E.
Qed.
Print Assumptions C30_ignored_partial.

(** Reading a whole file is reading its lines one after the other: a file is any sequence of
    lines separated by newlines. *)
Theorem C30_lines : forall l f t, ~ In newline l ->
  ParseLines (lines (l ++ newline :: f)) t = (let! t' := ParseLine l t in ParseLines (lines f) t') /\
  ParseLines (lines l) t = ParseLine l t.
Proof.
  intros l f t H. split; [now rewrite lines_app|].
  assert (lines l = [l]) as ->.
  { clear - H. induction l as [|c l IH]; [reflexivity|]. cbn [lines]. unfold ceq. destruct (ascii_dec c newline) as [->|N]; [destruct H; now left|].
    rewrite IH; [reflexivity|]. intros K. apply H. now right. }
  cbn. now destruct (ParseLine l t).
Qed.
Print Assumptions C30_lines.

(** A file is accepted exactly if all its lines can be read, it leaves a non-empty run_id and does not
    ask for the removed scheme sm2012sph. *)
Theorem C30_accepted : forall defaults f t,
  ReadParamsFile defaults f = Ok t <->
  ParseLines (lines f) defaults = Ok t /\ (exists s, get (lit "run_id") (strs t) = Some s /\ s <> []) /\
  get (lit "sim") (strs t) <> Some (lit "sm2012sph").
Proof.
  intros d f t. unfold ReadParamsFile. destruct (ParseLines (lines f) d) as [t1| | |]; cbn [bind]; try (split; [discriminate|now intros (? & _)]).
  unfold str_of. split.
  - destruct (get (lit "run_id") (strs t1)) as [s|] eqn:E1; [|discriminate]. destruct (teq s []) eqn:E2; [discriminate|].
    destruct (get (lit "sim") (strs t1)) as [s'|] eqn:E3.
    + destruct (teq s' (lit "sm2012sph")) eqn:E4; [discriminate|]. intros E. injection E as <-. split; [reflexivity|]. rewrite E1, E3. split.
      * exists s. split; [reflexivity|]. intros ->. discriminate.
      * intros K. injection K as ->. now rewrite teq_refl in E4.
    + intros E. cbn in E. injection E as <-. split; [reflexivity|]. rewrite E1, E3. split; [|discriminate]. exists s. split; [reflexivity|]. intros ->. discriminate.
  - intros (E & (s & E1 & E2) & E3). injection E as ->. rewrite E1. rewrite teq_neq by exact E2.
    destruct (get (lit "sim") (strs t)) as [s'|] eqn:E4; [|reflexivity]. rewrite teq_neq; [reflexivity|]. intros ->. now apply E3.
Qed.
Print Assumptions C30_accepted.
(** Recording and reading back: integers exactly, doubles exactly if they have at most six
    significant digits, strings exactly if they contain no blank (nor colon nor newline). *)
Theorem C30_record_read_partial : forall defaults t,
  good_keys t -> same_keys defaults t ->
  (forall k n, In (k, n) (ints t) -> INT_MIN <= n <= INT_MAX) ->
  (forall k x, In (k, x) (floats t) -> six_digits x) ->
  (forall k s, In (k, s) (strs t) -> plain_text s) ->
  str_of "run_id" t <> [] -> str_of "sim" t <> lit "sm2012sph" ->
  ReadParamsFile defaults (RecordParametersToFile t) = Ok t.
Proof.
  intros d t GK SK HI HF HS R1 R2. unfold ReadParamsFile. rewrite read_record; try assumption.
  2: { intros k s H. destruct (HS k s H) as (A & B & C). now split. }
  assert (reread t = t) as ->.
  { unfold reread. destruct t as [I F S]. cbn [ints floats strs] in *. f_equal.
    - transitivity (map (fun x => x) F); [|apply map_id]. apply map_ext_in. intros (k, x) H. cbn [fst snd]. rewrite reread_six; [reflexivity|now apply (HF k)].
    - transitivity (map (fun x => x) S); [|apply map_id]. apply map_ext_in. intros (k, x) H. cbn [fst snd]. rewrite noblank_id; [reflexivity|]. now destruct (HS k x H). }
  cbn [bind]. rewrite !teq_neq by assumption. reflexivity.
Qed.
Print Assumptions C30_record_read_partial.

(** In general the doubles come back with a relative error of at most 10^-5 and the strings
    without their blanks. *)
Theorem C30_record_close : forall defaults t,
  good_keys t -> same_keys defaults t ->
  (forall k n, In (k, n) (ints t) -> INT_MIN <= n <= INT_MAX) ->
  (forall k x, In (k, x) (floats t) -> (x = 0 \/ powerRZ 10 (-299) <= Rabs x <= powerRZ 10 306)%R) ->
  (forall k s, In (k, s) (strs t) -> ~ In ":"%char s /\ ~ In newline s) ->
  exists t', ParseLines (lines (RecordParametersToFile t)) defaults = Ok t' /\ ints t' = ints t /\
    Forall2 (fun a b => fst a = fst b /\ (Rabs (snd a - snd b) <= / 100000 * Rabs (snd b))%R) (floats t') (floats t) /\
    Forall2 (fun a b => fst a = fst b /\ snd a = noblank (snd b)) (strs t') (strs t).
Proof.
  intros d t GK SK HI HF HS. exists (reread t). split; [now apply read_record|]. split; [reflexivity|]. cbn [reread floats strs]. split.
  - revert HF. induction (floats t) as [|(k, x) l IH]; intros HF; cbn [map]; constructor.
    + cbn [fst snd]. split; [reflexivity|]. apply reread_close. rewrite <- !bpow10 in HF. apply (HF k). now left.
    + apply IH. intros k' x' H. apply (HF k'). now right.
  - clear. induction (strs t); cbn [map]; constructor; auto.
Qed.
Print Assumptions C30_record_close.

(** The keys of SetDefaultValues satisfy [good_keys]. *)
Definition default_table (n : Z) (x : R) (s : text) : params :=
  mkP (map (fun k => (lit k, n)) int_keys) (map (fun k => (lit k, x)) float_keys) (map (fun k => (lit k, s)) string_keys).
Fixpoint nodupb (l : list text) : bool := match l with [] => true | x :: l => negb (existsb (teq x) l) && nodupb l end.
Lemma nodupb_ok : forall l, nodupb l = true -> NoDup l.
Proof.
  induction l as [|x l IH]; [constructor|]. cbn. intros H. apply andb_prop in H. destruct H as (H1 & H2). constructor; [|auto].
  intros K. apply negb_true_iff in H1. rewrite <- not_true_iff_false in H1. apply H1. apply existsb_exists. exists x. split; [exact K|apply teq_refl].
Qed.
Definition key_ok (k : text) : bool :=
  forallb (fun c => negb (ceq c " " || ceq c "=" || ceq c ":" || ceq c newline || ceq c "#")) k.
Lemma key_ok_good : forall k, key_ok k = true -> good_key k.
Proof.
  intros k H. unfold key_ok in H. rewrite forallb_forall in H.
  assert (forall c, In c k -> c <> " "%char /\ c <> "="%char /\ c <> ":"%char /\ c <> newline /\ c <> "#"%char) as P.
  { intros c I. specialize (H c I). unfold ceq in H. repeat destruct ascii_dec; cbn in H; try discriminate. auto. }
  repeat split; try (intros K; apply P in K; tauto). destruct k; [discriminate|]. cbn. intros K. injection K as ->. destruct (P "#"%char); [now left|tauto].
Qed.
Theorem C30_default_keys : forall n x s, good_keys (default_table n x s).
Proof.
  intros n x s. unfold good_keys, default_table. cbn [ints floats strs]. rewrite !map_map. cbn [fst].
  split.
  - apply nodupb_ok. vm_compute. reflexivity.
  - intros k H. apply key_ok_good. revert k H. apply forallb_forall. vm_compute. reflexivity.
Qed.
Print Assumptions C30_default_keys.

(** Parameters set from Python: integers exactly, refused once the parameters are processed. *)
Theorem C30_SetParam_int : forall done k n t, INT_MIN <= n <= INT_MAX ->
  match SetParam_int done k n t with
  | Ok t' => done = false /\ (forall k', k' <> k -> value_of t' k' = value_of t k') /\
             (forall m, value_of t k = Some (PInt m) -> value_of t' k = Some (PInt n) /\ GetParameter k t' = Ok (show_int n))
  | Raise => done = true \/ k = lit "ndim" \/ k = lit "sim"
  | _ => False
  end.
Proof.
  intros done k n t B. unfold SetParam_int, SetParam. destruct done; [now left|].
  destruct (teq k (lit "ndim")) eqn:E1; [right; left; now apply teq_eq|]. destruct (teq k (lit "sim")) eqn:E2; [right; right; now apply teq_eq|].
  split; [reflexivity|]. split; [intros k' N; now apply SetParameter_other|].
  intros m V. unfold value_of in V. destruct (get k (ints t)) eqn:G; [|destruct (get k (floats t)), (get k (strs t)); discriminate].
  unfold SetParameter. rewrite has_get, G, read_show_int by exact B. unfold value_of, GetParameter. cbn [ints floats strs].
  rewrite get_put_same by (rewrite has_get, G; reflexivity). now split.
Qed.
Print Assumptions C30_SetParam_int.

(** ** Where the full statement fails *)
Definition small : params := mkP [(lit "sink_particles", 1)] [(lit "tend", 0%R)] [(lit "run_id", lit "a"); (lit "in_file", lit "x")].
(** A line that is only the name of a parameter sets it. *)
Theorem C30_bare_name_refuted : exists line t, ~ In "="%char line /\
  value_of t (lit "sink_particles") = Some (PInt 1) /\
  exists t', ParseLine line t = Ok t' /\ value_of t' (lit "sink_particles") = Some (PInt 0).
Proof.
  exists (lit "sink_particles"), small. split; [vm_compute; intuition discriminate|]. split; [reflexivity|].
  eexists. split; [vm_compute; reflexivity|reflexivity].
Qed.
Print Assumptions C30_bare_name_refuted.
(** An assignment whose value contains a colon is ignored. *)
Theorem C30_colon_refuted : exists line t, line = lit "in_file = run:1.dat" /\
  value_of t (lit "in_file") = Some (PText (lit "x")) /\ ParseLine line t = Ok t.
Proof. exists (lit "in_file = run:1.dat"), small. split; [reflexivity|]. split; [reflexivity|]. vm_compute. reflexivity. Qed.
Print Assumptions C30_colon_refuted.
(** A recorded string with a blank is not read back, nor a double with more than six digits. *)
Theorem C30_record_read_refuted : exists t t', good_keys t /\ ReadParamsFile t (RecordParametersToFile t) = Ok t' /\
  value_of t (lit "in_file") = Some (PText (lit "a b")) /\ value_of t' (lit "in_file") = Some (PText (lit "ab")).
Proof.
  exists (mkP [] [] [(lit "run_id", lit "a"); (lit "in_file", lit "a b")]), (mkP [] [] [(lit "run_id", lit "a"); (lit "in_file", lit "ab")]). split.
  - split; [apply nodupb_ok; reflexivity|]. intros k H. apply key_ok_good. revert k H. apply forallb_forall. reflexivity.
  - split; [|split; reflexivity]. vm_compute. reflexivity.
Qed.
Print Assumptions C30_record_read_refuted.
Lemma six_1234567 : six 1234567 = 1234570%R.
Proof.
  unfold six, round. assert (M : mag_val ten 1234567 (mag ten 1234567) = 7).
  { apply mag_unique. rewrite Rabs_pos_eq by lra. cbn. lra. }
  unfold F2R, scaled_mantissa, cexp. rewrite M. cbn [Fnum Fexp]. unfold FLX_exp. change (7 - 6) with 1.
  rewrite (Znearest_imp _ _ 123457).
  - cbn. lra.
  - cbn. apply Rabs_def1; lra.
Qed.
Theorem C30_double_refuted : exists t t', good_keys t /\
  ParseLines (lines (RecordParametersToFile t)) t = Ok t' /\
  value_of t (lit "tend") = Some (PFloat 1234567) /\ value_of t' (lit "tend") <> Some (PFloat 1234567).
Proof.
  exists (mkP [] [(lit "tend", 1234567%R)] []). eexists. split; [|split; [|split; [reflexivity|]]].
  - split; [apply nodupb_ok; reflexivity|]. intros k H. apply key_ok_good. revert k H. apply forallb_forall. reflexivity.
  - apply read_record.
    + split; [apply nodupb_ok; reflexivity|]. intros k H. apply key_ok_good. revert k H. apply forallb_forall. reflexivity.
    + repeat split.
    + intros k n [].
    + intros k s [].
  - unfold value_of, reread. cbn [ints floats strs map fst snd get find]. cbn. intros K. injection K as K.
    unfold reread_float in K.
    rewrite six_1234567 in K.
    assert (T : to_double 1234570 = 1234570%R).
    { unfold to_double. apply round_generic; [apply valid_rnd_N|]. apply generic_format_FLT. exists (Float radix2 1234570 0); [unfold F2R; cbn; lra|cbn [Fnum]; vm_compute; reflexivity|cbn [Fexp]; vm_compute; discriminate]. }
    rewrite clamp_id in K.
    + rewrite T in K. lra.
    + rewrite Rabs_pos_eq by lra. apply Rle_trans with (bpow radix2 21); [cbn; lra|apply bpow_le; lia].
Qed.
Print Assumptions C30_double_refuted.

(** ** Examples *)
Definition gtable : params :=
  mkP [(lit "Nstepsmax", -17); (lit "ndim", 3)] [(lit "tend", 0%R)] [(lit "run_id", lit "RUN1"); (lit "sim", lit "sph")].
Example C30_example_assign : exists t', ParseLine (lit "No. of steps : Nstepsmax = 250 ") gtable = Ok t' /\
  value_of t' (lit "Nstepsmax") = Some (PInt 250) /\ value_of t' (lit "ndim") = Some (PInt 3) /\
  noblank (lit " Nstepsmax ") = lit "Nstepsmax" /\
  lit "No. of steps : Nstepsmax = 250 " = lit "No. of steps " ++ ":"%char :: lit " Nstepsmax " ++ "="%char :: lit " 250 ".
Proof. eexists. repeat split; vm_compute; reflexivity. Qed.
Example C30_example_dec : dec_int (lit "-250") (-250) /\ dec_real (lit "2.5e1") 25.
Proof.
  split.
  - right. right. exists (lit "250"). split; [reflexivity|]. change (lit "250") with (([ "2"%char ] ++ ["5"%char]) ++ ["0"%char]).
    change (- -250) with (10 * (10 * 2 + 5) + 0). repeat constructor; lia.
  - exists [], false, (lit "2"), (lit "5"), (lit ".5"), (lit "e1"), 1, 25. split; [reflexivity|]. split; [now left|]. split.
    + change (lit "2" ++ lit "5") with ([ "2"%char ] ++ ["5"%char]). change 25 with (10 * 2 + 5). repeat constructor; lia.
    + split; [now right|]. split; [right; exists (lit "1"); split; [now left|left; repeat constructor; lia]|]. cbn. lra.
Qed.
Example C30_example_record : ReadParamsFile gtable (RecordParametersToFile gtable) = Ok gtable.
Proof.
  apply C30_record_read_partial.
  - split; [apply nodupb_ok; reflexivity|]. intros k H. apply key_ok_good. revert k H. apply forallb_forall. reflexivity.
  - repeat split.
  - cbn. unfold INT_MIN, INT_MAX. intros k n [E|[E|[]]]; injection E as _ <-; lia.
  - cbn. intros k x [E|[]]. injection E as _ <-. exists 0, 0. split; [lia|]. split; [lia|]. 
    replace (0 * powerRZ 10 0)%R with 0%R by (cbn; lra). replace 0%R with (to_double 0) at 2; [apply to_double_spec|].
    unfold to_double. apply round_0. apply valid_rnd_N.
  - cbn. intros k s [E|[E|[]]]; injection E as _ <-; repeat split; cbn; intuition discriminate.
  - vm_compute. discriminate.
  - vm_compute. discriminate.
Qed.
