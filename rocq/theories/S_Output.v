(** What the snapshot files of a run are, when they are due, and what a restart needs. *)
From Coq Require Import Ascii String Reals.
From Verif Require Import Prelude M_Params S_Params M_Output.
Local Open Scope Z_scope.

(** Decimal number [n] with leading zeros up to five digits. *)
Definition numbered (n : Z) (s : text) : Prop :=
  dec_nat s n /\ (5 <= length s)%nat /\ ((5 < length s)%nat -> hd_error s <> Some "0"%char).
(** RUN.FORM.NNNNN *)
Definition snapshot_name (p : pars) (k : Z) (f : text) : Prop :=
  exists s, numbered k s /\ f = run_id p ++ lit "." ++ out_file_form p ++ lit "." ++ s.
Definition is_snapshot (p : pars) (f : text) : Prop := exists k, snapshot_name p k f.
(** RUN.FORM.tmp and RUN.restart *)
Definition tmp_file (p : pars) : text := run_id p ++ lit "." ++ out_file_form p ++ lit ".tmp".
Definition restart_file (p : pars) : text := run_id p ++ lit ".restart".

(** Parameters with which a run can be restarted at all: a format that can be read and no white
    space in the run id. *)
Definition good_pars (p : pars) : Prop :=
  In (out_file_form p) (map lit ["column"; "sf"; "seren_form"; "su"; "seren_unform"]%string) /\
  (forall c, In c (run_id p) -> ~ In (N_of_ascii c) [9; 10; 11; 12; 13; 32]%N).
Definition seren_pars (p : pars) : Prop :=
  In (out_file_form p) (map lit ["sf"; "seren_form"; "su"; "seren_unform"]%string).

(** The time at which snapshot [k] (counted from 1) is due. *)
Definition due (p : pars) (k : Z) : R := (tsnapfirst p + IZR (k - 1) * dt_snap p)%R.

(** The files opened for writing, in order. *)
Fixpoint opens (l : list op) : list text :=
  match l with
  | [] => []
  | Trunc f :: l => f :: opens l
  | App _ _ :: l => opens l
  end.
Definition opened (f : text) (c : call) : Prop := In f (opens (c_ops c)).
(** The members of a list with property [P]. *)
Inductive sub_of {A} (P : A -> Prop) : list A -> list A -> Prop :=
| sub_nil : sub_of P [] []
| sub_take x l l' : P x -> sub_of P l l' -> sub_of P (x :: l) (x :: l')
| sub_skip x l l' : ~ P x -> sub_of P l l' -> sub_of P (x :: l) l'.
(** The snapshots written by these calls of Output have, in order, the numbers [ns]. *)
Definition snapshots_written (p : pars) (cs : list call) (ns : list Z) : Prop :=
  exists fs, sub_of (is_snapshot p) (flat_map (fun c => opens (c_ops c)) cs) fs /\
             Forall2 (snapshot_name p) ns fs.

(** Number of particles that a header announces. *)
Definition announced (h : header) : Z :=
  match h with ColHeader n _ => n | SerenHeader n _ _ _ _ _ _ => n end.
Definition format_of (f : text) (k : format) : Prop :=
  match k with
  | Column => f = lit "column"
  | SerenForm => f = lit "sf" \/ f = lit "seren_form"
  | SerenUnform => f = lit "su" \/ f = lit "seren_unform"
  | SerenLite => False
  end.
(** A completely written snapshot, in the format of the run. *)
Definition snapshot (p : pars) (c : file) (h : header) (xs : list Z) : Prop :=
  exists k, format_of (out_file_form p) k /\ c = Hdr k h :: map Dat xs /\ announced h = zlen xs.
Definition complete (p : pars) (d : disk) (f : text) : Prop :=
  exists c h xs, d f = Some c /\ snapshot p c h xs.
(** What the restart file says when it names [f]: two lines, the second perhaps not terminated. *)
Definition endl : text := lit (String (ascii_of_nat 10) "").
Definition restart_lines (p : pars) (f : text) : file := map Ch (out_file_form p ++ endl ++ f ++ endl).
Definition names (p : pars) (d : disk) (f : text) : Prop :=
  d (restart_file p) = Some (restart_lines p f) \/ d (restart_file p) = Some (map Ch (out_file_form p ++ endl ++ f)).
(** A file that is being written: some of it, not all. *)
Definition torn (c whole : file) : Prop := exists r, r <> [] /\ whole = c ++ r.

(** The header of snapshot [k], written at time [th]: the time is in output units; the Seren formats
    also hold the number and the time at which it was due. *)
Definition snapshot_header (p : pars) (k : Z) (th : R) (h : header) : Prop :=
  match h with
  | ColHeader _ t => t = (th * scale p)%R
  | SerenHeader _ nout _ _ t tlast _ => nout = k /\ t = (th * scale p)%R /\ tlast = (due p k * scale p)%R
  end.

(** A crash leaves what was written up to some point. *)
Definition crash (d : disk) (l : list op) (d' : disk) : Prop :=
  exists l1 l2, l = l1 ++ l2 /\ d' = apply d l1.

(** What a crash may leave: nothing, a restart file that names a completely written snapshot, a restart
    file that is being rewritten, or one that names the temporary snapshot while that is being rewritten. *)
Definition usable (p : pars) (d : disk) : Prop := exists f, names p d f /\ complete p d f.
Definition rewriting_restart (p : pars) (d : disk) : Prop :=
  exists f c, complete p d f /\ d (restart_file p) = Some c /\ torn c (restart_lines p f).
Definition rewriting_tmp (p : pars) (d : disk) : Prop :=
  names p d (tmp_file p) /\ exists c whole h xs, d (tmp_file p) = Some c /\ torn c whole /\ snapshot p whole h xs.

(** The files of a run after any number of jobs in an empty directory, each of which may have been
    interrupted anywhere. *)
Inductive history (p : pars) : disk -> Prop :=
| hist_empty : history p (fun _ => None)
| hist_job d j s cs d' : history p d -> Forall (fun x => 0 <= s_dt x)%R (j_steps j) ->
    Job_run p d j = Some (s, cs) -> crash d (ops_of cs) d' -> history p d'.
(** The number of the last snapshot when a job starts. *)
Definition starts_after (p : pars) (d : disk) (j : job) (k : Z) : Prop :=
  (j_restart j = false \/ d (restart_file p) = None) /\ k = 0 \/
  j_restart j = true /\ exists f c n nlite nsteps th tl tll xs, names p d f /\ d f = Some c /\
    snapshot p c (SerenHeader n k nlite nsteps th tl tll) xs /\ (forall m, snapshot_name p m f -> m = k).
