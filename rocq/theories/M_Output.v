(** Snapshot files, the restart file and the main loop: SimulationBase::Run, Output,
    RestartSnapshot and SetupSimulation (Common/Simulation.cpp 382-411, 502-631, 641-690), the
    restart part of GenerateIC (Common/SimulationIC.hpp 60-80), the headers read and written in
    Common/SimulationIO.hpp and ConvertToCodeUnits (2508-2559).

    Simplifications: serial code (rank = 0); times are real numbers and a file holds them exactly;
    the particles are an arbitrary list of numbers, each of which is one item of a snapshot file;
    what a main loop step does is an argument (the increment of t, the new particles, whether
    n%nresync = 0 afterwards and whether the wall clock is past 0.95*tmax_wallclock at the two
    places it is read); Nsteps and the counters fit an int; files can always be opened.  Screen
    output, diagnostics and timing are left out. *)
From Coq Require Import Ascii String Reals.
From Verif Require Import Prelude M_Params.
Local Open Scope Z_scope.

(** ** Files *)

(** Headers: WriteColumnSnapshotFile writes N and t (SimulationIO.hpp 444-458), the three Seren
    writers also the counters (1134-1143, 1809-1815, 2149-2155). *)
Inductive header :=
| ColHeader (n : Z) (t : R)
| SerenHeader (n nout nlite nsteps : Z) (t tlast tlitelast : R).
Inductive format := Column | SerenForm | SerenUnform | SerenLite.
(** One item of a file: a character, a header or a particle. *)
Inductive item := Ch (c : ascii) | Hdr (f : format) (h : header) | Dat (x : Z).
Definition file := list item.
Definition disk := text -> option file.
(** What a program does to the disk: open a file for writing, or append to it. *)
Inductive op := Trunc (f : text) | App (f : text) (i : item).
Definition target (o : op) : text := match o with Trunc f => f | App f _ => f end.
Definition apply1 (d : disk) (o : op) : disk :=
  match o with
  | Trunc f => fun g => if teq g f then Some [] else d g
  | App f i => fun g => if teq g f then match d g with Some c => Some (c ++ [i]) | None => None end
                        else d g
  end.
Definition apply (d : disk) (l : list op) : disk := fold_left apply1 l d.
Definition write (f : text) (l : list item) : list op := Trunc f :: map (App f) l.

(** ** The simulation *)

(** Parameters; the times are in code units (Simulation.cpp 1207-1227), [scale] is
    simunits.t.outscale, which equals simunits.t.inscale since ReadInputUnits is never set
    (SimUnits.cpp 808, 839-862). [nbody]: a NbodySimulation. *)
Record pars := Pars {
  run_id : text; out_file_form : text; nbody : bool;
  tsnapfirst : R; dt_snap : R; litesnap : Z; tlitesnapfirst : R; dt_litesnap : R;
  nrestartstep : Z; scale : R; tend : R }.
Record sim := Sim {
  t : R; tsnapnext : R; tsnaplast : R; Noutsnap : Z;
  tlitesnapnext : R; tlitesnaplast : R; Noutlitesnap : Z;
  Nsteps : Z; nlastrestart : Z; kill : bool; parts : list Z }.

(** ss << setfill('0') << setw(5) << n *)
Definition show5 (n : Z) : text :=
  let s := show_int n in repeat "0"%char (5 - length s) ++ s.

(** File names, Simulation.cpp 536, 554, 561, 621, 626 *)
Definition snap_name (p : pars) (n : Z) : text := run_id p ++ "."%char :: out_file_form p ++ "."%char :: show5 n.
Definition lite_name (p : pars) (n : Z) : text := run_id p ++ lit ".slite." ++ show5 n.
Definition restart_name (p : pars) : text := run_id p ++ lit ".restart".
Definition tmp_name (p : pars) : text := run_id p ++ "."%char :: out_file_form p ++ lit ".tmp".

(** Formats of ReadSnapshotFile (SimulationIO.hpp 70-82) and WriteSnapshotFile (104-120). *)
Definition read_format (f : text) : option format :=
  if teq f (lit "column") then Some Column
  else if teq f (lit "sf") || teq f (lit "seren_form") then Some SerenForm
  else if teq f (lit "su") || teq f (lit "seren_unform") then Some SerenUnform
  else None.
Definition write_format (f : text) : option format :=
  match read_format f with
  | Some k => Some k
  | None => if teq f (lit "slite") || teq f (lit "seren_lite") then Some SerenLite else None
  end.

Definition header_of (p : pars) (k : format) (s : sim) : header :=
  match k with
  | Column => ColHeader (zlen (parts s)) (t s * scale p)
  | _ => SerenHeader (zlen (parts s)) (Noutsnap s) (Noutlitesnap s) (Nsteps s)
           (t s * scale p) (tsnaplast s * scale p) (tlitesnaplast s * scale p)
  end.
(** SimulationIO.hpp 97-121: an unknown format writes nothing (the result is ignored). *)
Definition WriteSnapshotFile (p : pars) (name fform : text) (s : sim) : list op :=
  match write_format fform with
  | Some k => write name (Hdr k (header_of p k s) :: map Dat (parts s))
  | None => []
  end.

(** The lines of the restart file: Simulation.cpp 562-565 and 627-630. *)
Definition restart_text (p : pars) (name : text) : text :=
  out_file_form p ++ newline :: name ++ [newline].
Definition write_restart (p : pars) (name : text) : list op :=
  write (restart_name p) (map Ch (restart_text p name)).

(** Simulation.cpp 609-631 *)
Definition RestartSnapshot (p : pars) (s : sim) : list op :=
  WriteSnapshotFile p (tmp_name p) (out_file_form p) s ++ write_restart p (tmp_name p).

(** Simulation.cpp 527-541 *)
Definition OutputLite (p : pars) (s : sim) : sim * list op :=
  if (litesnap p =? 1) && (if Rle_dec (tlitesnapnext s) (t s) then true else false) then
    let s := {| t := t s; tsnapnext := tsnapnext s; tsnaplast := tsnaplast s; Noutsnap := Noutsnap s;
                tlitesnapnext := tlitesnapnext s + dt_litesnap p; tlitesnaplast := tlitesnapnext s;
                Noutlitesnap := Noutlitesnap s + 1; Nsteps := Nsteps s;
                nlastrestart := nlastrestart s; kill := kill s; parts := parts s |} in
    (s, WriteSnapshotFile p (lite_name p (Noutlitesnap s)) (lit "slite") s)
  else (s, []).
(** Simulation.cpp 545-579; [late]: RunningTime > 0.95*tmax_wallclock at 575. *)
Definition OutputSnap (p : pars) (late : bool) (s : sim) : sim * list op :=
  if Rle_dec (tsnapnext s) (t s) then
    let s := {| t := t s; tsnapnext := tsnapnext s + dt_snap p; tsnaplast := tsnapnext s;
                Noutsnap := Noutsnap s + 1; tlitesnapnext := tlitesnapnext s;
                tlitesnaplast := tlitesnaplast s; Noutlitesnap := Noutlitesnap s; Nsteps := Nsteps s;
                nlastrestart := nlastrestart s; kill := late || kill s; parts := parts s |} in
    (s, WriteSnapshotFile p (snap_name p (Noutsnap s)) (out_file_form p) s
        ++ write_restart p (snap_name p (Noutsnap s)))
  else (s, []).
(** Simulation.cpp 593-596; [sync]: n%nresync = 0. *)
Definition OutputTmp (p : pars) (sync : bool) (s : sim) : sim * list op :=
  if sync && (nrestartstep p <=? Nsteps s - nlastrestart s) then
    ({| t := t s; tsnapnext := tsnapnext s; tsnaplast := tsnaplast s; Noutsnap := Noutsnap s;
        tlitesnapnext := tlitesnapnext s; tlitesnaplast := tlitesnaplast s;
        Noutlitesnap := Noutlitesnap s; Nsteps := Nsteps s; nlastrestart := Nsteps s; kill := kill s;
        parts := parts s |}, RestartSnapshot p s)
  else (s, []).
(** Simulation.cpp 502-600 *)
Definition Output (p : pars) (sync late : bool) (s : sim) : sim * list op :=
  let '(s, o1) := OutputLite p s in
  let '(s, o2) := OutputSnap p late s in
  let '(s, o3) := OutputTmp p sync s in
  (s, o1 ++ o2 ++ o3).

(** One turn of the loop of Run: the result of MainLoop and the readings of the clock. *)
Record step := Step {
  s_dt : R; s_parts : list Z; s_sync : bool; s_late : bool; s_stop : bool }.
Definition MainLoop (x : step) (s : sim) : sim :=
  {| t := t s + s_dt x; tsnapnext := tsnapnext s; tsnaplast := tsnaplast s; Noutsnap := Noutsnap s;
     tlitesnapnext := tlitesnapnext s; tlitesnaplast := tlitesnaplast s;
     Noutlitesnap := Noutlitesnap s; Nsteps := Nsteps s + 1; nlastrestart := nlastrestart s;
     kill := kill s; parts := s_parts x |}.
(** The calls of Output: the time, and what was written during and right after it. *)
Record call := Call { c_t : R; c_ops : list op }.
(** Simulation.cpp 395-411: while t < tend and Nsteps < Ntarget. *)
Fixpoint Run (p : pars) (Ntarget : Z) (xs : list step) (s : sim) : sim * list call :=
  match xs with
  | [] => (s, [])
  | x :: xs =>
    if (if Rlt_dec (t s) (tend p) then true else false) && (Nsteps s <? Ntarget) then
      let s := MainLoop x s in
      let '(s, o) := Output p (s_sync x) (s_late x) s in
      if kill s || s_stop x then (s, [Call (t s) (o ++ RestartSnapshot p s)])
      else let '(s', cs) := Run p Ntarget xs s in (s', Call (t s) o :: cs)
    else (s, [])
  end.

(** ** Starting *)

(** The values set by the constructor (Simulation.cpp 170-209) and ProcessParameters (1226-1227). *)
Definition initial (p : pars) : sim :=
  {| t := 0; tsnapnext := tsnapfirst p; tsnaplast := 0; Noutsnap := 0;
     tlitesnapnext := tlitesnapfirst p; tlitesnaplast := 0; Noutlitesnap := 0;
     Nsteps := 0; nlastrestart := 0; kill := false; parts := [] |}.

(** f >> word: the next word of a text and what follows. *)
Fixpoint upto_space (s : text) : text * text :=
  match s with
  | c :: s' => if is_space c then ([], s) else let '(w, r) := upto_space s' in (c :: w, r)
  | [] => ([], [])
  end.
Definition word (s : text) : text * text := upto_space (skip_ws s).
Definition chars (f : file) : text :=
  flat_map (fun i => match i with Ch c => [c] | _ => [] end) f.

(** ReadSnapshotFile of a restart.  [None]: the file does not exist or is not a complete snapshot
    of that format; what is read then is not modelled.
    Column: SimulationIO.hpp 166-177 and 206-208, t is divided by inscale here.
    Seren: 677-686 and 1385-1394. *)
Definition ReadSnapshotFile (p : pars) (d : disk) (name fform : text) (s : sim) : option sim :=
  match read_format fform, d name with
  | Some k, Some (Hdr k' h :: l) =>
    let xs := flat_map (fun i => match i with Dat x => [x] | _ => [] end) l in
    match k, k', h with
    | Column, Column, ColHeader n th =>
      if n =? zlen xs then
        Some {| t := th / scale p; tsnapnext := tsnapnext s; tsnaplast := th / scale p;
                Noutsnap := Noutsnap s; tlitesnapnext := tlitesnapnext s;
                tlitesnaplast := tlitesnaplast s; Noutlitesnap := Noutlitesnap s;
                Nsteps := Nsteps s; nlastrestart := nlastrestart s; kill := kill s; parts := xs |}
      else None
    | SerenForm, SerenForm, SerenHeader n nout nlite nsteps th tlast tlitelast
    | SerenUnform, SerenUnform, SerenHeader n nout nlite nsteps th tlast tlitelast =>
      if n =? zlen xs then
        Some {| t := th; tsnapnext := tsnapnext s; tsnaplast := tlast; Noutsnap := nout;
                tlitesnapnext := tlitesnapnext s; tlitesnaplast := tlitelast;
                Noutlitesnap := nlite; Nsteps := nsteps; nlastrestart := nlastrestart s;
                kill := kill s; parts := xs |}
      else None
    | _, _, _ => None
    end
  | _, _ => None
  end.
(** SimulationIO.hpp 2548-2556, with restart = true. *)
Definition ConvertToCodeUnits (p : pars) (s : sim) : sim :=
  let tl := (tsnaplast s / scale p)%R in
  let tll := (tlitesnaplast s / scale p)%R in
  {| t := t s / scale p; tsnapnext := tl + dt_snap p; tsnaplast := tl; Noutsnap := Noutsnap s;
     tlitesnapnext := tll + dt_litesnap p; tlitesnaplast := tll; Noutlitesnap := Noutlitesnap s;
     Nsteps := Nsteps s; nlastrestart := nlastrestart s; kill := kill s; parts := parts s |}.
(** SimulationIC.hpp 65-82: with restart set, read the restart file; if it does not open, start
    anew from the initial conditions [ic]. *)
Definition GenerateIC (p : pars) (d : disk) (restart : bool) (ic : list Z) (s : sim) : option sim :=
  let fresh := {| t := t s; tsnapnext := tsnapnext s; tsnaplast := tsnaplast s;
                  Noutsnap := Noutsnap s; tlitesnapnext := tlitesnapnext s;
                  tlitesnaplast := tlitesnaplast s; Noutlitesnap := Noutlitesnap s;
                  Nsteps := Nsteps s; nlastrestart := nlastrestart s; kill := kill s;
                  parts := ic |} in
  if restart then
    match d (restart_name p) with
    | Some f => let '(w1, r) := word (chars f) in
                let '(w2, _) := word r in
                match ReadSnapshotFile p d w2 w1 s with
                | Some s => Some (ConvertToCodeUnits p s)
                | None => None
                end
    | None => Some fresh
    end
  else Some fresh.
(** NbodySimulation.cpp:191; the other simulations keep the counter. *)
Definition PostInitialConditionsSetup (p : pars) (s : sim) : sim :=
  if nbody p then
    {| t := t s; tsnapnext := tsnapnext s; tsnaplast := tsnaplast s; Noutsnap := 0;
       tlitesnapnext := tlitesnapnext s; tlitesnaplast := tlitesnaplast s;
       Noutlitesnap := Noutlitesnap s; Nsteps := Nsteps s; nlastrestart := nlastrestart s;
       kill := kill s; parts := parts s |}
  else s.
(** Simulation.cpp 641-690; n = 0 at its end, so n%nresync = 0 in Output. *)
Definition SetupSimulation (p : pars) (d : disk) (restart late : bool) (ic : list Z)
  : option (sim * list call) :=
  match GenerateIC p d restart ic (initial p) with
  | Some s => let '(s, o) := Output p true late (PostInitialConditionsSetup p s) in
              Some (s, [Call (t s) o])
  | None => None
  end.

(** A job: set up, then Run.  [Some (final state, calls of Output)]. *)
Record job := Job {
  j_restart : bool; j_ic : list Z; j_late : bool; j_target : Z; j_steps : list step }.
Definition Job_run (p : pars) (d : disk) (j : job) : option (sim * list call) :=
  match SetupSimulation p d (j_restart j) (j_late j) (j_ic j) with
  | Some (s, cs) => let '(s', cs') := Run p (j_target j) (j_steps j) s in Some (s', cs ++ cs')
  | None => None
  end.
Definition ops_of (cs : list call) : list op := flat_map c_ops cs.
