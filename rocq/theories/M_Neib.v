(** class NeighbourManager, src/Headers/NeighbourManager.h:361-562: collecting the data of a
    cell's candidate neighbours and splitting them for one particle. *)
From Verif Require Import Prelude Vec M_Box M_Util M_Periodic.
From Coq Require Import Reals NArith.
Local Open Scope R_scope.

(** The particle fields read; all the others are copied along and represented by [n_id]. *)
Record npart := { n_id : Z; n_r : vec; n_h : R; n_hr2 : R; n_type : nat; n_dead : bool; n_mirror : bool;
                  n_level : Z; n_iorig : Z }.
Definition n_move (q : npart) (r : vec) : npart :=
  {| n_id := n_id q; n_r := r; n_h := n_h q; n_hr2 := n_hr2 q; n_type := n_type q; n_dead := n_dead q;
     n_mirror := n_mirror q; n_level := n_level q; n_iorig := n_iorig q |}.

(** Lines 546-556: _first_appearance with do_pair_once. *)
Definition first_appearance (p q : npart) : bool :=
  n_mirror q || (n_level q <? n_level p)%Z || ((n_level p =? n_level q)%Z && (n_iorig p <? n_iorig q)%Z).
(** Lines 558-561: without it. *)
Definition wanted (once : bool) (p q : npart) : bool := if once then first_appearance p q else true.

(** The containers filled by a search: neibdata, neiblist, directlist, neib_idx. *)
Record nstate := { s_data : list npart; s_neib : list Z; s_direct : list Z; s_idx : list Z }.

Section EndSearch.
(** [images] is ConstructGhostsScatterGather: the copies appended to neibdata (property C13);
    [gmask] the type mask of gravitating particles; the cell has centre [rc], radius [rmax] and
    largest smoothing length [hmax]. *)
Variables (ndim : nat) (images : npart -> list npart) (gmask : nat -> bool) (rc : vec) (rmax hmax kernrange : R).

(** Lines 376, 425-428 (and 453-456). *)
Definition in_range (q : npart) : bool :=
  let dr := vsub (n_r q) rc in
  let d2 := dot ndim dr dr in
  let h2 := rmax + kernrange * n_h q in
  rltb d2 ((rmax + kernrange * hmax) ^ 2) || rltb d2 (h2 * h2).

(** Lines 395-409: the particles of the direct list. *)
Fixpoint es_direct (pd : list npart) (l : list Z) (s : nstate) : res nstate :=
  match l with
  | [] => Ok s
  | i :: l =>
      let! q := aget pd i in
      if n_dead q then es_direct pd l s
      else if negb (gmask (n_type q)) then es_direct pd l s
      else
        let d := s_data s ++ images q in
        es_direct pd l {| s_data := d; s_neib := s_neib s; s_direct := s_direct s ++ [(zlen d - 1)%Z]; s_idx := s_idx s ++ [i] |}
  end.

(** Lines 423-443: the loop over the ghosts just appended; [nn] is Nneib.  neibdata.resize
    drops the last element. *)
Fixpoint es_cull (fuel : nat) (keep : bool) (i : Z) (s : nstate) (nn : Z) : res (nstate * Z) :=
  if (nn <? zlen (s_data s))%Z then
    match fuel with
    | O => NoFuel
    | S fuel =>
        let! q := aget (s_data s) nn in
        if in_range q then
          es_cull fuel keep i {| s_data := s_data s; s_neib := s_neib s ++ [nn]; s_direct := s_direct s; s_idx := s_idx s ++ [i] |} (nn + 1)
        else if keep && gmask (n_type q) then
          es_cull fuel keep i {| s_data := s_data s; s_neib := s_neib s; s_direct := s_direct s ++ [nn]; s_idx := s_idx s ++ [i] |} (nn + 1)
        else
          let nmax := (zlen (s_data s) - 1)%Z in
          let! d := if (nn <? nmax)%Z then let! x := aget (s_data s) nmax in aset (s_data s) nn x else Ok (s_data s) in
          es_cull fuel keep i {| s_data := removelast d; s_neib := s_neib s; s_direct := s_direct s; s_idx := s_idx s |} nn
    end
  else Ok (s, nn).
(** Lines 417-444. *)
Fixpoint es_per (pd : list npart) (keep : bool) (l : list Z) (s : nstate) (nn : Z) : res (nstate * Z) :=
  match l with
  | [] => Ok (s, nn)
  | i :: l =>
      let! q := aget pd i in
      if n_dead q then es_per pd keep l s nn
      else
        let s := {| s_data := s_data s ++ images q; s_neib := s_neib s; s_direct := s_direct s; s_idx := s_idx s |} in
        let! (s, nn) := es_cull (S (length (s_data s))) keep i s nn in
        es_per pd keep l s nn
  end.
(** Lines 450-470.  Line 463 reads neibdata[Nneib], not the candidate. *)
Fixpoint es_plain (pd : list npart) (keep : bool) (l : list Z) (s : nstate) (nn : Z) : res (nstate * Z) :=
  match l with
  | [] => Ok (s, nn)
  | i :: l =>
      let! q := aget pd i in
      if n_dead q then es_plain pd keep l s nn
      else if in_range q then
        es_plain pd keep l {| s_data := s_data s ++ [q]; s_neib := s_neib s ++ [nn]; s_direct := s_direct s; s_idx := s_idx s ++ [i] |} (nn + 1)
      else
        let! g := if keep then let! x := aget (s_data s) nn in Ok (gmask (n_type x)) else Ok false in
        if g then
          es_plain pd keep l {| s_data := s_data s ++ [q]; s_neib := s_neib s; s_direct := s_direct s ++ [nn]; s_idx := s_idx s ++ [i] |} (nn + 1)
        else es_plain pd keep l s nn
  end.
(** Lines 368-474 _EndSearch after clear(); result (state, _NPeriodicGhosts).  The assertions
    of lines 411 and 473 are [Raise]. *)
Definition EndSearch (pd : list npart) (keep : bool) (tdirect tper tplain : list Z) : res (nstate * Z) :=
  let s := {| s_data := []; s_neib := []; s_direct := []; s_idx := [] |} in
  let! s := if keep then es_direct pd tdirect s else Ok s in
  if negb ((zlen (s_direct s) =? zlen (s_data s))%Z && (zlen (s_idx s) =? zlen (s_data s))%Z) then Raise
  else
    let! (s, nn) := es_per pd keep tper s (zlen (s_direct s)) in
    let nper := zlen (s_neib s) in
    let! (s, nn) := es_plain pd keep tplain s nn in
    if (zlen (s_data s) =? zlen (s_neib s) + zlen (s_direct s))%Z then Ok (s, nper) else Raise.
End EndSearch.

Section Trim.
Variables (ndim : nat) (f : finder) (hmask gmask : nat -> bool).

Record tstate := { t_data : list npart; t_culled : list Z; t_smooth : list Z; t_direct : list Z; t_non : Z }.

(** Lines 503-542, one pass of the loop; [j] is the place in neiblist, [i] = neiblist[j]. *)
Definition trim_step (once keep : bool) (nper : Z) (p : npart) (j i : Z) (s : tstate) : res tstate :=
  let! q := aget (t_data s) i in
  if negb (wanted once p q) then Ok s
  else
    let dr := vsub (n_r q) (n_r p) in
    let! (data, dr) :=
      if (j <? nper)%Z && hmask (n_type q) then
        let '(_, r, dr) := ApplyPeriodicDistanceCorrection ndim f (n_r q) dr in
        let! d := aset (t_data s) i (n_move q r) in Ok (d, dr)
      else Ok (t_data s, dr) in
    let d2 := dot ndim dr dr in
    if rleb (n_hr2 p) d2 && rleb (n_hr2 q) d2 then
      if keep then
        if gmask (n_type q) then
          Ok {| t_data := data; t_culled := t_culled s; t_smooth := t_smooth s; t_direct := t_direct s ++ [i]; t_non := t_non s |}
        else Ok {| t_data := data; t_culled := t_culled s; t_smooth := t_smooth s; t_direct := t_direct s; t_non := (t_non s + 1)%Z |}
      else Ok {| t_data := data; t_culled := t_culled s; t_smooth := t_smooth s; t_direct := t_direct s; t_non := t_non s |}
    else if hmask (n_type q) then
      Ok {| t_data := data; t_culled := t_culled s ++ [i]; t_smooth := t_smooth s; t_direct := t_direct s; t_non := t_non s |}
    else if keep then
      if gmask (n_type q) then
        Ok {| t_data := data; t_culled := t_culled s; t_smooth := t_smooth s ++ [i]; t_direct := t_direct s; t_non := t_non s |}
      else Ok {| t_data := data; t_culled := t_culled s; t_smooth := t_smooth s; t_direct := t_direct s; t_non := (t_non s + 1)%Z |}
    else Ok {| t_data := data; t_culled := t_culled s; t_smooth := t_smooth s; t_direct := t_direct s; t_non := t_non s |}.
Fixpoint trim_loop (once keep : bool) (nper : Z) (p : npart) (l : list Z) (j : Z) (s : tstate) : res tstate :=
  match l with
  | [] => Ok s
  | i :: l => let! s := trim_step once keep nper p j i s in trim_loop once keep nper p l (j + 1) s
  end.
(** Lines 483-543 TrimNeighbourLists; [ncd] is _NCellDirectNeib, to which directlist is cut. *)
Definition TrimNeighbourLists (once keep : bool) (s : nstate) (nper ncd : Z) (p : npart) : res tstate :=
  trim_loop once keep nper p (s_neib s) 0
    {| t_data := s_data s; t_culled := []; t_smooth := []; t_direct := firstn (Z.to_nat ncd) (s_direct s); t_non := 0 |}.
(** Lines 340-357 GetParticleNeibGravity: the assertion of line 346. *)
Definition GetParticleNeibGravity (s : nstate) (nper ncd : Z) (p : npart) : res tstate :=
  let! t := TrimNeighbourLists false true s nper ncd p in
  if (zlen (t_culled t) + zlen (t_direct t) + zlen (t_smooth t) + t_non t =? zlen (s_idx s))%Z then Ok t else Raise.
End Trim.

(** A sweep over the active particles in the order [sched], each visiting the candidates [all]:
    the pairs (p,q) for which an interaction is computed (MeshlessFVTree.cpp:549-590, with the
    geometric tests passed). *)
Definition sweep (sched all : list npart) : list (npart * npart) :=
  flat_map (fun p => map (pair p) (filter (first_appearance p) all)) sched.
