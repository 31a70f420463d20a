(** Ghosts of particles of other MPI processes, and the way back of changes made to them:
    src/Mpi/MpiControl.cpp:530-712 (DoUpdateMpiGhostParents and what it returns), 995-1155 (SendReceiveGhosts,
    UpdateGhostParticles), src/Hydrodynamics/Ghosts.cpp:160-222 (MpiGhostsSpecific), src/Nbody/Sinks.cpp:705-712.
    FLOAT and DOUBLE are reals.  Entry [r] of a list belongs to rank [r]. *)
From Verif Require Import Prelude Vec S_Tree M_Box M_Util M_Balance M_Store M_Sync.
From Coq Require Import Reals.
Local Open Scope Z_scope.

(** A particle: the fields read or written here, and the rest.  Nonzero fields of dQ: mass and momentum. *)
Record part := mkpart { pm : R; pdudt : R; pv : vec; pdQm : R; pdQv : vec; pdead : bool; pactive : bool; piorig : Z; prest : list R }.
Definition set_iorig (i : Z) (p : part) : part := mkpart (pm p) (pdudt p) (pv p) (pdQm p) (pdQv p) (pdead p) (pactive p) i (prest p).
Definition unset_active (p : part) : part := mkpart (pm p) (pdudt p) (pv p) (pdQm p) (pdQv p) (pdead p) false (piorig p) (prest p).
(** The particle store of a process and its NPeriodicGhost. *)
Record proc := mkproc { store_of : store (P := part); nper : Z }.

(** MPI_Alltoallv: process [q] sends to [r] scounts[q][r] elements from sdispls[q][r] on, which [r] puts at rdispls[r][q]; the
    counts given by the two must agree. *)
Definition aget2 {A} (l : list (list A)) (i j : Z) : res A := let! x := aget l i in aget x j.
Fixpoint Alltoallv_at {A} (n : nat) (q r : Z) (sends : list (list A)) (scounts sdispls rcounts rdispls : list (list Z)) (recv : list A) : res (list A) :=
  match n with
  | O => Ok recv
  | S m =>
      let! sc := aget2 scounts q r in
      let! rc := aget2 rcounts r q in
      if negb (sc =? rc) then UB
      else
        let! sb := aget sends q in
        let! sd := aget2 sdispls q r in
        let! b := block sb sd sc in
        let! rd := aget2 rdispls r q in
        let! recv := blit recv rd b in
        Alltoallv_at m (q + 1) r sends scounts sdispls rcounts rdispls recv
  end.
Definition Alltoallv {A} (Nmpi : Z) (sends : list (list A)) (scounts sdispls rcounts rdispls : list (list Z)) (recvs : list (list A)) : res (list (list A)) :=
  each Nmpi (fun r => let! recv := aget recvs r in Alltoallv_at (Z.to_nat Nmpi) 0 r sends scounts sdispls rcounts rdispls recv).
(** MPI_Alltoall of one number per process, and the call of MPI_Alltoallv in lines 1072-1077 that does the same. *)
Definition Alltoall (Nmpi : Z) (sends recvs : list (list Z)) : res (list (list Z)) :=
  let ones := map (fun _ => repeat 1 (Z.to_nat Nmpi)) (zseq 0 (Z.to_nat Nmpi)) in
  let displs := map (fun _ => zseq 0 (Z.to_nat Nmpi)) (zseq 0 (Z.to_nat Nmpi)) in
  Alltoallv Nmpi sends ones displs ones displs recvs.

(** displacements_send and displacements_receive, lines 1057-1063 and 1104-1108. *)
Fixpoint running (counter : Z) (l : list Z) : list Z := match l with [] => [] | n :: t => counter :: running (counter + n) t end.
Fixpoint collect {A B} (f : A -> res B) (l : list A) : res (list B) :=
  match l with [] => Ok [] | x :: t => let! y := f x in let! u := collect f t in Ok (y :: u) end.

Section Ghosts.
Variable ndim : nat.
(** Lines 1025-1052: particles_to_export_per_node of process [q].  [search] is SearchMpiGhostParticles. *)
Definition exports (Nmpi q : Z) (hboxes : Z -> box) (search : Z -> list Z) : list (list Z) :=
  map (fun inode =>
    if inode =? q then []
    else if BoxesOverlap ndim (bmin (hboxes inode)) (bmax (hboxes inode)) (bmin (hboxes q)) (bmax (hboxes q)) then search inode else [])
    (zseq 0 (Z.to_nat Nmpi)).
(** Lines 1089-1101 and 1142-1149: particles_to_export, which has Nexport elements. *)
Definition fill_export (data : list part) (E : list (list Z)) : res (list part) :=
  collect (fun i => let! p := aget data i in Ok (set_iorig i p)) (concat E).
(** Lines 1110-1113 and 1152-1154. *)
Definition exchange (Nmpi : Z) (E : list (list (list Z))) (Nreceive : list (list Z)) (procs : list proc) (received : list (list part)) : res (list (list part)) :=
  let! sends := each Nmpi (fun q => let! p := aget procs q in let! e := aget E q in fill_export (data (store_of p)) e) in
  Alltoallv Nmpi sends (map (map zlen) E) (map (fun e => running 0 (map zlen e)) E) Nreceive (map (running 0) Nreceive) received.
(** SendReceiveGhosts from line 1054 on: the numbers are exchanged, then the particles.  [old] is what Nreceive_per_node
    contained, [junk] a default constructed particle. *)
Definition SendReceiveGhosts (Nmpi : Z) (junk : part) (old : list (list Z)) (E : list (list (list Z))) (procs : list proc) : res (list (list part) * list (list Z)) :=
  let! Nreceive := Alltoall Nmpi (map (map zlen) E) old in
  let! g := exchange Nmpi E Nreceive procs (map (fun n => repeat junk (Z.to_nat (fold_left Z.add n 0))) Nreceive) in
  Ok (g, Nreceive).

(** Ghosts.cpp:182-186 and 213-221. *)
Fixpoint put_ghosts (d : list part) (i : Z) (gs : list part) : res (list part) :=
  match gs with [] => Ok d | g :: t => let! d := aset d i (unset_active g) in put_ghosts d (i + 1) t end.
(** Ghosts.cpp:175-191. *)
Definition add_ghosts (junk : part) (p : proc) (gs : list part) : res proc :=
  let s := store_of p in
  let Ntot := Nhydro s + Nghost s in
  let! s := (if Nhydromax s <? Ntot + zlen gs then AllocateMemory junk (Ntot + zlen gs) s else Ok s) in
  let! d := put_ghosts (data s) (Nhydro s + nper p) gs in
  Ok (mkproc (mkstore (Nhydro s) (Nghost s + zlen gs) (Nhydromax s) d) (nper p)).
(** MpiGhostsSpecific::SearchGhostParticles on all processes. *)
Definition SearchGhostParticles (Nmpi : Z) (junk : part) (old : list (list Z)) (E : list (list (list Z))) (procs : list proc) : res (list proc * list (list Z)) :=
  let! (g, Nreceive) := SendReceiveGhosts Nmpi junk old E procs in
  let! out := each Nmpi (fun r => let! p := aget procs r in let! l := aget g r in add_ghosts junk p l) in
  Ok (out, Nreceive).
(** MpiGhostsSpecific::CopyHydroDataToGhosts on all processes, with the lists and buffers left by SearchGhostParticles. *)
Definition CopyHydroDataToGhosts (Nmpi : Z) (E : list (list (list Z))) (Nreceive : list (list Z)) (received : list (list part)) (procs : list proc) : res (list proc) :=
  let! g := exchange Nmpi E Nreceive procs received in
  each Nmpi (fun r =>
    let! p := aget procs r in
    let! l := aget g r in
    let s := store_of p in
    let! d := put_ghosts (data s) (Nhydro s + nper p) l in
    Ok (mkproc (mkstore (Nhydro s) (Nghost s) (Nhydromax s) d) (nper p))).

(** ** The way back *)
(** ReturnSink for SPH and for meshless particles, and ReturnDust, lines 543-592: iorig and one number. *)
Inductive kind := ReturnSink | ReturnSinkMfv | ReturnDust.
Record rdata := mkrdata { r_iorig : Z; r_val : R }.
Definition make (k : kind) (p : part) : rdata := mkrdata (piorig p) (match k with ReturnDust => pdudt p | _ => pm p end).
Definition dead_if_zero (p : part) : part :=
  if Req_EM_T (pm p) 0 then mkpart (pm p) (pdudt p) (pv p) (pdQm p) (pdQv p) true false (piorig p) (prest p) else p.
Definition update_received (k : kind) (d : rdata) (p : part) : part :=
  match k with
  | ReturnSink => dead_if_zero (mkpart (r_val d) (pdudt p) (pv p) (pdQm p) (pdQv p) (pdead p) (pactive p) (piorig p) (prest p))
  | ReturnSinkMfv =>
      let dm := (pm p - r_val d)%R in
      dead_if_zero (mkpart (pm p - dm) (pdudt p) (pv p) (pdQm p - dm) (fun k => (pdQv p k - dm * pv p k)%R) (pdead p) (pactive p) (piorig p) (prest p))
  | ReturnDust => mkpart (pm p) (pdudt p + r_val d) (pv p) (pdQm p) (pdQv p) (pdead p) (pactive p) (piorig p) (prest p)
  end.

(** std::partial_sum (inclusive) and the addition of lines 643-645. *)
Fixpoint i_start_ghost (base : Z) (l : list Z) : list Z := match l with [] => [] | n :: t => base + n :: i_start_ghost (base + n) t end.
(** std::upper_bound on sorted numbers: the position of the first one greater than x. *)
Fixpoint upper_bound (l : list Z) (x : Z) : Z := match l with [] => 0 | v :: t => if x <? v then 0 else 1 + upper_bound t x end.
(** Lines 647-661: buffer_proc_data; N_updates_per_proc holds the sizes of its elements. *)
Fixpoint sort_updates (k : kind) (starts : list Z) (d : list part) (ids : list Z) (buf : list (list rdata)) : res (list (list rdata)) :=
  match ids with
  | [] => Ok buf
  | index :: ids =>
      let pr := upper_bound starts index in
      let! b := aget buf pr in
      let! p := aget d index in
      let! buf := aset buf pr (b ++ [make k p]) in
      sort_updates k starts d ids buf
  end.
(** Lines 671-674. *)
Fixpoint copy_buffers (bufs : list (list rdata)) (displs : list Z) (buffer : list rdata) : res (list rdata) :=
  match bufs, displs with
  | [], [] => Ok buffer
  | b :: bufs, o :: displs => let! buffer := blit buffer o b in copy_buffers bufs displs buffer
  | _, _ => UB
  end.
(** Lines 701-705; the chain of iorig of periodic and mirror ghosts. *)
Fixpoint real_parent (fuel : nat) (Nh : Z) (d : list part) (j : Z) : res Z :=
  match fuel with
  | O => NoFuel
  | S fuel => if j <? Nh then Ok j else let! p := aget d j in real_parent fuel Nh d (piorig p)
  end.
(** Lines 695-708. *)
Fixpoint update_all (k : kind) (Nh : Z) (l : list rdata) (d : list part) : res (list part) :=
  match l with
  | [] => Ok d
  | x :: l =>
      let! j := real_parent (S (length d)) Nh d (r_iorig x) in
      let! p := aget d j in
      let! d := aset d j (update_received k x p) in
      update_all k Nh l d
  end.
(** DoUpdateMpiGhostParents on all processes; [ids] are the lists given by the callers. *)
Definition DoUpdateMpiGhostParents (k : kind) (Nmpi : Z) (Nreceive : list (list Z)) (ids : list (list Z)) (procs : list proc) : res (list proc) :=
  let zeros := repeat 0 (Z.to_nat Nmpi) in
  let none := mkrdata (-1) 0 in
  let! bufs := each Nmpi (fun r =>
    let! p := aget procs r in
    let! n := aget Nreceive r in
    let! i := aget ids r in
    sort_updates k (i_start_ghost (Nhydro (store_of p) + nper p) n) (data (store_of p)) i (repeat [] (Z.to_nat Nmpi))) in
  let counts := map (map zlen) bufs in
  let! displs := each Nmpi (fun r => let! c := aget counts r in compute_displs zeros c) in
  let! sends := each Nmpi (fun r =>
    let! b := aget bufs r in let! o := aget displs r in let! i := aget ids r in copy_buffers b o (repeat none (length i))) in
  let! from := Alltoall Nmpi counts (repeat zeros (Z.to_nat Nmpi)) in
  let! rdispls := each Nmpi (fun r => let! c := aget from r in compute_displs zeros c) in
  let! recvs := Alltoallv Nmpi sends counts displs from rdispls (map (fun c => repeat none (Z.to_nat (fold_left Z.add c 0))) from) in
  each Nmpi (fun r =>
    let! p := aget procs r in
    let! l := aget recvs r in
    let s := store_of p in
    let! d := update_all k (Nhydro s) l (data s) in
    Ok (mkproc (mkstore (Nhydro s) (Nghost s) (Nhydromax s) d) (nper p))).

(** Sinks.cpp:706-712: which of the swallowed particles are put into the list. *)
Definition record_accreted (Nh : Z) (swallowed : list Z) : list Z := filter (fun i => Nh <? i) swallowed.
(** Dust.cpp:751-763: the ghosts of other processes with heating. *)
Definition copy_back (Nh np nmpi : Z) (dudt : Z -> R) : list Z := filter (fun i => if Rlt_dec 0 (dudt i) then true else false) (zseq (Nh + np) (Z.to_nat nmpi)).
End Ghosts.
