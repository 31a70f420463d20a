(** Sinks on several MPI processes: src/Mpi/MpiControl.cpp:397-520 UpdateSinksAfterAccretion, and the collective MPI calls
    used there.  FLOAT and DOUBLE are reals.  All processes are modelled together: entry [r] of a list belongs to rank [r]. *)
From Verif Require Import Prelude Vec S_Tree M_Box M_Util M_Balance.
From Coq Require Import Reals.
Local Open Scope Z_scope.

(** ** Processes and collective operations *)
(** What every process does by itself. *)
Fixpoint each_from {A} (n : nat) (r : Z) (f : Z -> res A) : res (list A) :=
  match n with O => Ok [] | S m => let! x := f r in let! l := each_from m (r + 1) f in Ok (x :: l) end.
Definition each {A} (Nmpi : Z) (f : Z -> res A) : res (list A) := each_from (Z.to_nat Nmpi) 0 f.
(** MPI_Allreduce with MPI_MAX on vectors, which must have the same length on all processes. *)
Fixpoint max2 (a b : list Z) : res (list Z) :=
  match a, b with
  | [], [] => Ok []
  | x :: a, y :: b => let! l := max2 a b in Ok (Z.max x y :: l)
  | _, _ => UB
  end.
Fixpoint Allreduce_max (vs : list (list Z)) : res (list Z) :=
  match vs with [] => UB | [v] => Ok v | v :: t => let! w := Allreduce_max t in max2 v w end.
(** [n] elements of a buffer from [off] on, and a copy to there; both must be inside the buffer. *)
Definition block {A} (l : list A) (off n : Z) : res (list A) :=
  if (0 <=? off) && (0 <=? n) && (off + n <=? zlen l) then Ok (firstn (Z.to_nat n) (skipn (Z.to_nat off) l)) else UB.
Definition blit {A} (buf : list A) (off : Z) (l : list A) : res (list A) :=
  if (0 <=? off) && (off + zlen l <=? zlen buf) then Ok (firstn (Z.to_nat off) buf ++ l ++ skipn (Z.to_nat (off + zlen l)) buf) else UB.
(** MPI_Allgatherv: process [q] sends the first [scount q] elements of its buffer; they are put at displs[q].  The counts
    given by the sender and by the receiver must agree. *)
Fixpoint Allgatherv {A} (n : nat) (q : Z) (sends : list (list A)) (scounts rcounts displs : list Z) (recv : list A) : res (list A) :=
  match n with
  | O => Ok recv
  | S m =>
      let! sc := aget scounts q in
      let! rc := aget rcounts q in
      if negb (sc =? rc) then UB
      else
        let! sb := aget sends q in
        let! b := block sb 0 sc in
        let! d := aget displs q in
        let! recv := blit recv d b in
        Allgatherv m (q + 1) sends scounts rcounts displs recv
  end.

(** ** Sinks *)
(** The fields that are communicated, and the rest.  Arrays are lists: angmom of 3, the vectors of the star of ndim numbers. *)
Record sinkd := mksink {
  menc : R; trad : R; tvisc : R; ketot : R; rotketot : R; gpetot : R; taccrete : R; trot : R; utot : R; dmdt : R;
  angmom : list R; st_r : list R; st_v : list R; st_a : list R; st_m : R; st_r0 : list R; st_v0 : list R; st_a0 : list R; dt_internal : R;
  others : list R }.
Definition vec_of (l : list R) : vec := fun k => nth k l 0%R.

Section Sync.
Variable ndim : nat.
Definition number_variables : Z := Z.of_nat ndim * 6 + 15.
(** Lines 419-426. *)
Definition is_local (dom : box) (x : sinkd) : bool := ParticleInBox ndim (vec_of (st_r x)) (bmin dom) (bmax dom).
Definition find_owner (rank : Z) (dom : box) (sinks : list sinkd) : list Z := map (fun x => if is_local dom x then rank else 0) sinks.
Definition local_sinks (dom : box) (sinks : list sinkd) : Z := zlen (filter (is_local dom) sinks).

(** sendbuffer[offset++] = x for several x. *)
Fixpoint write_all (buf : list R) (offset : Z) (xs : list R) : res (list R * Z) :=
  match xs with [] => Ok (buf, offset) | x :: t => let! buf := aset buf offset x in write_all buf (offset + 1) t end.
(** Lines 446-468, in this order. *)
Definition fields (x : sinkd) : list R :=
  [menc x; trad x; tvisc x; ketot x; rotketot x; gpetot x; taccrete x; trot x; utot x; dmdt x] ++
  angmom x ++ st_r x ++ st_v x ++ st_a x ++ [st_m x] ++ st_r0 x ++ st_v0 x ++ st_a0 x ++ [dt_internal x].
(** Lines 442-471; the assertion of line 472 is not compiled by default. *)
Fixpoint fill_buffer (rank : Z) (owner : list Z) (sinks : list sinkd) (buf : list R) (offset : Z) : res (list R * Z) :=
  match owner, sinks with
  | o :: owner, x :: sinks =>
      if o =? rank then let! (buf, offset) := write_all buf offset (fields x) in fill_buffer rank owner sinks buf offset
      else fill_buffer rank owner sinks buf offset
  | [], [] => Ok (buf, offset)
  | _, _ => UB
  end.

(** Lines 497-523: the numbers are read one after the other. *)
Fixpoint read_vec (n : nat) (buf : list R) (off : Z) : res (list R) :=
  match n with O => Ok [] | S m => let! x := aget buf off in let! l := read_vec m buf (off + 1) in Ok (x :: l) end.
Definition unpack (buf : list R) (base : Z) (x : sinkd) : res sinkd :=
  let d := Z.of_nat ndim in
  let! a0 := aget buf base in let! a1 := aget buf (base + 1) in let! a2 := aget buf (base + 2) in
  let! a3 := aget buf (base + 3) in let! a4 := aget buf (base + 4) in let! a5 := aget buf (base + 5) in
  let! a6 := aget buf (base + 6) in let! a7 := aget buf (base + 7) in let! a8 := aget buf (base + 8) in
  let! a9 := aget buf (base + 9) in
  let! l := read_vec 3 buf (base + 10) in
  let! r := read_vec ndim buf (base + 13) in
  let! v := read_vec ndim buf (base + 13 + d) in
  let! a := read_vec ndim buf (base + 13 + 2 * d) in
  let! m := aget buf (base + 13 + 3 * d) in
  let! r0 := read_vec ndim buf (base + 14 + 3 * d) in
  let! v0 := read_vec ndim buf (base + 14 + 4 * d) in
  let! a0' := read_vec ndim buf (base + 14 + 5 * d) in
  let! dt := aget buf (base + 14 + 6 * d) in
  Ok (mksink a0 a1 a2 a3 a4 a5 a6 a7 a8 a9 l r v a m r0 v0 a0' dt (others x)).
(** Lines 486-529. *)
Fixpoint unpack_loop (rank : Z) (owner : list Z) (sinks : list sinkd) (displ consumed : list Z) (buf : list R) : res (list sinkd) :=
  match owner, sinks with
  | origin :: owner, x :: sinks =>
      if origin =? rank then let! l := unpack_loop rank owner sinks displ consumed buf in Ok (x :: l)
      else
        let! d := aget displ origin in
        let! c := aget consumed origin in
        let! y := unpack buf (d + c * number_variables) x in
        let! consumed := aset consumed origin (c + 1) in
        let! l := unpack_loop rank owner sinks displ consumed buf in Ok (y :: l)
  | [], [] => Ok []
  | _, _ => UB
  end.
(** The whole function on all processes.  [junk] is what freshly allocated memory contains; Nsink is the same everywhere. *)
Definition UpdateSinksAfterAccretion (junk : R) (doms : list box) (sinks : list (list sinkd)) : res (list (list sinkd)) :=
  let Nmpi := zlen sinks in
  let! owners := each Nmpi (fun r => let! d := aget doms r in let! s := aget sinks r in Ok (find_owner r d s)) in
  let! locals := each Nmpi (fun r => let! d := aget doms r in let! s := aget sinks r in Ok (local_sinks d s)) in
  let! numbers := each Nmpi (fun r => let! n := aget locals r in aset (repeat 0 (Z.to_nat Nmpi)) r n) in
  let! owner := Allreduce_max owners in
  let! per_rank := Allreduce_max numbers in
  let! sends := each Nmpi (fun r =>
    let! n := aget locals r in
    let! s := aget sinks r in
    let! (buf, _) := fill_buffer r owner s (repeat junk (Z.to_nat (n * number_variables))) 0 in Ok buf) in
  let! displ := compute_displs (repeat 0 (Z.to_nat Nmpi)) per_rank in
  let displ := map (fun d => d * number_variables) displ in
  let counts := map (fun n => n * number_variables) per_rank in
  let! recv := Allgatherv (Z.to_nat Nmpi) 0 sends (map (fun n => n * number_variables) locals) counts displ (repeat junk (Z.to_nat (zlen owner * number_variables))) in
  each Nmpi (fun r => let! s := aget sinks r in unpack_loop r owner s displ (repeat 0 (Z.to_nat Nmpi)) recv).
End Sync.
