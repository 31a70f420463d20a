(** Model of small utilities: status flags, id check, displacement and byte buffers,
    table look-up. *)
From Verif Require Import Prelude.
From Coq Require Import NArith.

(** * Status flags, src/Headers/Flags.h:29-136. *)
Definition flag_none : N := 0.
(** enum flags, Flags.h:29-70; the elementary flags by name. *)
Definition dead : N := N.shiftl 1 0.
Definition active : N := N.shiftl 1 1.
Definition end_timestep : N := N.shiftl 1 2.
Definition potmin : N := N.shiftl 1 3.
Definition update_density : N := N.shiftl 1 4.
Definition bad_gradients : N := N.shiftl 1 5.
Definition x_periodic_lhs : N := N.shiftl 1 7.
Definition y_periodic_lhs : N := N.shiftl 1 8.
Definition z_periodic_lhs : N := N.shiftl 1 9.
Definition x_periodic_rhs : N := N.shiftl 1 10.
Definition y_periodic_rhs : N := N.shiftl 1 11.
Definition z_periodic_rhs : N := N.shiftl 1 12.
Definition x_periodic : N := N.lor x_periodic_lhs x_periodic_rhs.
Definition y_periodic : N := N.lor y_periodic_lhs y_periodic_rhs.
Definition z_periodic : N := N.lor z_periodic_lhs z_periodic_rhs.
Definition x_mirror_lhs : N := N.shiftl 1 13.
Definition y_mirror_lhs : N := N.shiftl 1 14.
Definition z_mirror_lhs : N := N.shiftl 1 15.
Definition x_mirror_rhs : N := N.shiftl 1 16.
Definition y_mirror_rhs : N := N.shiftl 1 17.
Definition z_mirror_rhs : N := N.shiftl 1 18.
Definition x_mirror : N := N.lor x_mirror_lhs x_mirror_rhs.
Definition y_mirror : N := N.lor y_mirror_lhs y_mirror_rhs.
Definition z_mirror : N := N.lor z_mirror_lhs z_mirror_rhs.
Definition periodic_boundary : N := N.lor (N.lor x_periodic y_periodic) z_periodic.
Definition mirror_boundary : N := N.lor (N.lor x_mirror y_mirror) z_mirror.
Definition any_boundary : N := N.lor periodic_boundary mirror_boundary.

(** periodic_bound_flags[3][2] and mirror_bound_flags[3][2], Flags.h:73-85; outer index
    direction, inner index side (0 = lhs, 1 = rhs). *)
Definition periodic_bound_flags : list (list N) :=
  [[x_periodic_lhs; x_periodic_rhs]; [y_periodic_lhs; y_periodic_rhs]; [z_periodic_lhs; z_periodic_rhs]].
Definition mirror_bound_flags : list (list N) :=
  [[x_mirror_lhs; x_mirror_rhs]; [y_mirror_lhs; y_mirror_rhs]; [z_mirror_lhs; z_mirror_rhs]].

(** class type_flag, Flags.h:94-136, on a 32-bit word.  [~flag] is the 32-bit complement. *)
Definition fl_set (x f : N) : N := N.lor x f.
Definition fl_unset (x f : N) : N := N.land x (N.lxor f (N.ones 32)).
Definition fl_setv (x f : N) (v : bool) : N := if v then fl_set x f else fl_unset x f.
Definition fl_reset (x : N) : N := flag_none.
Definition fl_check (x f : N) : bool := negb (N.eqb (N.land x f) 0).
Definition is_dead (x : N) : bool := fl_check x dead.
Definition is_boundary (x : N) : bool := fl_check x any_boundary.
Definition is_periodic (x : N) : bool := fl_check x periodic_boundary.
Definition is_mirror (x : N) : bool := fl_check x mirror_boundary.

Local Open Scope Z_scope.

(** * VerifyUniqueIds, src/Headers/InlineFuncs.h:513-541.
    The variable [i] is shared by both loops: the second loop (533-539) tests counter[i]
    for the value of [i] left by the first loop instead of counter[j].  [None] for [i] is
    "not yet assigned".  Reading an unassigned [i] is [UB]; messages are not modelled. *)
Fixpoint vui_count (vals : list Z) (Nrange : Z) (counter : list Z) (i : option Z)
  : res (option (list Z * option Z)) :=
  match vals with
  | [] => Ok (Some (counter, i))
  | v :: rest =>
      if negb ((0 <=? v) && (v <? Nrange)) then Ok None
      else let! c := aget counter v in
           let! counter := aset counter v (c + 1) in
           vui_count rest Nrange counter (Some v)
  end.
Fixpoint vui_check (n : nat) (counter : list Z) (i : option Z) : res bool :=
  match n with
  | O => Ok true
  | S m =>
      match i with
      | None => UB
      | Some i =>
          let! c := aget counter i in
          if (c =? 0) || (c =? 1) then vui_check m counter (Some i) else Raise
      end
  end.
(** The first N entries of [values] are the list [vals]. *)
Definition VerifyUniqueIds (Nrange : Z) (vals : list Z) : res bool :=
  let counter := repeat 0 (Z.to_nat Nrange) in
  let! r := vui_count vals Nrange counter None in
  match r with
  | None => Ok false
  | Some (counter, i) => vui_check (length vals) counter i
  end.

(** * compute_displs, src/Headers/InlineFuncs.h:489-505. *)
Fixpoint displs_loop (n : nat) (i : Z) (displs counts : list Z) : res (list Z) :=
  match n with
  | O => Ok displs
  | S m =>
      let! c := aget counts (i - 1) in
      let! d := aget displs (i - 1) in
      let! displs := aset displs i (c + d) in
      displs_loop m (i + 1) displs counts
  end.
Definition compute_displs (displs counts : list Z) : res (list Z) :=
  if zlen displs =? 0 then Ok displs
  else let! displs := aset displs 0 0 in
       if zlen displs =? 1 then Ok displs
       else displs_loop (Z.to_nat (zlen displs - 1)) 1 displs counts.

(** * append_bytes / unpack_bytes, src/Headers/InlineFuncs.h:616-633.
    A value of type T is its object representation: a list of sizeof(T) bytes.  The
    iterator is the offset into the buffer; memcpy past the end of the buffer is [UB]. *)
Definition append_bytes {byte : Type} (buffer element : list byte) : list byte := buffer ++ element.
Definition unpack_bytes {byte : Type} (size : nat) (buffer : list byte) (it : nat) : res (list byte * nat) :=
  if (it + size <=? length buffer)%nat
  then Ok (firstn size (skipn it buffer), (it + size)%nat)
  else UB.
(** Sequences of calls with the same buffer / iterator, as in the Pack and Unpack
    functions of src/Tree/Tree.cpp:1794-1958 and src/Mpi/MpiControl.cpp. *)
Definition pack_all {byte : Type} (elements : list (list byte)) (buffer : list byte) : list byte :=
  fold_left append_bytes elements buffer.
Fixpoint unpack_all {byte : Type} (sizes : list nat) (buffer : list byte) (it : nat) : res (list (list byte) * nat) :=
  match sizes with
  | [] => Ok ([], it)
  | n :: rest =>
      let! (e, it) := unpack_bytes n buffer it in
      let! (es, it) := unpack_all rest buffer it in
      Ok (e :: es, it)
  end.

(** * isPowerOfTwo, src/Headers/InlineFuncs.h:560-565. *)
Fixpoint pow2_loop (fuel : nat) (x : Z) : res Z :=
  match fuel with
  | O => NoFuel
  | S f => if (Z.rem x 2 =? 0) && (1 <? x) then pow2_loop f (Z.quot x 2) else Ok x
  end.
Definition isPowerOfTwo (x : Z) : res bool :=
  let! y := pow2_loop (S (Z.to_nat x)) x in Ok (y =? 1).
