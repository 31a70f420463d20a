(** Who talks to whom and when: src/Mpi/MpiControl.cpp:67-71 (check of the number of processes), 208-310
    (CreateLeagueCalendar), the exchange loop of src/Mpi/MpiKDTreeDecomposition.cpp:407-466, and the blocking
    MPI calls used there.  Integers are unbounded. *)
From Verif Require Import Prelude S_Tree M_Util.
Local Open Scope Z_scope.

(** gandalf.cpp:68-75: the program stops unless the number of processes is a power of two. *)
Definition main_check (Nmpi : Z) : res unit :=
  let! b := isPowerOfTwo Nmpi in if b : bool then Ok tt else Raise.
(** MpiControl.cpp:68: [if (!Nmpi%2) raise]; the operator ! binds stronger than %. *)
Definition even_check (Nmpi : Z) : res unit :=
  let not_Nmpi := if Nmpi =? 0 then 1 else 0 in
  if Z.rem not_Nmpi 2 =? 0 then Ok tt else Raise.

(** calendar[i][j] = x. *)
Definition set2 (cal : list (list Z)) (i j x : Z) : res (list (list Z)) :=
  let! row := aget cal i in
  let! row := aset row j x in
  aset cal i row.
(** Lines 231-239: pairs_turn. *)
Definition pairs_turn (Nmpi iturn : Z) : list Z :=
  (Nmpi - 1) :: map (fun i => (i + iturn) mod (Nmpi - 1)) (zseq 1 (Z.to_nat (Nmpi - 1))).
(** Lines 241-247: the loop over istep, [n] steps from [istep] on. *)
Fixpoint fill_turn (n : nat) (istep iturn : Z) (pairs : list Z) (cal : list (list Z)) : res (list (list Z)) :=
  match n with
  | O => Ok cal
  | S m =>
      let! first_team := aget pairs istep in
      let size := zlen pairs - 1 in
      let! second_team := aget pairs (size - istep) in
      let! cal := set2 cal first_team iturn second_team in
      let! cal := set2 cal second_team iturn first_team in
      fill_turn m (istep + 1) iturn pairs cal
  end.
(** Lines 228-248: the loop over iturn. *)
Fixpoint fill_turns (n : nat) (iturn Nmpi : Z) (cal : list (list Z)) : res (list (list Z)) :=
  match n with
  | O => Ok cal
  | S m =>
      let! cal := fill_turn (Z.to_nat (Nmpi / 2)) 0 iturn (pairs_turn Nmpi iturn) cal in
      fill_turns m (iturn + 1) Nmpi cal
  end.
(** Lines 211-226 and the loop; row [r] is what process [r] gets as my_matches (lines 289-304). *)
Definition CreateLeagueCalendar (Nmpi : Z) : res (list (list Z)) :=
  fill_turns (Z.to_nat (Nmpi - 1)) 0 Nmpi (repeat (repeat 0 (Z.to_nat (Nmpi - 1))) (Z.to_nat Nmpi)).

(** Blocking communication.  A process executes a list of sends and receives. *)
Inductive action := Send (dest : Z) | Recv (src : Z).
(** MpiKDTreeDecomposition.cpp:425-457: one turn of process [rank] with process [inode] (MPI_Probe waits for the same
    message as the MPI_Recv that follows it). *)
Definition turn_actions (rank inode : Z) : list action :=
  if rank <? inode then [Send inode; Recv inode] else [Recv inode; Send inode].
Definition exchange_program (rank : Z) (my_matches : list Z) : list action :=
  flat_map (turn_actions rank) my_matches.

Section Net.
Context {M : Type}.
(** What process [p] sends to process [q]: particles_to_transfer is filled before the loop and the particles it
    names are not changed in the loop, so the content does not depend on the turn. *)
Variable msg : Z -> Z -> M.
(** What every process still has to do, the messages on their way, and what was received. *)
Record net := mknet { prog : Z -> list action; chan : Z -> Z -> list M; got : Z -> list (Z * M) }.
Definition set1 {A} (f : Z -> A) (i : Z) (x : A) : Z -> A := fun j => if j =? i then x else f j.
Definition set_chan (f : Z -> Z -> list M) (p q : Z) (x : list M) : Z -> Z -> list M :=
  fun i j => if (i =? p) && (j =? q) then x else f i j.

(** Steps that the MPI standard guarantees to happen eventually: a message that is on its way is received by a process
    that waits for it, and a process that sends meets one that receives. *)
Inductive sure_step : net -> net -> Prop :=
| take : forall s p q a m l, prog s q = Recv p :: a -> chan s p q = m :: l ->
    sure_step s (mknet (set1 (prog s) q a) (set_chan (chan s) p q l) (set1 (got s) q (got s q ++ [(p, m)])))
| meet : forall s p q a b, p <> q -> prog s p = Send q :: a -> prog s q = Recv p :: b -> chan s p q = [] ->
    sure_step s (mknet (set1 (set1 (prog s) p a) q b) (chan s) (set1 (got s) q (got s q ++ [(p, msg p q)]))).
(** MPI_Send may also return as soon as the message is stored in a buffer. *)
Inductive step : net -> net -> Prop :=
| sure : forall s s', sure_step s s' -> step s s'
| buffer : forall s p q a, prog s p = Send q :: a ->
    step s (mknet (set1 (prog s) p a) (set_chan (chan s) p q (chan s p q ++ [msg p q])) (got s)).
Inductive steps : nat -> net -> net -> Prop :=
| steps_O : forall s, steps 0 s s
| steps_S : forall n s s' s'', steps n s s' -> step s' s'' -> steps (S n) s s''.
(** The start of the exchange. *)
Definition start (Nmpi : Z) (cal : list (list Z)) : net :=
  mknet (fun r => if (0 <=? r) && (r <? Nmpi) then exchange_program r (nth (Z.to_nat r) cal []) else []) (fun _ _ => []) (fun _ => []).
End Net.
