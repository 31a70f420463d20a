(** Outcomes and arrays shared by all model files.

    [res A] is the result of running a fragment of the C++ code:
    - [Ok a]    normal termination with value [a];
    - [UB]      undefined behaviour: an out-of-bounds access, a read of an
                uninitialised or deallocated object, an integer division by zero;
    - [Raise]   an [assert] fails or ExceptionHandler::raise is called;
    - [NoFuel]  the fuel given to a loop of the model is exhausted (never an
                outcome of the code; excluded by the theorems). *)
From Coq Require Export List ZArith Lia Bool.
From Coq Require Export ZifyBool ZifyNat ZifyN.
Export ListNotations.
Ltac Zify.zify_post_hook ::= Z.div_mod_to_equations.

Inductive res (A : Type) : Type :=
| Ok (a : A)
| UB
| Raise
| NoFuel.
Arguments Ok {A} a.
Arguments UB {A}.
Arguments Raise {A}.
Arguments NoFuel {A}.

Definition bind {A B : Type} (x : res A) (f : A -> res B) : res B :=
  match x with
  | Ok a => f a
  | UB => UB
  | Raise => Raise
  | NoFuel => NoFuel
  end.

Declare Scope res_scope.
Delimit Scope res_scope with res.
Notation "'let!' x := e1 'in' e2" := (bind e1 (fun x => e2))
  (at level 200, x pattern, e1 at level 100, e2 at level 200) : res_scope.
Global Open Scope res_scope.

(** A C array of known length: reads and writes are checked. *)
Definition aget {A : Type} (l : list A) (i : Z) : res A :=
  if (i <? 0)%Z then UB
  else match nth_error l (Z.to_nat i) with Some x => Ok x | None => UB end.

Fixpoint upd {A : Type} (l : list A) (n : nat) (x : A) : list A :=
  match l, n with
  | [], _ => []
  | _ :: t, O => x :: t
  | h :: t, S m => h :: upd t m x
  end.

Definition aset {A : Type} (l : list A) (i : Z) (x : A) : res (list A) :=
  if ((i <? 0) || (Z.of_nat (length l) <=? i))%Z%bool then UB
  else Ok (upd l (Z.to_nat i) x).

Definition zlen {A : Type} (l : list A) : Z := Z.of_nat (length l).

(** [lia] after discarding universally quantified hypotheses (they only slow it down). *)
Ltac qlia :=
  repeat match goal with
  | H : forall _, _ |- _ => clear H
  | H : _ = Ok _ |- _ => clear H
  end; lia.
