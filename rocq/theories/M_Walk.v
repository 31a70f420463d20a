(** Skeleton shared by all the non-recursive tree walks of src/Tree/Tree.cpp
    (e.g. 208-280, 291-381, 394-493, 628-735, 1387-1480, 1491-1549, 1556-1608,
    1615-1678, 1687-1731):

      cc = 0;
      while (cc < Ncell) {
        ... look at celldata[cc], possibly append to lists ...
        cc = celldata[cc].copen  or  cc = celldata[cc].cnext;
      }

    [visit cc s] performs the body for cell [cc] on the accumulated state [s] and says
    whether the walk continues with [copen] ([Down]), with [cnext] ([Skip]), or returns
    from the function ([Stop], used for "not enough memory" returns). *)
From Verif Require Import Prelude.
Local Open Scope Z_scope.

Inductive ctl := Down | Skip | Stop.

Section Walk.
Context {S : Type}.
Context (copen cnext : Z -> res Z) (Ncell : Z) (visit : Z -> S -> res (S * ctl)).

(** The boolean of the result says whether the walk was stopped. *)
Fixpoint walk (fuel : nat) (cc : Z) (s : S) : res (S * bool) :=
  if cc <? Ncell then
    match fuel with
    | O => NoFuel
    | Datatypes.S f =>
        let! (s', c) := visit cc s in
        match c with
        | Stop => Ok (s', true)
        | Down => let! cc' := copen cc in walk f cc' s'
        | Skip => let! cc' := cnext cc in walk f cc' s'
        end
    end
  else Ok (s, false).
End Walk.
