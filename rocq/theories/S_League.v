(** What the calendar and the exchange must achieve. *)
From Verif Require Import Prelude M_League.
Local Open Scope Z_scope.

(** In every turn everybody has one partner, whose partner they are; everybody meets everybody else in exactly one turn. *)
Definition meets (cal : list (list Z)) (a t b : Z) : Prop := exists row, aget cal a = Ok row /\ aget row t = Ok b.
Record round_robin (n : Z) (cal : list (list Z)) : Prop := {
  rr_size : zlen cal = n /\ forall a row, aget cal a = Ok row -> zlen row = n - 1;
  rr_pairs : forall a t, 0 <= a < n -> 0 <= t < n - 1 -> exists b, 0 <= b < n /\ b <> a /\ meets cal a t b /\ meets cal b t a;
  rr_once : forall a b, 0 <= a < n -> 0 <= b < n -> a <> b -> exists! t, 0 <= t < n - 1 /\ meets cal a t b }.

(** Everything is over: nobody waits, nothing is on its way, and every process has received from every other process
    exactly the message meant for it. *)
Definition finished {M} (msg : Z -> Z -> M) (n : Z) (s : net) : Prop :=
  (forall r, prog s r = []) /\ (forall p q, chan s p q = []) /\
  forall q, 0 <= q < n -> NoDup (map fst (got s q)) /\ (forall p m, In (p, m) (got s q) <-> 0 <= p < n /\ p <> q /\ m = msg p q).
