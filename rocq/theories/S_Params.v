(** What a user expects of a parameter file, without reference to the parser. *)
From Coq Require Import Ascii String Reals.
From Verif Require Import Prelude M_Params.
From Flocq Require Import Core.
Local Open Scope Z_scope.

(** A text without its blanks. *)
Definition noblank (s : text) : text := remove ascii_dec " "%char s.

(** Decimal numerals. *)
Definition numeral (d : Z) (c : ascii) : Prop := 0 <= d /\ nth_error (lit "0123456789") (Z.to_nat d) = Some c.
Inductive dec_nat : text -> Z -> Prop :=
| dec_one : forall d c, numeral d c -> dec_nat [c] d
| dec_more : forall s n d c, dec_nat s n -> numeral d c -> dec_nat (s ++ [c]) (10 * n + d).
Definition dec_int (s : text) (n : Z) : Prop :=
  dec_nat s n \/ (exists s', s = "+"%char :: s' /\ dec_nat s' n) \/ (exists s', s = "-"%char :: s' /\ dec_nat s' (- n)).
(** ip[.fp][e<int>] with an optional sign; at least one digit before the exponent. *)
Definition dec_real (s : text) (v : R) : Prop :=
  exists sg neg ip fp frac ex e m,
    s = sg ++ ip ++ frac ++ ex /\
    (sg = [] /\ neg = false \/ sg = ["+"%char] /\ neg = false \/ sg = ["-"%char] /\ neg = true) /\
    dec_nat (ip ++ fp) m /\
    (frac = [] /\ fp = [] \/ frac = "."%char :: fp) /\
    (ex = [] /\ e = 0 \/ exists s', (ex = "e"%char :: s' \/ ex = "E"%char :: s') /\ dec_int s' e) /\
    v = ((if neg then - IZR m else IZR m) * powerRZ 10 (e - zlen fp))%R.

(** IEEE double precision, round to nearest even. *)
Definition is_double_of (v x : R) : Prop := Rnd_NE_pt radix2 (FLT_exp (-1074) 53) v x.

(** The parameter a name refers to, and its value. *)
Inductive pval := PInt (n : Z) | PFloat (x : R) | PText (s : text).
Definition value_of (t : params) (k : text) : option pval :=
  match get k (ints t), get k (floats t), get k (strs t) with
  | Some n, _, _ => Some (PInt n)
  | None, Some x, _ => Some (PFloat x)
  | None, None, Some s => Some (PText s)
  | None, None, None => None
  end.

(** Value [after] of a parameter that was [before], after the assignment of the text [txt]. *)
Definition assigned (txt : text) (before after : pval) : Prop :=
  match before with
  | PInt _ => forall n, INT_MIN <= n <= INT_MAX -> dec_int txt n -> after = PInt n
  | PFloat _ => forall v, (Rabs v <= bpow radix2 1023)%R -> dec_real txt v -> exists x, after = PFloat x /\ is_double_of v x
  | PText _ => after = PText txt
  end.

(** Names that can be used as keys. *)
Definition good_key (k : text) : Prop :=
  ~ In " "%char k /\ ~ In "="%char k /\ ~ In ":"%char k /\ ~ In newline k /\ hd_error k <> Some "#"%char.
Definition good_keys (t : params) : Prop :=
  let ks := map fst (ints t) ++ map fst (floats t) ++ map fst (strs t) in
  NoDup ks /\ forall k, In k ks -> good_key k.
Definition same_keys (t t' : params) : Prop :=
  map fst (ints t) = map fst (ints t') /\ map fst (floats t) = map fst (floats t') /\ map fst (strs t) = map fst (strs t').
(** Numbers that have at most six significant decimal digits (and no extreme exponent), as doubles. *)
Definition six_digits (x : R) : Prop :=
  exists m e : Z, (Z.abs m < 10 ^ 6) /\ (-300 <= e <= 300) /\ is_double_of (IZR m * powerRZ 10 e)%R x.
Definition plain_text (s : text) : Prop := ~ In " "%char s /\ ~ In ":"%char s /\ ~ In newline s.
