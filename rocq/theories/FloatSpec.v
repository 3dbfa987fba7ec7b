(** Doubles as numbers: every double is a multiple of 2^-1074. *)
From Coq Require Import ZArith Bool Floats.SpecFloat.
From Verif Require Import Base Float.
Local Open Scope Z_scope.

(** Zero, or a mantissa of at most 53 bits with an exponent of the format. *)
Definition is_double (f : flt) : Prop :=
  match f with
  | S754_zero _ => True
  | S754_finite _ m e => Zpos m < 2 ^ 53 /\ -1074 <= e <= 971
  | _ => False
  end.
(** The value of a double in units of 2^-1074. *)
Definition units (f : flt) : Z :=
  match f with
  | S754_finite s m e => (if s then -1 else 1) * (Zpos m * 2 ^ (e + 1074))
  | _ => 0
  end.
Definition even_mantissa (f : flt) : Prop :=
  match f with S754_finite _ m _ => Z.even (Zpos m) = true | _ => True end.

(** f is a double nearest to N / D; if another one is as near, f has the even mantissa. *)
Definition nearest (f : flt) (N D : Z) : Prop :=
  is_double f /\
  forall g, is_double g ->
    Z.abs (D * units f - N * 2 ^ 1074) <= Z.abs (D * units g - N * 2 ^ 1074)
    /\ (Z.abs (D * units f - N * 2 ^ 1074) = Z.abs (D * units g - N * 2 ^ 1074) ->
        units g = units f \/ even_mantissa f).

(** The representation of a double that the operations use: a full mantissa unless the exponent is
    the smallest. *)
Definition canonical (f : flt) : Prop :=
  match f with
  | S754_zero _ => True
  | S754_finite _ m e => Zpos m < 2 ^ 53 /\ -1074 <= e <= 971 /\ (2 ^ 52 <= Zpos m \/ e = -1074)
  | _ => False
  end.
