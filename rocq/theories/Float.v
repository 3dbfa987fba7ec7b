(** IEEE-754 binary64 ([double]) and binary32 ([float]) arithmetic, round to nearest even,
    as [spec_float] of the standard library (Coq.Floats.SpecFloat; plain Gallina, no axioms). *)
From Coq Require Import ZArith Bool Floats.SpecFloat.

(** The C type double (value.h 82, ast.h 30). *)
Definition flt := spec_float.

(** Precision of double. *)
Definition prec64 : Z := 53.
(** Exponent range of double. *)
Definition emax64 : Z := 1024.

(** `+` on doubles (ast.c 1078-1816). *)
Definition fadd : flt -> flt -> flt := SFadd prec64 emax64.
(** `-` on doubles (tree.c 344-374, utils.c 38-46). *)
Definition fsub : flt -> flt -> flt := SFsub prec64 emax64.
(** `*` on doubles (tree.c 376-393). *)
Definition fmul : flt -> flt -> flt := SFmul prec64 emax64.
(** `/` on doubles (tree.c 376-393, 898-1004). *)
Definition fdiv : flt -> flt -> flt := SFdiv prec64 emax64.
(** `<` on doubles (ast.c 823-886). *)
Definition fltb : flt -> flt -> bool := SFltb.
(** `<=` on doubles (ast.c 823-886). *)
Definition fleb : flt -> flt -> bool := SFleb.
(** `>` on doubles (ast.c 823-886). *)
Definition fgtb (a b : flt) : bool := SFltb b a.
(** `>=` on doubles (ast.c 823-886). *)
Definition fgeb (a b : flt) : bool := SFleb b a.
(** math.h fabs (utils.c 38-46). *)
Definition fabs : flt -> flt := SFabs.
(** Unary `-` on doubles (config.c 137: -DBL_MAX). *)
Definition fopp : flt -> flt := SFopp.

(** (double)z for an integer z: round to nearest even. *)
Definition f_of_Z (z : Z) : flt := binary_normalize prec64 emax64 z 0 false.

(** Conversion double -> float (binary32). *)
Definition f_to_f32 (f : flt) : flt :=
  match f with
  | S754_finite s m e => binary_round 24 128 s m e
  | _ => f
  end.

(** __DBL_EPSILON__ = 2^-52, DBL_MAX. *)
Definition DBL_EPSILON : flt := S754_finite false 4503599627370496 (-104).
(** float.h DBL_MAX (config.c 137). *)
Definition DBL_MAX : flt := S754_finite false 9007199254740991 971.

(** utils.c 38-41 [feq]: fabs(a - b) < __DBL_EPSILON__. *)
Definition feq (a b : flt) : bool := fltb (fabs (fsub a b)) DBL_EPSILON.
(** utils.c 43-46 [fne]. *)
Definition fne (a b : flt) : bool := negb (feq a b).

(** Truncation toward zero of a finite value (conversion to an integer type). *)
Definition f_trunc (f : flt) : option Z :=
  match f with
  | S754_zero _ => Some 0%Z
  | S754_finite s m e =>
      Some (cond_Zopp s (if (e <? 0)%Z then Z.shiftr (Z.pos m) (- e) else Z.shiftl (Z.pos m) e))
  | _ => None
  end.

(** math.h [ceil]. *)
Definition fceil (f : flt) : flt :=
  match f with
  | S754_finite s m e =>
      if (e <? 0)%Z then
        let z := cond_Zopp s (Z.pos m) in
        let q := (- ((- z) / 2 ^ (- e)))%Z in
        match q with
        | 0%Z => S754_zero s
        | _ => f_of_Z q
        end
      else f
  | _ => f
  end.
