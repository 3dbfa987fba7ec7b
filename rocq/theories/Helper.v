(** Variable definitions in text form (helper.c), with the library functions it calls. *)
From Coq Require Import ZArith NArith String Ascii Bool List Floats.SpecFloat.
From Verif Require Import Base Float Value Ast Config Tree PredMap Source Api Lexer.
Import ListNotations.
Local Open Scope Z_scope.

(** strtok_r: skip delimiters, take the text up to the next one; [None] at the end of the string.  The
    second component is where the next call starts. *)
Fixpoint skip_while (p : ascii -> bool) (s : string) : string :=
  match s with
  | EmptyString => EmptyString
  | String c s' => if p c then skip_while p s' else s
  end.
Fixpoint up_to (p : ascii -> bool) (s : string) : string * string :=
  match s with
  | EmptyString => (EmptyString, EmptyString)
  | String c s' => if p c then (EmptyString, s') else let '(a, r) := up_to p s' in (String c a, r)
  end.
Definition strtok (p : ascii -> bool) (s : string) : option string * string :=
  match skip_while p s with
  | EmptyString => (None, EmptyString)
  | s' => let '(a, r) := up_to p s' in (Some a, r)
  end.
(** The two sets of delimiters of helper.c 14-18. *)
Definition is_bar (c : ascii) : bool := Ascii.eqb c "|".
Definition is_bar_nl (c : ascii) : bool := Ascii.eqb c "|" || Ascii.eqb c c_nl.

(** isspace in the C locale. *)
Definition c_space (c : ascii) : bool := Ascii.eqb c " " || between (ascii_of_N 9) (ascii_of_N 13) c.
(** An optional sign: whether it is a minus, and the rest. *)
Definition sign_of (s : string) : bool * string :=
  match s with
  | String "-" s' => (true, s')
  | String "+" s' => (false, s')
  | _ => (false, s)
  end.
(** The longest prefix of characters in [p], and the rest. *)
Fixpoint span (p : ascii -> bool) (s : string) : string * string :=
  match s with
  | EmptyString => (EmptyString, EmptyString)
  | String c s' => if p c then let '(a, r) := span p s' in (String c a, r) else (EmptyString, s)
  end.
(** strtoll and strtol (64 bits) with base 10: blanks, sign, digits; the rest is ignored, no digits
    give 0, values out of range the nearest end of the range. *)
Definition strtoll10 (s : string) : Z :=
  let '(neg, s) := sign_of (skip_while c_space s) in
  let z := digits (fst (span is_digit s)) 0 in
  if neg : bool then Z.max (- z) INT64_MIN else Z.min z INT64_MAX.

(** strtod in the C locale.  Decimal: digits with an optional point, at least one digit, an optional
    exponent with at least one digit. *)
Definition exponent (mark : ascii -> bool) (s : string) : Z :=
  match s with
  | String c s' =>
      if mark c then
        let '(neg, s') := sign_of s' in
        let z := digits (fst (span is_digit s')) 0 in if neg : bool then - z else z
      else 0
  | EmptyString => 0
  end.
Definition mantissa (p : ascii -> bool) (s : string) : string * string * string :=
  let '(a, r) := span p s in
  match r with
  | String "." r' => let '(b, r'') := span p r' in (a, b, r'')
  | _ => (a, EmptyString, r)
  end.
(** m * 10^e, rounded. *)
Definition scaled (m e : Z) : flt :=
  if 0 <=? e then dec_flt (m * 10 ^ e) 0 else dec_flt m (Z.to_nat (- e)).
Definition is_e (c : ascii) : bool := Ascii.eqb c "e" || Ascii.eqb c "E".
Definition strtod_dec (s : string) : option flt :=
  match mantissa is_digit s with
  | (EmptyString, EmptyString, _) => None
  | (a, b, r) => Some (scaled (digits (a ++ b) 0) (exponent is_e r - Z.of_nat (String.length b)))
  end.
(** Hexadecimal. *)
Definition is_hex (c : ascii) : bool := is_digit c || between "a" "f" c || between "A" "F" c.
Definition hex_digit (c : ascii) : Z :=
  let n := Z.of_N (N_of_ascii c) in if n <? 58 then n - 48 else if n <? 97 then n - 55 else n - 87.
Fixpoint hexes (s : string) (acc : Z) : Z :=
  match s with EmptyString => acc | String c s' => hexes s' (16 * acc + hex_digit c) end.
Definition is_p (c : ascii) : bool := Ascii.eqb c "p" || Ascii.eqb c "P".
Definition strtod_hex (s : string) : flt :=
  let '(a, b, r) := mantissa is_hex s in
  binary_normalize prec64 emax64 (hexes (a ++ b) 0) (exponent is_p r - 4 * Z.of_nat (String.length b)) false.
(** "inf" and "nan" in any letter case, "0x" before a hexadecimal digit, decimal otherwise; [None] is no
    number at all. *)
Definition strtod_abs (s : string) : option flt :=
  if prefix "inf" (lower s) then Some (S754_infinity false)
  else if prefix "nan" (lower s) then Some S754_nan
  else if prefix "0x" (lower s) then
    match mantissa is_hex (drop 2 s) with
    | (EmptyString, EmptyString, _) => Some (S754_zero false)
    | _ => Some (strtod_hex (drop 2 s))
    end
  else strtod_dec s.
Definition strtod (s : string) : flt :=
  let '(neg, s) := sign_of (skip_while c_space s) in
  match strtod_abs s with
  | Some f => if neg : bool then fopp f else f
  | None => S754_zero false
  end.

(** helper.c 19-91: the bounds a type name and the optional fields give; [None] is the unknown type. *)
Definition size_of (s : string) : Z := to_uint 64 (strtoll10 s).
Definition or_else {A} (o : option string) (f : string -> A) (a : A) : A := match o with Some s => f s | None => a end.
Definition bound_of (type : string) (mn mx : option string) : option bound :=
  if String.eqb type "integer" then
    Some (dom_bounded_i (or_else mn strtoll10 INT64_MIN) (or_else mx strtoll10 INT64_MAX))
  else if String.eqb type "float" then
    Some (dom_bounded_f (or_else mn strtod (fopp DBL_MAX)) (or_else mx strtod DBL_MAX))
  else if String.eqb type "boolean" then Some dom_b
  else if String.eqb type "frequency" then Some dom_frequency
  else if String.eqb type "segments" then Some dom_segments
  else if String.eqb type "string" then Some (or_else mn (fun s => dom_bounded_s (size_of s)) dom_s)
  else if String.eqb type "integer enum" then Some (or_else mn (fun s => dom_bounded_ie (size_of s)) dom_ie)
  else if String.eqb type "integer list" then
    Some (match mn, mx with
          | Some a, Some b => dom_bounded_il (strtoll10 a) (strtoll10 b)
          | _, _ => dom_il
          end)
  else if String.eqb type "string list" then Some (or_else mn (fun s => dom_bounded_sl (size_of s)) dom_sl)
  else None.

(** helper.c 9-95 [add_variable_from_string]: a missing third field is read through a null pointer, an
    unknown type ends the process. *)
Definition add_variable_from_string (t : betree) (line : string) : result betree :=
  let '(name, r) := strtok is_bar line in
  let '(type, r) := strtok is_bar r in
  let '(undef, r) := strtok is_bar_nl r in
  let '(mn, r) := strtok is_bar_nl r in
  let '(mx, _) := strtok is_bar_nl r in
  match name, type, undef with
  | Some name, Some type, Some undef =>
      match bound_of type mn mx with
      | Some b => Ok (betree_declare t (mkD name b (String.eqb undef "true")))
      | None => Abort
      end
  | _, _, _ => UB
  end.
(** tests/real_tests.c 151-161 [read_betree_defs]: a tree set up with one definition per line. *)
Fixpoint add_lines (t : betree) (ls : list string) : result betree :=
  match ls with [] => Ok t | s :: ls' => bind (add_variable_from_string t s) (fun t' => add_lines t' ls') end.
