(** What a line that defines a variable should mean. *)
From Coq Require Import ZArith NArith String Ascii Bool List Decimal DecimalString Floats.SpecFloat.
From Verif Require Import Base Float Value Ast Config Source Spec FloatSpec Lexer LexSpec.
Import ListNotations.
Local Open Scope Z_scope.
Local Open Scope string_scope.

(** Fields joined by bars. *)
Fixpoint fields (l : list string) : string :=
  match l with [] => "" | [x] => x | x :: l' => x ++ String "|" (fields l') end.
(** A field: some characters, no bar and no end of line. *)
Definition plain_field (s : string) : Prop :=
  s <> "" /\ all_chars (fun c => negb (Ascii.eqb c "|" || Ascii.eqb c c_nl)) s = true.

(** The text of an integer of the range of int64_t. *)
Definition value (u : uint) : Z := Z.of_N (N.of_uint u).
Inductive int_text : string -> Z -> Prop :=
| it_plus u : u <> Nil -> (value u <= INT64_MAX)%Z -> int_text (NilEmpty.string_of_uint u) (value u)
| it_minus u : u <> Nil -> (value u <= 2 ^ 63)%Z -> int_text (String "-" (NilEmpty.string_of_uint u)) (- value u).
(** A positive decimal number N / D, and the double it is read as. *)
Inductive dec_text : string -> Z -> Z -> Prop :=
| dt_int u : u <> Nil -> dec_text (NilEmpty.string_of_uint u) (value u) 1
| dt_point u v : u <> Nil ->
    dec_text (NilEmpty.string_of_uint u ++ String "." (NilEmpty.string_of_uint v))
      (value u * 10 ^ Z.of_nat (nb_digits v) + value v) (10 ^ Z.of_nat (nb_digits v)).
(** The double nearest to N / D, the one with the even mantissa if two are equally near (FloatSpec.v). *)
Definition rounded (f : flt) (N D : Z) : Prop := canonical f /\ nearest f N D /\ f <> S754_zero true.
Inductive flt_text : string -> flt -> Prop :=
| ft_plus s N D f : dec_text s N D -> (N < (2 ^ 54 - 1) * 2 ^ 970 * D)%Z -> rounded f N D -> flt_text s f
| ft_minus s N D f : dec_text s N D -> (N < (2 ^ 54 - 1) * 2 ^ 970 * D)%Z -> rounded f N D -> flt_text (String "-" s) (fopp f).

(** [defines type l b]: a variable of the named type with the further fields [l] has the bounds [b]. *)
Inductive defines : string -> list string -> bound -> Prop :=
| df_int : defines "integer" [] (BInt false INT64_MIN INT64_MAX)
| df_int_from a lo : int_text a lo -> defines "integer" [a] (BInt false lo INT64_MAX)
| df_int_between a b lo hi : int_text a lo -> int_text b hi -> defines "integer" [a; b] (BInt false lo hi)
| df_float : defines "float" [] (BFloat (fopp DBL_MAX) DBL_MAX)
| df_float_from a lo : flt_text a lo -> defines "float" [a] (BFloat lo DBL_MAX)
| df_float_between a b lo hi : flt_text a lo -> flt_text b hi -> defines "float" [a; b] (BFloat lo hi)
| df_bool l : defines "boolean" l (BBool false true)
| df_freq l : defines "frequency" l BFreqs
| df_segs l : defines "segments" l BSegs
| df_str : defines "string" [] (BStr TStr 0 (SIZE_MAX - 1))
| df_str_most a n l : int_text a n -> (0 < n)%Z -> defines "string" (a :: l) (BStr TStr 0 (n - 1))
| df_ienum : defines "integer enum" [] (BStr TIEnum 0 (SIZE_MAX - 1))
| df_ienum_most a n l : int_text a n -> (0 < n)%Z -> defines "integer enum" (a :: l) (BStr TIEnum 0 (n - 1))
| df_ints : defines "integer list" [] (BInt true INT64_MIN INT64_MAX)
| df_ints_between a b lo hi : int_text a lo -> int_text b hi -> defines "integer list" [a; b] (BInt true lo hi)
| df_strs : defines "string list" [] (BStr TStrList 0 (SIZE_MAX - 1))
| df_strs_most a n l : int_text a n -> (0 < n)%Z -> defines "string list" (a :: l) (BStr TStrList 0 (n - 1)).

(** [l] defines the variable [d], which may be undefined or not. *)
Inductive defines_var : list string -> domain -> Prop :=
| dv name type u l b : Forall plain_field (name :: type :: u :: l) -> (List.length l <= 2)%nat -> defines type l b ->
    defines_var (name :: type :: u :: l) (mkD name b (String.eqb u "true")).
