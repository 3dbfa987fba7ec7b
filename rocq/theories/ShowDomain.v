(** What printer.c 424-630 prints about variables, ranges, counters and types (to stdout, the counters to stderr). *)
From Coq Require Import ZArith NArith String Bool List.
From Verif Require Import Base Float Value Config Tree Printer.
Local Open Scope string_scope.

(** `domain->allow_undefined ? "?" : ""`. *)
Definition mark (undef : bool) : string := if undef then "?" else "".
(** `? "true" : "false"`. *)
Definition truth (b : bool) : string := if b then "true" else "false".
(** printer.c 436-447, 478-489 and the same in print_cdir: the two ends of an integer range. *)
Definition int_ends (lo hi : Z) : string :=
  (if (lo =? INT64_MIN)%Z then "INT64_MIN, " else show_Z lo ++ ", ")
  ++ (if (hi =? INT64_MAX)%Z then "INT64_MAX]
" else show_Z hi ++ "]
").
(** printer.c 452-463, 549-560: the two ends of a float range. *)
Definition float_ends (lo hi : flt) : string :=
  (if feq lo (fopp DBL_MAX) then "-DBL_MAX, " else show_flt lo ++ ", ")
  ++ (if feq hi DBL_MAX then "DBL_MAX]
" else show_flt hi ++ "]
").
(** printer.c 468-473 and the same for string lists and enums: the upper end. *)
Definition size_end (hi : Z) : string :=
  if (SIZE_MAX - 1 <=? hi)%Z then "SIZE_MAX]
" else show_Z hi ++ "]
".

(** printer.c 424-522 [print_attr_domain]. *)
Definition print_attr_domain (d : domain) : result string :=
  let a := d_attr d in
  let q := mark (d_undef d) in
  match d_bound d with
  | BBool lo hi => Ok (a ++ " (bool" ++ q ++ ") [" ++ truth lo ++ ", " ++ truth hi ++ "]
")
  | BInt false lo hi => Ok (a ++ " (integer" ++ q ++ ") [" ++ int_ends lo hi)
  | BFloat lo hi => Ok (a ++ " (float" ++ q ++ ") [" ++ float_ends lo hi)
  | BStr TStr _ hi => Ok (a ++ " (string" ++ q ++ ") [" ++ size_end hi)
  | BInt true lo hi => Ok (a ++ " (integer list" ++ q ++ ") [" ++ int_ends lo hi)
  | BStr TStrList _ hi => Ok (a ++ " (string list" ++ q ++ ") [" ++ size_end hi)
  | BStr TIEnum _ hi => Ok (a ++ " (integer enum" ++ q ++ ") [" ++ size_end hi)
  | BSegs => Ok (a ++ " (segments" ++ q ++ ")
")
  | BFreqs => Ok (a ++ " (frequency caps" ++ q ++ ")
")
  | BStr _ _ _ => Abort
  end.

(** printer.c 524-608 [print_cdir]: [a] is the name of its variable, [b] its range. *)
Definition print_cdir (a : string) (b : bound) : result string :=
  match b with
  | BBool lo hi => Ok (a ++ " (bool) [" ++ truth lo ++ ", " ++ truth hi ++ "]
")
  | BInt false lo hi => Ok (a ++ " (integer) [" ++ int_ends lo hi)
  | BFloat lo hi => Ok (a ++ " (float) [" ++ float_ends lo hi)
  | BStr TStr lo hi => Ok (a ++ " (string) [" ++ show_Z lo ++ ", " ++ size_end hi)
  | BInt true lo hi => Ok (a ++ " (integer list) [" ++ int_ends lo hi)
  | BStr TStrList lo hi => Ok (a ++ " (string list) [" ++ show_Z lo ++ ", " ++ size_end hi)
  | BStr TIEnum lo hi => Ok (a ++ " (integer enum) [" ++ show_Z lo ++ ", " ++ size_end hi)
  | BSegs | BFreqs | BStr _ _ _ => Abort
  end.

(** printer.c 610-614 [print_report]. *)
Definition print_report (r : report) : string :=
  "evaluated = " ++ show_Z (r_evaluated r) ++ ", matched = " ++ show_Z (r_matched r) ++ ", memoized = " ++ show_Z (r_memoized r)
  ++ ", shorted = " ++ show_Z (r_shorted r) ++ "
".

(** printer.c 616-630 [print_value_type]. *)
Definition print_value_type (t : vtype) : string :=
  match t with
  | TBool => "BETREE_BOOLEAN
"
  | TInt => "BETREE_INTEGER
"
  | TFloat => "BETREE_FLOAT
"
  | TStr => "BETREE_STRING
"
  | TIntList => "BETREE_INTEGER_LIST
"
  | TStrList => "BETREE_STRING_LIST
"
  | TSegs => "BETREE_SEGMENTS
"
  | TFreqs => "BETREE_FREQUENCY_CAPS
"
  | TIEnum => "BETREE_INTEGER_ENUM
"
  end.
