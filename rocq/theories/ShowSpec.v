(** Reading the printed lines: what a line says about a variable or a range. *)
From Coq Require Import ZArith NArith String Ascii Bool List Decimal DecimalString.
From Verif Require Import Base Float Value Config Tree Printer.
Import ListNotations.
Local Open Scope list_scope.
Local Open Scope string_scope.

(** The text before the first [c], and the text after it. *)
Fixpoint until (c : ascii) (s : string) : option (string * string) :=
  match s with
  | "" => None
  | String d t => if (d =? c)%char then Some ("", t) else option_map (fun p => (String d (fst p), snd p)) (until c t)
  end.
(** Without the character. *)
Fixpoint lacks (c : ascii) (s : string) : bool := match s with "" => true | String d t => negb (d =? c)%char && lacks c t end.

(** A decimal number. *)
Definition decimal (s : string) : option Z := option_map Z.of_int (NilEmpty.int_of_string s).
Definition int_at (s : string) : option Z :=
  if s =? "INT64_MIN" then Some INT64_MIN else if s =? "INT64_MAX" then Some INT64_MAX else decimal s.
(** None: no limit. *)
Definition size_at (s : string) : option (option Z) := if s =? "SIZE_MAX" then Some None else option_map Some (decimal s).
Definition truth_at (s : string) : option bool := if s =? "true" then Some true else if s =? "false" then Some false else None.

(** What is said about the values. *)
Inductive ends :=
| EBool (lo hi : bool)
| EInt (lo hi : Z)
| EFloat (lo hi : string)       (** doubles are printed with two decimals *)
| ELimit (hi : option Z)
| ESize (lo : Z) (hi : option Z)
| ENone.

(** The words for the types. *)
Definition type_of (s : string) : option vtype :=
  if s =? "bool" then Some TBool else if s =? "integer" then Some TInt else if s =? "float" then Some TFloat
  else if s =? "string" then Some TStr else if s =? "integer list" then Some TIntList
  else if s =? "string list" then Some TStrList else if s =? "integer enum" then Some TIEnum
  else if s =? "segments" then Some TSegs else if s =? "frequency caps" then Some TFreqs else None.
(** With a question mark at the end or not. *)
Definition typed (s : string) : option (vtype * bool) :=
  match until "?" s with
  | Some (w, "") => option_map (fun t => (t, true)) (type_of w)
  | Some _ => None
  | None => option_map (fun t => (t, false)) (type_of s)
  end.
(** The part in brackets. *)
Definition ends_at (t : vtype) (s : string) : option ends :=
  match until "," s with
  | None => match t with TStr | TStrList | TIEnum => option_map ELimit (size_at s) | _ => None end
  | Some (x, String " " y) =>
      match t with
      | TBool => match truth_at x, truth_at y with Some lo, Some hi => Some (EBool lo hi) | _, _ => None end
      | TInt | TIntList => match int_at x, int_at y with Some lo, Some hi => Some (EInt lo hi) | _, _ => None end
      | TFloat => Some (EFloat x y)
      | TStr | TStrList | TIEnum => match decimal x, size_at y with Some lo, Some hi => Some (ESize lo hi) | _, _ => None end
      | TSegs | TFreqs => None
      end
  | Some _ => None
  end.
(** A line: the name, the type, whether the variable may be undefined, and the values. *)
Definition read_line (s : string) : option (string * vtype * bool * ends) :=
  match until " " s with
  | Some (name, String "(" s) =>
      match until ")" s with
      | Some (w, s) =>
          match typed w with
          | Some (t, undef) =>
              if s =? "
" then match t with TSegs | TFreqs => Some (name, t, undef, ENone) | _ => None end else
              match s with
              | String " " (String "[" s) =>
                  match until "]" s with
                  | Some (e, "
") => option_map (fun e => (name, t, undef, e)) (ends_at t e)
                  | _ => None
                  end
              | _ => None
              end
          | None => None
          end
      | None => None
      end
  | _ => None
  end.

(** The text after a beginning. *)
Fixpoint after (p s : string) : option string :=
  match p, s with
  | "", _ => Some s
  | String a p, String b s => if (a =? b)%char then after p s else None
  | _, "" => None
  end.
(** The number between a beginning and a character, and the text that follows. *)
Definition number_in (p : string) (c : ascii) (s : string) : option (Z * string) :=
  match after p s with
  | Some s => match until c s with Some (x, s) => option_map (fun z => (z, s)) (decimal x) | None => None end
  | None => None
  end.
(** The line of the counters: evaluated, matched, memoized and shorted. *)
Definition read_report (s : string) : option (Z * Z * Z * Z) :=
  match number_in "evaluated = " "," s with
  | Some (e, s) =>
      match number_in " matched = " "," s with
      | Some (m, s) =>
          match number_in " memoized = " "," s with
          | Some (o, s) => match number_in " shorted = " "010" s with Some (h, "") => Some (e, m, o, h) | _ => None end
          | None => None
          end
      | None => None
      end
  | None => None
  end.

(** *** What should be said *)

(** A range of strings has the type of strings, string lists or enums. *)
Definition proper (b : bound) : Prop := match b with BStr t _ _ => t = TStr \/ t = TStrList \/ t = TIEnum | _ => True end.
Definition limit (hi : Z) : option Z := if (SIZE_MAX - 1 <=? hi)%Z then None else Some hi.
Definition float_lo (f : flt) : string := if feq f (fopp DBL_MAX) then "-DBL_MAX" else show_flt f.
Definition float_hi (f : flt) : string := if feq f DBL_MAX then "DBL_MAX" else show_flt f.
(** Of a variable only the upper end for strings is told. *)
Definition of_domain (b : bound) : ends :=
  match b with
  | BBool lo hi => EBool lo hi
  | BInt _ lo hi => EInt lo hi
  | BFloat lo hi => EFloat (float_lo lo) (float_hi hi)
  | BStr _ _ hi => ELimit (limit hi)
  | BSegs | BFreqs => ENone
  end.
Definition of_range (b : bound) : ends := match b with BStr _ lo hi => ESize lo (limit hi) | _ => of_domain b end.

(** The ranges in a tree, with their variables. *)
Fixpoint ranges_cnode (T : cnode) : list (N * bound) := match T with CNode _ _ ps => ranges_pdir ps end
with ranges_pdir (ps : pdir) : list (N * bound) :=
  match ps with PNil => [] | PCons v _ D rest => ranges_cdir v D ++ ranges_pdir rest end
with ranges_cdir (v : N) (D : cdir) : list (N * bound) :=
  match D with
  | CLeaf b T => (v, b) :: ranges_cnode T
  | CSplit b T l r => (v, b) :: ranges_cnode T ++ ranges_cdir v l ++ ranges_cdir v r
  end.
