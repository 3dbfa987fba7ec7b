(** Values of event variables and value ranges (value.h, value.c, utils.c). *)
From Coq Require Import ZArith NArith String Bool List.
From Verif Require Import Base Float.
Import ListNotations.
Local Open Scope Z_scope.

(** betree.h [enum betree_value_type_e]. *)
Inductive vtype :=
| TBool | TInt | TFloat | TStr | TIntList | TStrList | TSegs | TFreqs | TIEnum.

(** value.h [struct string_value]; the redundant [var] member is dropped (it is never read by
    the evaluation, comparison or tree code modelled here). *)
Record sval := mkS { sv_string : string; sv_str : Z }.

(** value.h [struct integer_enum_value]; [var] dropped as above. *)
Record ieval := mkIE { ie_int : Z; ie_id : Z }.

(** value.h [struct betree_segment]. *)
Record segment := mkSeg { sg_id : Z; sg_ts : Z }.

(** value.h [enum frequency_type_e]. *)
Inductive ftype :=
| FTInvalid | FTAdvertiser | FTAdvertiserIP | FTCampaign | FTCampaignIP | FTCampaignGroup
| FTCampaignGroupIP | FTFlight | FTFlightIP | FTProduct | FTProductIP.

(** Numeric value of the enum constants, used by comparisons. *)
Definition ftype_num (t : ftype) : Z :=
  match t with
  | FTInvalid => 0 | FTAdvertiser => 1 | FTAdvertiserIP => 2 | FTCampaign => 3
  | FTCampaignIP => 4 | FTCampaignGroup => 5 | FTCampaignGroupIP => 6 | FTFlight => 7
  | FTFlightIP => 8 | FTProduct => 9 | FTProductIP => 10
  end.

(** value.c 216-249 [get_type_from_string]. *)
Definition get_type_from_string (s : string) : ftype :=
  if String.eqb s "advertiser" then FTAdvertiser
  else if String.eqb s "advertiser:ip" then FTAdvertiserIP
  else if String.eqb s "campaign" then FTCampaign
  else if String.eqb s "campaign:ip" then FTCampaignIP
  else if String.eqb s "campaign_group" then FTCampaignGroup
  else if String.eqb s "campaign_group:ip" then FTCampaignGroupIP
  else if String.eqb s "product" then FTProduct
  else if String.eqb s "product:ip" then FTProductIP
  else if String.eqb s "flight" then FTFlight
  else if String.eqb s "flight:ip" then FTFlightIP
  else FTInvalid.

(** value.h [struct betree_frequency_cap]; [id] and [value] are uint32_t. *)
Record fcap := mkCap {
  fc_type : ftype; fc_id : Z; fc_ns : sval; fc_tsdef : bool; fc_ts : Z; fc_value : Z }.

(** value.h [struct value]: the tagged union becomes an inductive type. *)
Inductive value :=
| VBool (b : bool)
| VInt (z : Z)
| VFloat (f : flt)
| VStr (s : sval)
| VIntList (l : list Z)
| VStrList (l : list sval)
| VSegs (l : list segment)
| VFreqs (l : list fcap)
| VIEnum (e : ieval).

(** value.h 78-91: the tag of a value. *)
Definition vtype_of (v : value) : vtype :=
  match v with
  | VBool _ => TBool | VInt _ => TInt | VFloat _ => TFloat | VStr _ => TStr
  | VIntList _ => TIntList | VStrList _ => TStrList | VSegs _ => TSegs
  | VFreqs _ => TFreqs | VIEnum _ => TIEnum
  end.

(** Comparison of tags (betree.h [enum betree_value_type_e]). *)
Definition vtype_eqb (a b : vtype) : bool :=
  match a, b with
  | TBool, TBool | TInt, TInt | TFloat, TFloat | TStr, TStr | TIntList, TIntList
  | TStrList, TStrList | TSegs, TSegs | TFreqs, TFreqs | TIEnum, TIEnum => true
  | _, _ => false
  end.

(** value.h [struct value_bound]: tag plus the union member selected by the tag
    ([imin/imax] for integers and integer lists, [smin/smax] for strings, string lists and
    integer enums). *)
Inductive bound :=
| BBool (lo hi : bool)
| BInt (list : bool) (lo hi : Z)          (* list = false: BETREE_INTEGER, true: BETREE_INTEGER_LIST *)
| BFloat (lo hi : flt)
| BStr (t : vtype) (lo hi : Z)            (* t in {TStr, TStrList, TIEnum}; size_t members *)
| BSegs
| BFreqs.

(** value.h 93-113: the tag of a range. *)
Definition btype (b : bound) : vtype :=
  match b with
  | BBool _ _ => TBool
  | BInt false _ _ => TInt
  | BInt true _ _ => TIntList
  | BFloat _ _ => TFloat
  | BStr t _ _ => t
  | BSegs => TSegs
  | BFreqs => TFreqs
  end.

(** Sorting.  C's [qsort] with [icmpfunc] (utils.c 48-59) / [scmpfunc] (utils.c 61-72) is
    modelled by insertion sort on the key; qsort may order equal keys differently, which only
    affects the [string] pointers of entries with equal [str]. *)
Section Sort.
  Variable A : Type.
  Variable key : A -> Z.
  (** One step of the sort (utils.c 48-72). *)
  Fixpoint insert_key (x : A) (l : list A) : list A :=
    match l with
    | [] => [x]
    | y :: t => if key x <=? key y then x :: l else y :: insert_key x t
    end.
  (** value.c 417-420, 445-448: qsort; the result of a sort by key does not depend on the algorithm as equal keys are equal elements. *)
  Fixpoint sort_key (l : list A) : list A :=
    match l with
    | [] => []
    | x :: t => insert_key x (sort_key t)
    end.
  (** value.c 403-415 [remove_duplicates_integer_list], value.c 428-443
      [remove_duplicates_string_list]: keep an element iff it differs from the last kept one. *)
  Fixpoint dedup_from (last : A) (l : list A) : list A :=
    match l with
    | [] => []
    | x :: t => if key last =? key x then dedup_from last t else x :: dedup_from x t
    end.
  (** value.c 403-415, 428-443: keep an element if it differs from the one before. *)
  Definition dedup (l : list A) : list A :=
    match l with
    | [] => []
    | x :: t => x :: dedup_from x t
    end.
End Sort.
Arguments insert_key {A}. Arguments sort_key {A}. Arguments dedup_from {A}. Arguments dedup {A}.

(** value.c 422-426 [sort_and_remove_duplicate_integer_list]. *)
Definition sort_ints (l : list Z) : list Z := dedup (fun z => z) (sort_key (fun z => z) l).
(** value.c 450-454 [sort_and_remove_duplicate_string_list]. *)
Definition sort_strs (l : list sval) : list sval := dedup sv_str (sort_key sv_str l).

(** var.c 113-119 [is_empty_list]; the four list structs share their layout, so the four
    size tests of the C code read the same member. *)
Definition is_empty_list (v : value) : bool :=
  match v with
  | VIntList l => match l with [] => true | _ => false end
  | VStrList l => match l with [] => true | _ => false end
  | VSegs l => match l with [] => true | _ => false end
  | VFreqs l => match l with [] => true | _ => false end
  | _ => false
  end.
