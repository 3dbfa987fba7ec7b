(** Special predicates (special.c). *)
From Coq Require Import ZArith List Bool String Ascii.
From Verif Require Import Base Float Value.
Import ListNotations.
Local Open Scope Z_scope.

(** special.c 75-86 [geo_within_radius] uses sin, cos, asin and sqrt of libm.  It is left
    abstract: every model function takes an arbitrary boolean function of the five doubles
    (latitude and longitude of the event, latitude, longitude and radius of the expression). *)
Class Geo := geo_within : flt -> flt -> flt -> flt -> flt -> bool.

(** `==` on [enum frequency_type_e] (special.c 11-40). *)
Definition ftype_eqb (a b : ftype) : bool := ftype_num a =? ftype_num b.

(** special.c 11-40 [within_frequency_caps].  [value] is a uint32_t parameter, [length] a
    size_t; `length <= 0` on size_t means length = 0; (int64_t)length wraps.  Timestamps are in
    microseconds; C division truncates ([Z.quot]).  The int64 subtraction is computed in Z (no
    overflow modelled). *)
Fixpoint within_frequency_caps (caps : list fcap) (ty : ftype) (id : Z) (ns : sval)
    (value : Z) (length : Z) (now : Z) : bool :=
  match caps with
  | [] => true
  | c :: rest =>
      if (fc_id c =? id) && (sv_str (fc_ns c) =? sv_str ns) && ftype_eqb (fc_type c) ty then
        if length <=? 0 then value >? fc_value c
        else if negb (fc_tsdef c) then true
        else if (now - Z.quot (fc_ts c) 1000000) >? to_sint 64 length then true
        else value >? fc_value c
      else within_frequency_caps rest ty id ns value length now
  end.

(** special.c 42-55 [segment_within]; [after_seconds] is an int32_t parameter. *)
Fixpoint segment_within (id : Z) (after : Z) (segs : list segment) (now : Z) : bool :=
  match segs with
  | [] => false
  | s :: rest =>
      if sg_id s <? id then segment_within id after rest now
      else if sg_id s =? id then (now - after) <=? Z.quot (sg_ts s) 1000000
      else false
  end.

(** special.c 57-70 [segment_before]. *)
Fixpoint segment_before (id : Z) (before : Z) (segs : list segment) (now : Z) : bool :=
  match segs with
  | [] => false
  | s :: rest =>
      if sg_id s <? id then segment_before id before rest now
      else if sg_id s =? id then (now - before) >? Z.quot (sg_ts s) 1000000
      else false
  end.

(** strncmp(value, pattern, strlen(pattern)) == 0. *)
Fixpoint strncmp_eq (value pattern : string) : bool :=
  match pattern with
  | EmptyString => true
  | String c p' =>
      match value with
      | EmptyString => false
      | String d v' => Ascii.eqb c d && strncmp_eq v' p'
      end
  end.

(** special.c 88-91 [contains]: strstr(value, pattern) != NULL, modelled by trying every
    position as the C standard describes it. *)
Fixpoint contains (value pattern : string) : bool :=
  strncmp_eq value pattern ||
  match value with
  | EmptyString => false
  | String _ v' => contains v' pattern
  end.

(** special.c 93-102 [starts_with]. *)
Definition starts_with (value pattern : string) : bool :=
  if (String.length value <? String.length pattern)%nat then false
  else strncmp_eq value pattern.

(** value + off *)
Fixpoint string_drop (n : nat) (s : string) : string :=
  match n, s with
  | O, _ => s
  | S n', String _ s' => string_drop n' s'
  | S _, EmptyString => EmptyString
  end.

(** special.c 104-114 [ends_with]. *)
Definition ends_with (value pattern : string) : bool :=
  if (String.length value <? String.length pattern)%nat then false
  else strncmp_eq (string_drop (String.length value - String.length pattern) value) pattern.
