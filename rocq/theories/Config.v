(** Configuration: declared variables and interning tables (config.c, config.h). *)
From Coq Require Import ZArith NArith String Ascii Bool List.
From Verif Require Import Base Float Value Ast.
Import ListNotations.
Local Open Scope Z_scope.
Local Open Scope res_scope.

(** config.h [struct attr_domain].  [attr_var.var] is always the index of the domain in the
    array (config.c 87-93), so it is not stored. *)
Record domain := mkD { d_attr : string; d_bound : bound; d_undef : bool }.

(** config.h [struct string_map]: [string_value_count] is the length of [sm_vals], and the hash
    table maps the i-th string to i (config.c 272-279; HashMap.v shows that the table of map.c
    implements this lookup).  Reading the table of a map that holds no string yet yields
    "absent" (C: for a string_maps array grown by realloc the table is then uninitialised; this
    needs a domain declared with bound 0). *)
Record strmap := mkSM { sm_attr : string; sm_var : N; sm_vals : list string }.
(** config.h [struct integer_map]. *)
Record intmap := mkIM { im_attr : string; im_var : N; im_vals : list Z }.

(** The part of config.h [struct config] without the predicate map (PredMap.v).
    [lnode_max_cap], [partition_min_size] and [max_domain_for_split]. *)
Record config := mkC {
  c_domains : list domain;
  c_cap : Z;
  c_minpart : Z;
  c_maxsplit : Z;
  c_strs : list strmap;
  c_ints : list intmap }.

(** config.c 12-28 [make_config] / 30-33 [make_default_config]: parameters are uint8_t. *)
Definition make_config (cap minpart : Z) : config :=
  mkC [] (to_uint 8 cap) (to_uint 8 minpart) 1000 [] [].
(** config.c 30-33 [make_default_config]. *)
Definition make_default_config : config := make_config 3 0.

(** config.c 86-109 [add_attr_domain]. *)
Definition add_domain (c : config) (d : domain) : config :=
  mkC (c_domains c ++ [d]) (c_cap c) (c_minpart c) (c_maxsplit c) (c_strs c) (c_ints c).

(** config.c 109-197: the add_attr_domain_* functions build these bounds ([max - 1] is computed
    on size_t). *)
Definition dom_bounded_i (lo hi : Z) : bound := BInt false lo hi.
(** config.c 118-121. *)
Definition dom_i : bound := dom_bounded_i INT64_MIN INT64_MAX.
(** config.c 170-175. *)
Definition dom_bounded_il (lo hi : Z) : bound := BInt true lo hi.
(** config.c 165-168. *)
Definition dom_il : bound := dom_bounded_il INT64_MIN INT64_MAX.
(** config.c 128-133. *)
Definition dom_bounded_f (lo hi : flt) : bound := BFloat lo hi.
(** config.c 135-138. *)
Definition dom_f : bound := dom_bounded_f (fopp DBL_MAX) DBL_MAX.
(** config.c 140-144. *)
Definition dom_b : bound := BBool false true.
(** config.c 151-156. *)
Definition dom_bounded_s (max : Z) : bound := BStr TStr 0 (to_uint 64 (max - 1)).
(** config.c 146-149. *)
Definition dom_s : bound := dom_bounded_s SIZE_MAX.
(** config.c 182-187. *)
Definition dom_bounded_sl (max : Z) : bound := BStr TStrList 0 (to_uint 64 (max - 1)).
(** config.c 177-180. *)
Definition dom_sl : bound := dom_bounded_sl SIZE_MAX.
(** config.c 158-163. *)
Definition dom_bounded_ie (max : Z) : bound := BStr TIEnum 0 (to_uint 64 (max - 1)).
(** config.c 123-126. *)
Definition dom_ie : bound := dom_bounded_ie SIZE_MAX.
(** config.c 189-193. *)
Definition dom_segments : bound := BSegs.
(** config.c 195-199. *)
Definition dom_frequency : bound := BFreqs.

(** config.c 201-205 [get_attr_domain]: out-of-range indices are undefined behaviour. *)
Definition get_domain (c : config) (v : N) : result domain :=
  match nthN (c_domains c) v with Some d => Ok d | None => UB end.

(** ASCII [tolower] (C locale). *)
Definition tolower (a : ascii) : ascii :=
  let n := nat_of_ascii a in
  if (65 <=? n)%nat && (n <=? 90)%nat then ascii_of_nat (n + 32) else a.
(** tree.c 1628-1631: lower-casing of the looked-up name. *)
Fixpoint lower (s : string) : string :=
  match s with EmptyString => EmptyString | String a t => String (tolower a) (lower t) end.

(** tree.c 1625-1639 [try_get_id_for_attr]: the looked-up name is lower-cased, the declared one is
    not; the first match wins. *)
Fixpoint find_attr (ds : list domain) (name : string) (i : N) : N :=
  match ds with
  | [] => INVALID_VAR
  | d :: t => if String.eqb (d_attr d) name then i else find_attr t name (i + 1)
  end.
(** tree.c 1625-1639 [try_get_id_for_attr]. *)
Definition try_get_id_for_attr (c : config) (attr : string) : N :=
  find_attr (c_domains c) (lower attr) 0.

(** Reading [bound.smax] of a domain.  For integer domains the union member aliases imax; for
    segments and frequency caps the union is zero-initialised (config.c 187-197).  For booleans
    and floats the read is not modelled ([UB]). *)
Definition dom_smax (b : bound) : result Z :=
  match b with
  | BStr _ _ hi => Ok hi
  | BInt _ _ hi => Ok (to_uint 64 hi)
  | BSegs | BFreqs => Ok 0
  | BBool _ _ | BFloat _ _ => UB
  end.

(** Position of a string / integer in a table (linear search of config.c 288-292; map_get). *)
Fixpoint index_of {A} (eqb : A -> A -> bool) (l : list A) (x : A) (i : Z) : option Z :=
  match l with
  | [] => None
  | y :: t => if eqb y x then Some i else index_of eqb t x (i + 1)
  end.
(** map_get on the table of a variable (config.c 310, 353), see PropsTables.v. *)
Definition str_index (l : list string) (s : string) : option Z := index_of String.eqb l s 0.
(** config.c 293-297, 326-330: linear search. *)
Definition int_index (l : list Z) (z : Z) : option Z := index_of Z.eqb l z 0.

(** config.c 307-309, 350-352: the first table of the variable. *)
Fixpoint find_strmap (ms : list strmap) (v : N) : option strmap :=
  match ms with
  | [] => None
  | m :: t => if (sm_var m =? v)%N then Some m else find_strmap t v
  end.
(** config.c 290-292, 323-325: the first table of the variable. *)
Fixpoint find_intmap (ms : list intmap) (v : N) : option intmap :=
  match ms with
  | [] => None
  | m :: t => if (im_var m =? v)%N then Some m else find_intmap t v
  end.

(** config.c 304-318 [try_get_id_for_string] and 281-297 [try_get_id_for_ienum]. *)
Definition try_get_str (c : config) (v : N) (s : string) : Z :=
  match find_strmap (c_strs c) v with
  | Some m => match str_index (sm_vals m) s with Some i => i | None => INVALID_STR end
  | None => INVALID_STR
  end.
(** config.c 287-302 [try_get_id_for_ienum]. *)
Definition try_get_ie (c : config) (v : N) (z : Z) : Z :=
  match find_intmap (c_ints c) v with
  | Some m => match int_index (im_vals m) z with Some i => i | None => INVALID_IENUM end
  | None => INVALID_IENUM
  end.

(** config.c 278-285 [add_to_string_map] / 250-270 [add_to_integer_map] on the map of [v]. *)
Fixpoint push_str (ms : list strmap) (v : N) (s : string) : list strmap :=
  match ms with
  | [] => []
  | m :: t => if (sm_var m =? v)%N then mkSM (sm_attr m) (sm_var m) (sm_vals m ++ [s]) :: t
              else m :: push_str t v s
  end.
(** config.c 256-276 [add_to_integer_map]. *)
Fixpoint push_int (ms : list intmap) (v : N) (z : Z) : list intmap :=
  match ms with
  | [] => []
  | m :: t => if (im_var m =? v)%N then mkIM (im_attr m) (im_var m) (im_vals m ++ [z]) :: t
              else m :: push_int t v z
  end.

(** Assignment to config->string_maps (config.h 40-57). *)
Definition set_strs (c : config) (ms : list strmap) : config :=
  mkC (c_domains c) (c_cap c) (c_minpart c) (c_maxsplit c) ms (c_ints c).
(** Assignment to config->integer_maps (config.h 40-57). *)
Definition set_ints (c : config) (ms : list intmap) : config :=
  mkC (c_domains c) (c_cap c) (c_minpart c) (c_maxsplit c) (c_strs c) ms.
(** Assignment to config->attr_domains (config.h 40-57). *)
Definition set_domains (c : config) (ds : list domain) : config :=
  mkC ds (c_cap c) (c_minpart c) (c_maxsplit c) (c_strs c) (c_ints c).

(** config.c 344-371 [get_id_for_string]. *)
Definition get_id_for_string (c : config) (v : avar) (s : string) (always : bool)
  : result (Z * config) :=
  match find_strmap (c_strs c) (av_var v) with
  | Some m =>
      match str_index (sm_vals m) s with
      | Some i => Ok (i, c)
      | None =>
          do d <- get_domain c (av_var v);
          do full <- (if always then Ok false else
                        do smax <- dom_smax (d_bound d);
                        Ok (to_uint 64 (smax + 1) =? Z.of_nat (length (sm_vals m))));
          if full : bool then Ok (INVALID_STR, c)
          else Ok (Z.of_nat (length (sm_vals m)), set_strs c (push_str (c_strs c) (av_var v) s))
      end
  | None =>
      let c := set_strs c (c_strs c ++ [mkSM (av_attr v) (av_var v) []]) in
      do d <- get_domain c (av_var v);
      do full <- (if always then Ok false else
                    do smax <- dom_smax (d_bound d);
                    Ok (to_uint 64 (smax + 1) =? 0));
      if full : bool then Ok (INVALID_STR, c)
      else Ok (0, set_strs c (push_str (c_strs c) (av_var v) s))
  end.

(** config.c 320-345 [get_id_for_ienum]. *)
Definition get_id_for_ienum (c : config) (v : avar) (z : Z) (always : bool)
  : result (Z * config) :=
  match find_intmap (c_ints c) (av_var v) with
  | Some m =>
      match int_index (im_vals m) z with
      | Some i => Ok (i, c)
      | None =>
          do d <- get_domain c (av_var v);
          do full <- (if always then Ok false else
                        do smax <- dom_smax (d_bound d);
                        Ok (to_uint 64 (smax + 1) =? Z.of_nat (length (im_vals m))));
          if full : bool then Ok (INVALID_IENUM, c)
          else Ok (Z.of_nat (length (im_vals m)), set_ints c (push_int (c_ints c) (av_var v) z))
      end
  | None =>
      let c := set_ints c (c_ints c ++ [mkIM (av_attr v) (av_var v) []]) in
      do d <- get_domain c (av_var v);
      do full <- (if always then Ok false else
                    do smax <- dom_smax (d_bound d);
                    Ok (to_uint 64 (smax + 1) =? 0));
      if full : bool then Ok (INVALID_IENUM, c)
      else Ok (0, set_ints c (push_int (c_ints c) (av_var v) z))
  end.
