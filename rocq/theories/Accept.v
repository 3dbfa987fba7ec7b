(** Which subscriptions the operations should accept. *)
From Coq Require Import ZArith NArith String Bool List.
From Verif Require Import Base Float Value Ast Config Assign Source Api Spec Hist Bounded.
Import ListNotations.
Local Open Scope Z_scope.

(** Every frequency cap of [x] has its integer constant. *)
Definition constants_given (cs : constants) (x : src) : Prop :=
  forall ty ns value window, In (AFreq ty ns value window) (src_atoms x) ->
    const_int cs (freq_const (get_type_from_string ty)) <> None.
(** `is null` and `is not null` only of optional variables, `is empty` only of lists of integers or strings. *)
Definition null_tests_ok (ds : list domain) (x : src) : Prop :=
  forall op y, In (ANull op y) (src_atoms x) ->
    match op with
    | NIsNull | NIsNotNull => ~ required ds y
    | NIsEmpty => has_type ds y TIntList \/ has_type ds y TStrList
    end.
(** The strings that [x] uses for a variable, counted as often as they occur, fit next to those known. *)
Definition roomy (c : config) (x : src) : Prop :=
  forall y v d ty lo hi, decl (c_domains c) y = Some (v, d) -> d_bound d = BStr ty lo hi ->
    src_strings (lower y) x <> [] ->
    Z.of_nat (List.length (strs c v)) + Z.of_nat (List.length (src_strings (lower y) x)) <= Z.min (hi + 1) (SIZE_MAX - 1).

(** The strings of the table that was started under the name [y], as written. *)
Definition known_under (c : config) (y : string) : list string :=
  flat_map sm_vals (filter (fun m => String.eqb (sm_attr m) y) (c_strs c)).
(** The strings of the predicate [a] that are new for that table, counted as often as they occur. *)
Definition new_strings (c : config) (y : string) (a : atom) : list string :=
  filter (fun s => negb (existsb (String.eqb s) (known_under c y))) (map snd (atom_strs a)).
(** One predicate, taken by itself, leaves the table of its variable within its bound, or the table is over its bound
    already.  (The difference of two size_t is then a number of almost 2^64.) *)
Definition pred_room (c : config) (a : atom) : Prop :=
  match a with AFreq _ _ _ _ => True | _ =>
    forall y s v d ty lo hi, In (y, s) (atom_strs a) -> decl (c_domains c) y = Some (v, d) -> d_attr d = y ->
      d_bound d = BStr ty lo hi -> hi + 1 < SIZE_MAX ->
      let k := Z.of_nat (List.length (known_under c y)) in
      let n := Z.of_nat (List.length (new_strings c y a)) in
      k + n <= hi + 1 \/ hi + 1 < k /\ k + n <= hi + 1 + 2 ^ 64
  end.
