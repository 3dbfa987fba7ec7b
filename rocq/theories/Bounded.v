(** Vocabulary for bounded strings: which strings a history uses for a variable. *)
From Coq Require Import ZArith NArith String Bool List.
From Verif Require Import Base Float Value Ast Config Assign Source Api Spec Hist.
Import ListNotations.
Local Open Scope Z_scope.

(** The strings used for the variable [x] (in lower case) in a list of names with strings, in an
    expression and in a list of subscriptions. *)
Definition strings_for (x : string) (l : list (string * string)) : list string :=
  map snd (filter (fun p => String.eqb (lower (fst p)) x) l).
Definition src_strings (x : string) (y : src) : list string := strings_for x (flat_map atom_strs (src_atoms y)).
Definition log_strings (x : string) (log : list entry) : list string := flat_map (fun e => src_strings x (e_src e)) log.

(** [y] writes the variable [x] exactly so. *)
Definition named_as (x : string) (y : src) : Prop :=
  forall a s, In (a, s) (flat_map atom_strs (src_atoms y)) -> lower a = x -> a = x.
(** All strings that [y] uses for [x] are in one predicate. *)
Definition one_use (x : string) (y : src) : Prop :=
  forall a b, In a (src_atoms y) -> In b (src_atoms y) ->
    strings_for x (atom_strs a) <> [] -> strings_for x (atom_strs b) <> [] -> a = b.

(** Trees after insertions only, with the accepted subscriptions. *)
Inductive inserted (ds : list domain) : betree -> list entry -> Prop :=
| i_new cap minpart maxsplit : inserted ds (make_tree cap minpart maxsplit ds) []
| i_yes t log id cs x t' :
    inserted ds t log -> betree_insert_with_constants t id cs x = Ok (true, t') -> inserted ds t' (log ++ [mkE id cs x])
| i_no t log id cs x t' :
    inserted ds t log -> betree_insert_with_constants t id cs x = Ok (false, t') -> inserted ds t' log.

(** The variable [x] is declared, in lower case, with room for [n] strings. *)
Definition has_room (ds : list domain) (x : string) (n : Z) : Prop :=
  lower x = x /\ exists v d t lo hi, decl ds x = Some (v, d) /\ d_bound d = BStr t lo hi
    /\ n = hi + 1 /\ 0 < n < SIZE_MAX.
