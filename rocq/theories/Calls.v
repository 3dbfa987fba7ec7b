(** Histories of calls without any restriction on expressions, constants, ids or declarations. *)
From Coq Require Import ZArith NArith String Bool List Permutation.
From Verif Require Import Base Float Value Ast Config Assign Special Match Bound Tree PredMap Source Api.
Import ListNotations.
Local Open Scope Z_scope.

(** [calls cap minpart maxsplit ds t made ids]: any finished calls on a tree created with these
    parameters, in which [ds] were declared (at the start or later), produced the tree [t]; [made] are
    the subscriptions made by betree_make_sub, [ids] the ids of the subscriptions inserted since the
    tree was last emptied, in the order of insertion. *)
Inductive calls (cap minpart maxsplit : Z) : list domain -> betree -> list sub -> list Z -> Prop :=
| k_start ds : calls cap minpart maxsplit ds (make_tree cap minpart maxsplit ds) [] []
| k_insert ds t made ids id cs x t' :
    calls cap minpart maxsplit ds t made ids -> betree_insert_with_constants t id cs x = Ok (true, t') ->
    calls cap minpart maxsplit ds t' made (ids ++ [id])
| k_refused ds t made ids id cs x t' :
    calls cap minpart maxsplit ds t made ids -> betree_insert_with_constants t id cs x = Ok (false, t') ->
    calls cap minpart maxsplit ds t' made ids
| k_make ds t made ids id cs x s t' :
    calls cap minpart maxsplit ds t made ids -> betree_make_sub t id cs x = Ok (Some s, t') ->
    calls cap minpart maxsplit ds t' (s :: made) ids
| k_make_refused ds t made ids id cs x t' :
    calls cap minpart maxsplit ds t made ids -> betree_make_sub t id cs x = Ok (None, t') ->
    calls cap minpart maxsplit ds t' made ids
| k_insert_sub ds t made ids s t' :
    calls cap minpart maxsplit ds t made ids -> In s made -> betree_insert_sub t s = Ok t' ->
    calls cap minpart maxsplit ds t' made (ids ++ [s_id s])
| k_change ds t made ids x t' :
    calls cap minpart maxsplit ds t made ids -> betree_change_boundaries t x = Ok t' ->
    calls cap minpart maxsplit ds t' made ids
| k_declare ds t made ids d :
    calls cap minpart maxsplit ds t made ids -> calls cap minpart maxsplit (ds ++ [d]) (betree_declare t d) made ids
| k_empty ds t made ids :
    calls cap minpart maxsplit ds t made ids -> calls cap minpart maxsplit ds (empty_tree t) made [].

(** A leaf with capacity [fst l] and [snd l] subscriptions is in order for the configured capacity. *)
Definition leaf_ok (cap : Z) (l : Z * nat) : Prop :=
  (exists k, 0 < k /\ fst l = k * cap) /\ Z.of_nat (snd l) <= fst l.
