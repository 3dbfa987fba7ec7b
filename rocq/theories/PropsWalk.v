(** C77: how much of the index a search visits. *)
From Coq Require Import ZArith NArith String Bool List Permutation Lia ZifyNat.
From Verif Require Import Base Float FloatSpec Value Ast Config Assign Special Match Bound Tree PredMap Source Api Spec TreeSpec Hist Calls Check Cases Refute ShapeSpec SizeSpec WalkSpec.
From Verif Require Import TreeProofs CallProofs PropsCalls ShapeProofs SizeProofs PropsShape PropsSize WalkProofs.
Import ListNotations.
Local Open Scope Z_scope.

(** What a search evaluates are the subscriptions of the nodes it visits, in this order. *)
Theorem C77_candidates : forall ds p cn subs, match_cnode ds p cn = Ok subs -> subs = flat_map at_node (visited_cnode ds p cn).
Proof. intros ds p. exact (proj1 (match_visited ds p)). Qed.
Print Assumptions C77_candidates.

(** If the event has one value for the variable of a partition, then the search follows at most two paths through its
    ranges: the number of ranges it visits is logarithmic in the width. *)
Theorem C77_path : forall cap minpart maxsplit ds t made ids p v cd x,
  calls cap minpart maxsplit ds t made ids -> In (v, cd) (named_cnode (bt_root t)) -> ordered (reach_of cd) ->
  nthN p v = Some (Some x) -> single x ->
  (List.length (seen p v true true cd) <= 1 + 2 * steps cd)%nat
  /\ Z.of_nat (List.length (seen p v true true cd)) <= (if width (reach_of cd) =? 0 then 1 else 3 + 2 * Z.log2_up (width (reach_of cd))).
Proof.
  intros cap minpart maxsplit ds t made ids p v cd x K I O N S.
  assert (J : In cd (tops_cnode (bt_root t))) by (rewrite <- (proj1 named_tops); now apply (in_map snd) in I).
  destruct (C76_ranges _ _ _ _ _ _ _ _ K J (ordered_discrete _ O)) as (_ & B & _).
  destruct (calls_cut _ _ _ _ _ _ _ K) as (_ & C). apply (proj1 (tops_cut _)) in C. rewrite Forall_forall in C.
  destruct (C _ J) as (_ & CC). rewrite (reach_bound cd) in *.
  pose proof (seen_path maxsplit p v x N S cd true true CC O) as L. split; [exact L|]. destruct (_ =? 0); lia.
Qed.
Print Assumptions C77_path.
(** The nodes of the whole index that are visited. *)
Theorem C77_nodes : forall cap minpart maxsplit ds t made ids p,
  calls cap minpart maxsplit ds t made ids -> NoDup ids ->
  (forall v cd, In (v, cd) (named_cnode (bt_root t)) -> ordered (reach_of cd) /\ exists x, nthN p v = Some (Some x) /\ single x) ->
  (List.length (visited_cnode ds p (bt_root t))
   <= 1 + List.length ds * List.length ids * Z.to_nat (3 + 2 * Z.log2_up (Z.max 2 maxsplit)))%nat.
Proof.
  intros cap minpart maxsplit ds t made ids p K ND H.
  pose proof (C75_size _ _ _ _ _ _ _ K ND) as SZ. rewrite (proj1 tops_size), <- (proj1 named_tops), map_length in SZ.
  pose proof (proj1 (visited_bound ds p (Z.to_nat (3 + 2 * Z.log2_up (Z.max 2 maxsplit)))) (bt_root t)) as V.
  etransitivity; [apply V|].
  - intros v cd I. destruct (H _ _ I) as (O & x & N & S). destruct (C77_path _ _ _ _ _ _ _ _ _ _ _ K I O N S) as (_ & L).
    assert (J : In cd (tops_cnode (bt_root t))) by (rewrite <- (proj1 named_tops); now apply (in_map snd) in I).
    destruct (C76_ranges _ _ _ _ _ _ _ _ K J (ordered_discrete _ O)) as (W & _).
    pose proof (Z.log2_up_le_mono (width (reach_of cd)) (Z.max 2 maxsplit) ltac:(lia)).
    pose proof (Z.log2_up_nonneg (Z.max 2 maxsplit)). destruct (_ =? 0); lia.
  - apply le_n_S. now apply Nat.mul_le_mono_r.
Qed.
Print Assumptions C77_nodes.

(** Of the 15 ranges of the index of C76_case, 7 are visited for the value in the middle, 4 for an end and 4 for a value
    outside; the candidates are the subscriptions that ask for the value. *)
Definition ranges_of (x : value) : list (nat * nat) :=
  map (fun vc => (List.length (seen [Some x] (fst vc) true true (snd vc)), steps (snd vc))) (named_cnode (bt_root full_t)).
Example C77_case :
  ranges_of (VInt 2) = [(7, 3)]%nat /\ ranges_of (VInt 0) = [(4, 3)]%nat /\ ranges_of (VInt 9) = [(4, 3)]%nat
  /\ List.length (visited_cnode full_ds [Some (VInt 2)] (bt_root full_t)) = 8%nat
  /\ match match_cnode full_ds [Some (VInt 2)] (bt_root full_t) with Ok l => map s_id l | _ => [] end = [2; 7; 12].
Proof. vm_compute. auto 6. Qed.
(** A list can lead everywhere. *)
Example C77_not : ranges_of (VIntList [0; 4]) = [(15, 3)]%nat.
Proof. vm_compute. reflexivity. Qed.
