(** Properties of the building blocks. *)
From Coq Require Import ZArith NArith String Bool List Permutation.
From Verif Require Import Base Float Value Ast Special Match RbTree PredMap Spec.
From Verif Require Import BaseProofs ListProofs SpecialProofs EvalProofs CmpProofs RbProofs.
Import ListNotations.

(** ** C36: bit sets behave as sets.  [bit A k] reads bit k mod 64 of word k / 64. *)
Theorem C36_set_bit : forall A k i,
  (k / 64 < N.of_nat (List.length A))%N ->
  test_bit (set_bit A k) i = ((i =? k)%N || test_bit A i)
  /\ List.length (set_bit A k) = List.length A.
Proof. exact set_bit_as_set. Qed.
Print Assumptions C36_set_bit.
Theorem C36_clear_bit : forall A k i,
  (k / 64 < N.of_nat (List.length A))%N ->
  test_bit (clear_bit A k) i = (negb (i =? k)%N && test_bit A i)
  /\ List.length (clear_bit A k) = List.length A.
Proof. exact clear_bit_as_set. Qed.
Print Assumptions C36_clear_bit.
(** Fresh sets for n variables are empty and have room for every index up to n. *)
Theorem C36_make_bits : forall n i,
  test_bit (make_bits n) i = false
  /\ ((i <= n)%N -> (i / 64 < N.of_nat (List.length (make_bits n)))%N).
Proof. exact make_bits_as_set. Qed.
Print Assumptions C36_make_bits.
Example C36_case :
  (130 / 64 < N.of_nat (List.length (make_bits 130)))%N
  /\ map (test_bit (set_bit (set_bit (make_bits 130) 63) 128)) [0; 62; 63; 64; 127; 128; 129]%N
     = [false; false; true; false; false; true; false].
Proof. split; vm_compute; reflexivity. Qed.

(** ** C25: frequency caps *)
Theorem C25_frequency_cap : forall caps ty id ns value window now,
  (0 <= window < 2 ^ 63)%Z ->
  within_frequency_caps caps ty id ns value window now = true <->
  match find (fun k => (fc_id k =? id) && (sv_str (fc_ns k) =? sv_str ns)
                       && (ftype_num (fc_type k) =? ftype_num ty))%Z caps with
  | None => True
  | Some k =>
      (fc_value k < value)%Z
      \/ ((0 < window)%Z /\ (fc_tsdef k = false \/ (window < now - Z.quot (fc_ts k) 1000000)%Z))
  end.
Proof. exact frequency_cap_iff. Qed.
Print Assumptions C25_frequency_cap.
Example C25_case :
  let cap := mkCap FTFlight 20 (mkS "ns" 0) true 0 10 in
  (0 <= 100 < 2 ^ 63)%Z
  /\ within_frequency_caps [cap] FTFlight 20 (mkS "ns" 0) 10 100 100 = false
  /\ within_frequency_caps [cap] FTFlight 20 (mkS "ns" 0) 11 100 100 = true
  /\ within_frequency_caps [cap] FTFlight 20 (mkS "ns" 0) 10 100 101 = true
  /\ within_frequency_caps [cap] FTFlight 21 (mkS "ns" 0) 10 100 100 = true.
Proof. vm_compute. intuition discriminate. Qed.

(** ** C26: segments *)
Theorem C26_segment_within : forall id seconds segs now,
  segs_ordered segs ->
  segment_within id seconds segs now = true <->
  exists s, find (fun s => sg_id s =? id)%Z segs = Some s
            /\ (now - seconds <= Z.quot (sg_ts s) 1000000)%Z.
Proof. exact segment_within_iff. Qed.
Print Assumptions C26_segment_within.
Theorem C26_segment_before : forall id seconds segs now,
  segs_ordered segs ->
  segment_before id seconds segs now = true <->
  exists s, find (fun s => sg_id s =? id)%Z segs = Some s
            /\ (Z.quot (sg_ts s) 1000000 < now - seconds)%Z.
Proof. exact segment_before_iff. Qed.
Print Assumptions C26_segment_before.
Example C26_case :
  let segs := [mkSeg 1 10000000; mkSeg 5 20000000] in
  segs_ordered segs
  /\ segment_within 5 20 segs 40 = true /\ segment_within 5 19 segs 40 = false
  /\ segment_before 5 19 segs 40 = true /\ segment_before 3 19 segs 40 = false.
Proof.
  split; [|vm_compute; auto]. simpl. repeat split; intros s' H; repeat destruct H as [<-|H]; simpl; try easy.
Qed.

(** ** C27: string predicates *)
Theorem C27_contains : forall v p,
  contains v p = true <-> exists a b, v = (a ++ p ++ b)%string.
Proof. exact contains_iff. Qed.
Print Assumptions C27_contains.
Theorem C27_starts_with : forall v p,
  starts_with v p = true <-> exists b, v = (p ++ b)%string.
Proof. exact starts_with_iff. Qed.
Print Assumptions C27_starts_with.
Theorem C27_ends_with : forall v p,
  ends_with v p = true <-> exists a, v = (a ++ p)%string.
Proof. exact ends_with_iff. Qed.
Print Assumptions C27_ends_with.
Example C27_case :
  contains "abcabd" "abd" = true /\ contains "abcab" "abd" = false
  /\ starts_with "abc" "ab" = true /\ ends_with "abc" "ab" = false /\ ends_with "abc" "bc" = true.
Proof. vm_compute. auto. Qed.

(** ** C22: predicate identity *)
(** The comparison is a total order (antisymmetric, transitive, equality is a congruence) on
    expressions without NaN literals. *)
Theorem C22_total_order : total_cmp expr_fin expr_cmp.
Proof. exact expr_total. Qed.
Print Assumptions C22_total_order.
(** Equal predicates evaluate alike on every event, whatever values the operands' numbers stand for. *)
Theorem C22_equal_means_same : forall (G : Geo) nowv V a b env,
  expr_fin a -> expr_fin b ->
  (forall g l, a = ELeaf g l -> leaf_std nowv l) -> (forall g l, b = ELeaf g l -> leaf_std nowv l) ->
  expr_cmp a b = Eq -> nodev V env a = nodev V env b.
Proof. exact @node_key_same. Qed.
Print Assumptions C22_equal_means_same.
Example C22_case :
  let a := ELeaf 7 (PCmp CLt (mkAV "i" 0) (CInt 3)) in
  let b := ELeaf 9 (PCmp CLt (mkAV "I" 0) (CInt 3)) in
  let c := ELeaf 9 (PCmp CLe (mkAV "i" 0) (CInt 3)) in
  expr_fin a /\ expr_fin b /\ expr_cmp a b = Eq /\ expr_cmp a c = Lt /\ expr_cmp c a = Gt.
Proof. vm_compute. repeat split; repeat constructor. Qed.

(** ** C04: sharing of results is transparent *)
(** If the numbering is consistent (every node's value is a function V of its number) and the table
    holds only correct results, evaluation with the table gives the value from scratch and
    leaves only correct results in the table. *)
Theorem C04_memo_eval : forall (G : Geo) V p m e s,
  mids_inj m -> numbered V p e -> memo_ok V m s ->
  agrees V m (eval p e) (match_node p m e s).
Proof. exact @match_node_eval. Qed.
Print Assumptions C04_memo_eval.

(** ** C23: the tree of predicates *)
(** Lookup finds an element equal to [x] if there is one. *)
Theorem C23_find : forall A (P : A -> Prop) cmp, total_cmp P cmp -> forall t x,
  P x -> Forall P (rb_elems t) -> sorted cmp (rb_elems t) ->
  match rb_find cmp t x with
  | Some y => In y (rb_elems t) /\ cmp y x = Eq
  | None => forall y, In y (rb_elems t) -> cmp y x <> Eq
  end.
Proof. exact @rb_find_correct. Qed.
Print Assumptions C23_find.
(** Insertion succeeds, keeps the tree ordered and red-black (black root, no red node below a red one,
    the same number of black nodes on every path), and adds exactly [x] unless an equal element is
    present. *)
Theorem C23_insert : forall A (P : A -> Prop) cmp, total_cmp P cmp -> forall t x,
  P x -> redblack t -> Forall P (rb_elems t) -> sorted cmp (rb_elems t) ->
  exists t', rb_insert cmp t x = Ok t' /\ redblack t' /\ sorted cmp (rb_elems t')
    /\ ((rb_elems t' = rb_elems t /\ exists y, In y (rb_elems t) /\ cmp y x = Eq)
        \/ (inserts x (rb_elems t) (rb_elems t') /\ forall y, In y (rb_elems t) -> cmp y x <> Eq)).
Proof. exact @rb_insert_ok. Qed.
Print Assumptions C23_insert.
(** Whole histories: inserting any sequence into the empty tree never fails and afterwards lookup
    succeeds exactly for elements equal to an inserted one; the height is logarithmic. *)
Theorem C23_history : forall A (P : A -> Prop) cmp, total_cmp P cmp -> forall xs,
  Forall P xs ->
  exists t, insert_all cmp RL xs = Ok t /\ redblack t /\ sorted cmp (rb_elems t)
    /\ (forall x, P x -> (rb_find cmp t x <> None <-> exists y, In y xs /\ cmp y x = Eq))
    /\ 2 ^ (height t / 2) <= S (List.length (rb_elems t)).
Proof. exact @rb_history. Qed.
Print Assumptions C23_history.
Example C23_case :
  total_cmp (fun _ => True) Z.compare
  /\ exists t, insert_all Z.compare RL [5; 1; 4; 2; 3; 9; 8; 7; 6]%Z = Ok t
     /\ rb_elems t = [1; 2; 3; 4; 5; 6; 7; 8; 9]%Z /\ rb_find Z.compare t 7%Z = Some 7%Z
     /\ rb_find Z.compare t 0%Z = None.
Proof. split; [exact Z_total|]. eexists. vm_compute. repeat split. Qed.
