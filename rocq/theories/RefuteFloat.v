(** Near misses of constants when float ranges are split. *)
From Coq Require Import ZArith NArith String Bool List Permutation.
From Verif Require Import Base Float Value Ast Config Assign Special Match Bound Tree PredMap Source Api Spec TreeSpec Hist Check Cases.
From Verif Require Import PropsSearch PropsFloatRange.
Import ListNotations.
Local Open Scope Z_scope.
Local Open Scope string_scope.

(** A near miss: for the evaluation a share of 1 - 2^-53 is equal to 1, but `share = 1` is kept with the range [1, 1],
    which the search does not enter. *)
Theorem C53_near_miss_refuted : exists ds t log ev e r,
  reach_in Splits ds t [] log /\ few_preds t /\ event_ok ds ev /\ complete ds ev
  /\ In e log /\ sem (e_cs e) ev (e_src e) = true /\ ~ clear (c_domains (bt_cfg t)) ev (e_src e)
  /\ betree_search t ev make_report = Ok (true, r) /\ ~ In (e_id e) (r_subs r).
Proof.
  exists price_ds, price_t, price_log, (price_ev (half 7) (Some (fsub (f_of_Z 1) (fdiv DBL_EPSILON (f_of_Z 2))))),
    (mkE 8 [] (XAtom (AEq QEq "share" (SInt 1)))). eexists.
  split; [exact price_reach|]. split; [fact|]. split; [fact|]. split; [fact|]. split; [vm_compute; tauto|]. split; [vm_compute; reflexivity|].
  split; [|split; [vm_compute; reflexivity|vm_compute; intuition discriminate]].
  intros K. inversion K as [|? ? H _]; subst. clear K.
  destruct (H "share" (f_of_Z 1) (fsub (f_of_Z 1) (fdiv DBL_EPSILON (f_of_Z 2))) _ _ eq_refl eq_refl) as (_ & _ & A).
  - apply finite_range_b_iff. vm_compute. reflexivity.
  - reflexivity.
  - revert A. vm_compute. intuition discriminate.
Qed.
Print Assumptions C53_near_miss_refuted.

(** The range [0, 1] becomes [0, 0] and [1, 1]: 1/2 lies in neither. *)
Theorem C21_float_gap_refuted : exists lo hi l r f,
  split_value_bound (BFloat lo hi) = Ok (l, r) /\ fleb lo f = true /\ fleb f hi = true
  /\ is_atomic (BFloat lo hi) = Ok false
  /\ forall a b, (l = BFloat a b \/ r = BFloat a b) -> fleb a f && fleb f b = false.
Proof.
  exists (f_of_Z 0), (f_of_Z 1), (BFloat (f_of_Z 0) (f_of_Z 0)), (BFloat (f_of_Z 1) (f_of_Z 1)), (half 1).
  split; [vm_compute; reflexivity|]. split; [vm_compute; reflexivity|]. split; [vm_compute; reflexivity|]. split; [vm_compute; reflexivity|].
  intros a b [H|H]; injection H as <- <-; vm_compute; reflexivity.
Qed.
Print Assumptions C21_float_gap_refuted.

(** The middle of the range [2^53, 2^53+2] is rounded to its lower end, so the upper half is the range itself. *)
Definition wide_x : src := XAtom (AEq QEq "f" (SFlt (f_of_Z (2 ^ 53 + 2)))).
Definition wide_t0 : betree := make_tree 1 0 1000 [mkD "f" (BFloat (f_of_Z (2 ^ 53)) (f_of_Z (2 ^ 53 + 2))) false].
Definition wide_b : bound := Eval vm_compute in BFloat (f_of_Z (2 ^ 53)) (f_of_Z (2 ^ 53 + 2)).
Definition wide_t : betree := Eval vm_compute in match betree_insert wide_t0 1 wide_x with Ok (_, t) => t | _ => wide_t0 end.
Definition wide_r : betree := Eval vm_compute in match betree_make_sub wide_t 2 [] wide_x with Ok (_, t) => t | _ => wide_t end.
Definition wide_s (id : Z) : sub := mkSub id (ELeaf 0 (PEq QEq (mkAV "f" 0) (QFloat (f_of_Z (2 ^ 53 + 2))))) [1%N] [0%N] [0%N].
Definition wide_c : config := Eval vm_compute in bt_cfg wide_r.
Definition wide_ss : list sub := Eval vm_compute in [wide_s 1; wide_s 2].
Lemma wide_clustering n : space_clustering n wide_c [0%N] 0%N (CLeaf wide_b (make_cnode wide_c wide_ss)) = Fuel.
Proof.
  induction n as [|n IH]; [reflexivity|].
  cbn [space_clustering].
  replace (overflowed (cd_cnode (CLeaf wide_b (make_cnode wide_c wide_ss)))) with true by (vm_compute; reflexivity).
  replace (is_atomic wide_b) with (Ok false) by (vm_compute; reflexivity).
  replace (split_value_bound wide_b) with (Ok (BFloat (f_of_Z (2 ^ 53)) (f_of_Z (2 ^ 53)), wide_b)) by (vm_compute; reflexivity).
  cbn [negb bind]. unfold make_cnode at 1.
  match goal with |- context [distribute ?f ?a ?b ?c ?d] => replace (distribute f a b c d) with (Ok (@nil sub, @nil sub, wide_ss)) by (vm_compute; reflexivity) end.
  cbn [bind]. rewrite IH.
  destruct n as [|n]; [reflexivity|]. cbn [space_partitioning space_clustering].
  match goal with |- context [negb (overflowed ?x)] => replace (overflowed x) with false by (vm_compute; reflexivity) end. cbn [negb].
  match goal with |- context [update_capacity ?x ?y] => destruct (update_capacity x y) eqn:U; try (vm_compute in U; discriminate U) end. cbn [bind].
  replace (overflowed (cd_cnode _)) with false by (vm_compute; reflexivity). reflexivity.
Qed.
(** Whatever the number of rounds, inserting a second subscription needs more. *)
Theorem C10_float_forever_refuted : exists t t' s,
  betree_insert (make_tree 1 0 1000 [mkD "f" (BFloat (f_of_Z (2 ^ 53)) (f_of_Z (2 ^ 53 + 2))) false]) 1 wide_x = Ok (true, t)
  /\ betree_make_sub t 2 [] wide_x = Ok (Some s, t')
  /\ forall n, insert_root n (bt_cfg t') s (bt_root t') = Fuel.
Proof.
  exists wide_t, wide_r, (wide_s 2).
  split; [vm_compute; reflexivity|]. split; [vm_compute; reflexivity|].
  intros [|n]; [vm_compute; reflexivity|].
  unfold insert_root.
  destruct (bt_root wide_r) as [m l p] eqn:R. vm_compute in R. injection R as <- <- <-.
  change (bt_cfg wide_r) with wide_c.
  match goal with |- context [find_partition ?a ?b ?c ?d] => replace (find_partition a b c d) with (Ok (@None N)) by (vm_compute; reflexivity) end.
  cbn [bind space_partitioning].
  match goal with |- context [negb (overflowed ?x)] => replace (overflowed x) with true by (vm_compute; reflexivity) end. cbn [negb].
  match goal with |- context [next_highest ?a ?b ?c] => replace (next_highest a b c) with (Ok (Some 0%N)) by (vm_compute; reflexivity) end.
  cbn [bind].
  match goal with |- context [if ?x then _ else _] => replace x with false by (vm_compute; reflexivity) end.
  match goal with |- context [get_domain ?a ?b] => replace (get_domain a b) with (Ok (mkD "f" wide_b false)) by (vm_compute; reflexivity) end.
  cbn [bind d_bound].
  match goal with |- context [distribute ?f ?a ?b ?c ?d] => replace (distribute f a b c d) with (Ok (@nil sub, wide_ss, @nil sub)) by (vm_compute; reflexivity) end.
  cbn [bind]. rewrite wide_clustering. reflexivity.
Qed.
Print Assumptions C10_float_forever_refuted.
