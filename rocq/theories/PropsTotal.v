(** The calls that change a tree always finish.

    In the model a call gives [Ok], [Abort] (the C code calls abort), [UB] (undefined behaviour) or [Fuel]
    (the calls of space_partitioning and space_clustering nest deeper than [insert_fuel]).  The theorems say
    that the result is [Ok], so none of the other three happens.  [reach], [src_ok] and [fits] are those of
    PropsSearch.v.  The remaining hypotheses are needed, see C10_*_refuted in Refute.v:
    - no float range is split, or only ranges whose widths are whole numbers ([m <> Splits]): C10_float_split_refuted;
    - the width of a finite integer range is an int64_t ([narrow]): C10_width_refuted;
    - integer literals leave room for +1 and -1 ([src_ok]): C10_overflow_refuted;
    - the expression is well typed ([src_ok]): C10_untyped_refuted;
    - the leaf capacity modulo 256 is not 0: C10_capacity_refuted.
    [lower_names] is a limit of the model: for a name written with capitals get_attr_string_bound
    (ast.c 2674-2686) may find another variable, and reading the string bound of a boolean or float variable
    is not modelled. *)
From Coq Require Import ZArith NArith String Bool List Permutation.
From Verif Require Import Base Float Value Ast Config Assign Special Match Bound Tree PredMap Source Api Spec TreeSpec Hist Check Cases.
From Verif Require Import PropsSearch Refute TotalProofs PassTotal.
Import ListNotations.
Local Open Scope Z_scope.

Definition narrow_bound_b (b : bound) : bool :=
  match b with BInt _ lo hi => (lo =? INT64_MIN) || (hi =? INT64_MAX) || (hi - lo <=? INT64_MAX) | _ => true end.
Lemma narrow_b_ok c : forallb (fun d => narrow_bound_b (d_bound d)) (c_domains c) = true -> narrow c.
Proof.
  rewrite forallb_forall. intros H d Hd. specialize (H d Hd). unfold narrow_bound, narrow_bound_b in *.
  destruct (d_bound d); auto. apply orb_prop in H. destruct H as [H|H]; [apply orb_prop in H; destruct H as [H|H]|].
  - left. now apply Z.eqb_eq.
  - right. left. now apply Z.eqb_eq.
  - right. right. now apply Z.leb_le.
Qed.
Lemma lower_names_b_ok ds : forallb (fun d => String.eqb (lower (d_attr d)) (d_attr d)) ds = true -> lower_names ds.
Proof. rewrite forallb_forall. intros H. apply Forall_forall. intros d Hd. now apply String.eqb_eq, H. Qed.
Ltac total_fact := first [fact | apply narrow_b_ok; vm_compute; reflexivity | apply lower_names_b_ok; vm_compute; reflexivity].
Ltac total_facts := repeat match goal with |- _ /\ _ => split end; try total_fact.

(** ** C10 *)
Theorem C10_insert_finishes : forall (G : Geo) m ds t pend log id cs x,
  m <> Splits -> reach_in m ds t pend log -> lower_names ds -> narrow (bt_cfg t) -> c_cap (bt_cfg t) <> 0 ->
  src_ok ds cs x -> fits (bt_cfg t) false x -> ~ In id (ids_of pend log) ->
  exists inserted t', betree_insert_with_constants t id cs x = Ok (inserted, t').
Proof. exact (fun G m ds t pend log id cs x NS => @insert_total m (whole_other m NS) G ds t pend log id cs x). Qed.
Print Assumptions C10_insert_finishes.
Example C10_insert_case :
  reach case_ds case_t [] case_log /\ lower_names case_ds /\ narrow (bt_cfg case_t) /\ c_cap (bt_cfg case_t) = 1
  /\ src_ok case_ds [] case_new /\ fits (bt_cfg case_t) false case_new /\ ~ In 77 (ids_of [] case_log)
  /\ List.length (leaves_cnode (bt_root case_t)) = 16%nat
  /\ betree_insert_with_constants case_t 77 [] case_new = Ok (true, case_next).
Proof. total_facts. Qed.

Theorem C10_insert_sub_finishes : forall (G : Geo) m ds t pend s e pend' log,
  m <> Splits -> reach_in m ds t (pend ++ (s, e) :: pend') log -> narrow (bt_cfg t) -> c_cap (bt_cfg t) <> 0 ->
  exists t', betree_insert_sub t s = Ok t'.
Proof. exact (fun G m ds t pend s e pend' log NS => @insert_sub_total m (whole_other m NS) G ds t pend s e pend' log). Qed.
Print Assumptions C10_insert_sub_finishes.
Example C10_insert_sub_case :
  reach case_ds case_made_t [(case_made_sub, mkE 77 [] case_new)] case_log /\ narrow (bt_cfg case_made_t)
  /\ c_cap (bt_cfg case_made_t) = 1 /\ betree_insert_sub case_made_t case_made_sub = Ok case_made_t2.
Proof.
  total_facts. change ([(case_made_sub, mkE 77 [] case_new)]) with ([] ++ [(case_made_sub, mkE 77 [] case_new)]).
  eapply r_make; [exact case_reach| | |exact case_make|]; total_fact.
Qed.

Theorem C10_make_finishes : forall (G : Geo) m ds t pend log id cs x,
  reach_in m ds t pend log -> src_ok ds cs x -> fits (bt_cfg t) true x ->
  exists made t', betree_make_sub t id cs x = Ok (made, t').
Proof. exact (fun G m => @make_total m G). Qed.
Print Assumptions C10_make_finishes.
Example C10_make_case :
  reach case_ds case_t [] case_log /\ src_ok case_ds [] case_new /\ fits (bt_cfg case_t) true case_new
  /\ betree_make_sub case_t 77 [] case_new = Ok (Some case_made_sub, case_made_t).
Proof. total_facts. Qed.

Theorem C10_change_finishes : forall (G : Geo) m ds t pend log x,
  reach_in m ds t pend log -> src_ok ds [] x -> fits (bt_cfg t) true x ->
  exists t', betree_change_boundaries t x = Ok t'.
Proof. exact (fun G m => @change_boundaries_total m G). Qed.
Print Assumptions C10_change_finishes.
Example C10_change_case :
  reach case_ds case_t [] case_log /\ src_ok case_ds [] case_wider /\ fits (bt_cfg case_t) true case_wider
  /\ betree_change_boundaries case_t case_wider = Ok case_changed.
Proof. total_facts. Qed.
