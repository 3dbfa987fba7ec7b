(** Claims about the memory of whole programs that fail. *)
From Coq Require Import ZArith NArith Ascii String Bool List Permutation Lia ZifyBool ZifyNat ZifyN.
From Verif Require Import Base Float Value Ast Config Assign Special Match Bound Tree PredMap Source Api
  Linked LinkedSpec LinkedApi BisonTables Machine Cases.
From Verif Require Import Ledger HeapExpr HeapSpec HeapConf HeapConfSpec HeapWorld HeapWorldSpec.
Import ListNotations.
Local Open Scope Z_scope.
Local Open Scope string_scope.
Local Open Scope list_scope.

Definition world_start (ds : list domain) : pstate :=
  match p_make_tree 1 0 1000 ds with Ok q => q | _ => mkP (make_config 0 0) make_pred_map 0 (mkH 1 []) [] end.
Definition ended (n : nat) (ds : list domain) (l : list tcall) : list reply * pstate :=
  match m_run n (world_start ds) l with Ok x => x | _ => ([], world_start ds) end.
Definition index_left (n : nat) (q : pstate) : heap := match p_free n q with Ok h => h | _ => mkH 0 [] end.

(** A program whose texts can all be read gives back all memory: not when a constant is missing.  betree_insert_with_constants
    (betree.c 492-495) returns without releasing the expression. *)
Definition no_constant : list tcall := [TInsert 2 [] "within_frequency_cap('flight',""ns"", 10 ,100)"].
Theorem C63_constants_refuted :
  ~ (forall cap minpart maxsplit ds n l rs q0 q h m r,
      p_make_tree cap minpart maxsplit ds = Ok q0 -> m_run n q0 l = Ok (rs, q) -> p_free n q = Ok h ->
      roomy_run n q0 l = true -> Forall (fun k => match k with TInsert _ _ s => exists e, parse_c s = Ok (Some e) | _ => False end) l ->
      HeapSpec.holds m r ->
      exists w0 m0 w m1 us m2, w_make cap minpart maxsplit ds m = Ok (w0, m0) /\ w_run n w0 l m0 = Ok ((rs, w), m1) /\
        w_free n w m1 = Ok ((h, us), m2) /\ HeapSpec.holds m2 (bl_subs us ++ r)).
Proof.
  intros C. destruct (C 1 0 1000 case_ds 40%nat no_constant (fst (ended 40 case_ds no_constant)) (world_start case_ds) (snd (ended 40 case_ds no_constant))
    (index_left 40 (snd (ended 40 case_ds no_constant))) (mkLedger 1 []) []) as (w0 & m0 & w & m1 & us & m2 & E0 & E1 & E2 & H).
  - vm_compute. reflexivity.
  - vm_compute. reflexivity.
  - vm_compute. reflexivity.
  - vm_compute. reflexivity.
  - repeat constructor. eexists. vm_compute. reflexivity.
  - repeat split; constructor.
  - vm_compute in E0. injection E0 as <- <-. vm_compute in E1. injection E1 as <- <-. vm_compute in E2. injection E2 as <- <-.
    destruct H as (_ & P & _). apply Permutation_length in P. discriminate P.
Qed.
Print Assumptions C63_constants_refuted.

(** A program that ends well on values ends well in memory: not when two variables may have no strings.  free_config releases what the
    second table points to, which was never set (C62_zero_refuted). *)
Definition two_empty_ds : list domain := [mkD "a" (dom_bounded_s 0) false; mkD "b" (dom_bounded_s 0) false].
Definition two_empty_texts : list tcall := [TInsert 1 [] "a = ""x"""; TInsert 2 [] "b = ""y"""].
Theorem C63_zero_refuted :
  ~ (forall cap minpart maxsplit ds n l rs q0 q h m r,
      p_make_tree cap minpart maxsplit ds = Ok q0 -> m_run n q0 l = Ok (rs, q) -> p_free n q = Ok h -> HeapSpec.holds m r ->
      exists w0 m0 w m1 x, w_make cap minpart maxsplit ds m = Ok (w0, m0) /\ w_run n w0 l m0 = Ok ((rs, w), m1) /\ w_free n w m1 = Ok x).
Proof.
  intros C. destruct (C 1 0 1000 two_empty_ds 40%nat two_empty_texts (fst (ended 40 two_empty_ds two_empty_texts)) (world_start two_empty_ds)
    (snd (ended 40 two_empty_ds two_empty_texts)) (index_left 40 (snd (ended 40 two_empty_ds two_empty_texts))) (mkLedger 1 []) [])
    as (w0 & m0 & w & m1 & x & E0 & E1 & E2).
  - vm_compute. reflexivity.
  - vm_compute. reflexivity.
  - vm_compute. reflexivity.
  - repeat split; constructor.
  - vm_compute in E0. injection E0 as <- <-. vm_compute in E1. injection E1 as <- <-. vm_compute in E2. discriminate E2.
Qed.
Print Assumptions C63_zero_refuted.
