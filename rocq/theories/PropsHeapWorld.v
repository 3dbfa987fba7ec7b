(** The memory of a whole program: a tree is made, calls are made with texts, the tree is released. *)
From Coq Require Import ZArith NArith Ascii String Bool List Permutation Lia ZifyBool ZifyNat ZifyN.
From Verif Require Import Base Float Value Ast Config Assign Special Match Bound Tree PredMap Source Api Spec TreeSpec Hist
  Linked LinkedSpec LinkedApi LinkedRun LinkedFrame BisonTables Machine MachineSpec PropsLinked PropsMachine Check Cases PropsSearch PropsText.
From Verif Require Import Ledger HeapExpr HeapSpec HeapConf HeapConfSpec HeapWorld HeapWorldSpec LedgerProofs HeapWorldProofs.
Import ListNotations.
Local Open Scope Z_scope.
Local Open Scope string_scope.
Local Open Scope list_scope.

Section WithGeo.
Context {G : Geo}.

(** A program that ends well on values ends well in memory, with the same answers and the same index: no block is used after it
    was released, none is released twice.  After the calls the blocks are those of the tree and [lost]; after the
    release they are those of the subscriptions the tree does not have, and [lost].  Nothing is lost when every call is clean. *)
Theorem C63_program cap minpart maxsplit ds n l rs q0 q h m r :
  p_make_tree cap minpart maxsplit ds = Ok q0 -> m_run n q0 l = Ok (rs, q) -> p_free n q = Ok h ->
  roomy_run n q0 l = true -> HeapSpec.holds m r ->
  exists w0 m0 w m1 us m2 lost,
    w_make cap minpart maxsplit ds m = Ok (w0, m0) /\ er_world w0 = q0 /\ HeapSpec.holds m0 (bl_world w0 ++ r) /\
    w_run n w0 l m0 = Ok ((rs, w), m1) /\ er_world w = q /\ HeapSpec.holds m1 (bl_world w ++ lost ++ r) /\
    w_free n w m1 = Ok ((h, us), m2) /\ paired us h /\ HeapSpec.holds m2 (bl_subs us ++ lost ++ r) /\
    (clean_run n q0 l = true -> lost = []).
Proof.
  intros E0 E1 E2 R H. destruct (world_make_ok cap minpart maxsplit ds q0 m r E0 H) as (w0 & m0 & X0 & A0 & W0 & l0 & L0 & H0).
  rewrite (L0 eq_refl) in H0. cbn [app] in H0. subst q0.
  destruct (run_ok n l w0 rs q m0 r E1 R W0 H0) as ([rs' w] & m1 & X1 & A1 & A2 & W1 & lost & L1 & H1). cbn [fst snd] in *. subst rs' q.
  destruct (world_free_ok n w h m1 (lost ++ r) E2 W1 H1) as ([h' us] & m2 & X2 & A3 & P & H2). cbn [fst snd] in *. subst h'.
  exists w0, m0, w, m1, us, m2, lost. repeat (split; [assumption || reflexivity|]). exact L1.
Qed.

(** So does a program of supported calls (C58): what is left are the subscriptions that were made and not inserted. *)
Theorem C63_supported fm cap minpart maxsplit ds0 l rs ds t ms log :
  supported fm cap minpart maxsplit ds0 l rs ds t ms log ->
  exists q0 fuel, p_make_tree cap minpart maxsplit ds0 = Ok q0 /\ forall n, (fuel <= n)%nat -> roomy_run n q0 l = true ->
    forall m r, HeapSpec.holds m r -> exists w0 m0 w m1 h us m2 lost,
      w_make cap minpart maxsplit ds0 m = Ok (w0, m0) /\ w_run n w0 l m0 = Ok ((rs, w), m1) /\ w_free n w m1 = Ok ((h, us), m2) /\
      Permutation (map snd (h_cells h)) (map (fun x => OSub (fst (fst x))) (filter (fun x => negb (snd (fst x))) ms)) /\
      paired us h /\ HeapSpec.holds m2 (bl_subs us ++ lost ++ r) /\ (clean_run n q0 l = true -> lost = []).
Proof.
  intros SU. destruct (C58_free _ _ _ _ _ _ _ _ _ _ _ SU) as (q0 & q & h & fuel & E0 & E1 & P).
  exists q0, fuel. split; [exact E0|]. intros n LE R m r H. destruct (E1 n LE) as (E2 & E3).
  destruct (C63_program cap minpart maxsplit ds0 n l rs q0 q h m r E0 E2 E3 R H) as (w0 & m0 & w & m1 & us & m2 & lost & X0 & _ & _ & X1 & _ & _ & X2 & PR & H2 & C).
  exists w0, m0, w, m1, h, us, m2, lost. repeat (split; [assumption|]). exact C.
Qed.
(** When every subscription that was made was inserted and every call is clean, all memory is given back. *)
Theorem C63_all_released fm cap minpart maxsplit ds0 l rs ds t ms log :
  supported fm cap minpart maxsplit ds0 l rs ds t ms log -> Forall (fun x => snd (fst x) = true) ms ->
  exists q0 fuel, p_make_tree cap minpart maxsplit ds0 = Ok q0 /\ forall n, (fuel <= n)%nat -> roomy_run n q0 l = true -> clean_run n q0 l = true ->
    forall m r, HeapSpec.holds m r -> exists w0 m0 w m1 h m2,
      w_make cap minpart maxsplit ds0 m = Ok (w0, m0) /\ w_run n w0 l m0 = Ok ((rs, w), m1) /\ w_free n w m1 = Ok ((h, []), m2) /\
      h_cells h = [] /\ HeapSpec.holds m2 r.
Proof.
  intros SU F. destruct (C63_supported _ _ _ _ _ _ _ _ _ _ _ SU) as (q0 & fuel & E0 & K). exists q0, fuel. split; [exact E0|].
  intros n LE R C m r H. destruct (K n LE R m r H) as (w0 & m0 & w & m1 & h & us & m2 & lost & X0 & X1 & X2 & P & PR & H2 & L).
  assert (N : filter (fun x : sub * bool * option entry => negb (snd (fst x))) ms = []).
  { clear - F. induction ms as [|x t IH]; [reflexivity|]. inversion F as [|? ? E F']; subst. cbn [filter]. rewrite E. exact (IH F'). }
  rewrite N in P. apply Permutation_sym, Permutation_nil in P. apply map_eq_nil in P.
  unfold paired, sview in PR. rewrite P in PR. apply Permutation_sym, Permutation_nil in PR. apply map_eq_nil in PR. subst us.
  rewrite (L C) in H2. exists w0, m0, w, m1, h, m2. repeat (split; [assumption|]). exact H2.
Qed.
End WithGeo.
Print Assumptions C63_program.
Print Assumptions C63_supported.
Print Assumptions C63_all_released.

(** The program of C58 without the text that is refused. *)
Definition wc_2 := mc_2 ++ [TMake 3 [] "i=9 and 'a' not in sl"].
Definition wc_3 := wc_2 ++ [TSearch case_event_text].
Definition wc_4 := wc_3 ++ [TChange "40 > i"].
Definition wc_5 := wc_4 ++ [TInsertSub 0].
Definition wc_replies : list reply := Eval cbv in
  [RBool true; RBool true; RBool true; RReport (fst mc_report) (snd mc_report); RBool true; RNone].
Lemma wc_supported : supported NoSplit 1 0 1000 case_ds wc_5 wc_replies case_ds case_x5 [(case_x3s, true, Some mc_e3)] case_text_log.
Proof.
  pose proof (s_start NoSplit 1 0 1000 case_ds ltac:(apply decls_ok_b_ok; vm_compute; reflexivity) ltac:(split; vm_compute; congruence) ltac:(fact)) as S0.
  pose proof (s_insert _ _ _ _ _ _ _ _ _ _ _ 1 [] case_text case_text_src case_x1 S0 ltac:(readable) ltac:(read) ltac:(fact) ltac:(fact) ltac:(vm_compute; reflexivity)) as S1.
  pose proof (s_insert _ _ _ _ _ _ _ _ _ _ _ 2 case_cs "within_frequency_cap('flight',""ns"", 10 ,100)" (XAtom (AFreq "flight" "ns" 10 100)) case_x2
    S1 ltac:(readable) ltac:(read) ltac:(fact) ltac:(fact) ltac:(vm_compute; reflexivity)) as S2.
  pose proof (s_make _ _ _ _ _ _ _ _ _ _ _ 3 [] "i=9 and 'a' not in sl" (e_src mc_e3) case_x3s case_x3t
    S2 ltac:(readable) ltac:(read) ltac:(fact) ltac:(fact) ltac:(vm_compute; reflexivity) ltac:(fact)) as S4.
  pose proof (s_search _ _ _ _ _ _ _ _ _ _ _ case_event_text (fst mc_report) (snd mc_report) S4 ltac:(vm_compute; reflexivity) ltac:(vm_compute; reflexivity)) as S5.
  pose proof (s_change _ _ _ _ _ _ _ _ _ _ _ "40 > i" (XAtom (ACmp CLt "i" (CInt 40))) true case_x4
    S5 ltac:(readable) ltac:(read) ltac:(fact) ltac:(fact) ltac:(vm_compute; reflexivity) ltac:(fact)) as S6.
  pose proof (s_insert_sub _ _ _ _ _ _ _ _ _ _ _ 0%nat case_x3s mc_e3 case_x5 S6 ltac:(reflexivity) ltac:(vm_compute; reflexivity)) as S7.
  exact S7.
Qed.
(** Blocks at the start, after the calls and after the release, with the structs of the index; what is left of subscriptions. *)
Definition counts (l : list tcall) : option (list (nat * nat) * list N) :=
  match w_make 1 0 1000 case_ds (mkLedger 1 []) with
  | Ok (w0, m0) =>
      match w_run 40 w0 l m0 with
      | Ok (_, w, m1) =>
          match w_free 40 w m1 with
          | Ok (h, us, m2) => Some (map (fun x => (List.length (l_live (fst x)), List.length (h_cells (snd x)))) [(m0, w_heap w0); (m1, w_heap w); (m2, h)], map fst us)
          | _ => None
          end
      | _ => None
      end
  | _ => None
  end.
Definition start : pstate := match p_make_tree 1 0 1000 case_ds with Ok q => q | _ => mkP (make_config 0 0) make_pred_map 0 (mkH 1 []) [] end.
Example C63_case :
  supported NoSplit 1 0 1000 case_ds wc_5 wc_replies case_ds case_x5 [(case_x3s, true, Some mc_e3)] case_text_log /\
  p_make_tree 1 0 1000 case_ds = Ok start /\
  roomy_run 40 start wc_5 = true /\ clean_run 40 start wc_5 = true /\ counts wc_5 = Some ([(29%nat, 2%nat); (90%nat, 22%nat); (0%nat, 0%nat)], []) /\
  (* the subscription that was made is not inserted *)
  counts wc_4 = Some ([(29%nat, 2%nat); (90%nat, 15%nat); (9%nat, 1%nat)], [17%N]) /\
  (* a refused text *)
  clean_run 40 start mc_7 = false /\ counts mc_7 = Some ([(29%nat, 2%nat); (91%nat, 22%nat); (1%nat, 0%nat)], []).
Proof. split; [exact wc_supported|]. split; [vm_compute; reflexivity|]. repeat split; vm_compute; reflexivity. Qed.
