(** The memory of programs that build event objects, constants and reports call by call. *)
From Coq Require Import ZArith NArith Ascii String Bool List Permutation Lia ZifyBool ZifyNat ZifyN.
From Verif Require Import Base Float Value Ast Config Assign Special Match Bound Tree PredMap Source Api EventObj Spec TreeSpec Hist
  Linked LinkedSpec LinkedApi BisonTables Machine ObjProgram Check Cases PropsSearch PropsObjects PropsText.
From Verif Require Import Ledger HeapExpr HeapSpec HeapEvent HeapEventSpec HeapConf HeapConfSpec HeapWorld HeapWorldSpec HeapObj HeapObjSpec
  PermTac LedgerProofs HeapProofs HeapWorldProofs HeapObjProofs HeapObjRun.
Import ListNotations.
Local Open Scope Z_scope.
Local Open Scope string_scope.
Local Open Scope list_scope.

(** After its last call the caller releases what it still has. *)
Definition in_hand (x : hitem) : bool := match x with JNull | JGone => false | _ => true end.
Definition release (l : list hitem) : cmd unit := each h_free_item (filter in_hand l).

(** Whatever pointers the caller has, each can be released, and their blocks are then gone. *)
Theorem C65_release : forall its m l, HeapSpec.holds m (bl_items its ++ l) ->
  exists m', release its m = Ok (tt, m') /\ HeapSpec.holds m' l.
Proof.
  unfold release. induction its as [|x t IH]; intros m l H; cbn [filter each bl_items flat_map] in *; [now exists m|].
  fold (bl_items t) in H. rewrite <- app_assoc in H. destruct (in_hand x) eqn:E.
  - cbn [each]. assert (W : wp (h_free_item x) m (fun _ m' => HeapSpec.holds m' (bl_items t ++ l))).
    { eapply free_item_ok; [intros ->; discriminate|intros ->; discriminate|exact H|reflexivity|]. now intros m' H'. }
    destruct W as ([] & m1 & E1 & H1). destruct (IH m1 l H1) as (m2 & E2 & H2). exists m2. split; [|exact H2]. unfold then_. now rewrite E1.
  - assert (E0 : bl_item x = []) by (destruct x; cbn in E |- *; congruence). rewrite E0 in H. cbn [app] in H. exact (IH m l H).
Qed.
Print Assumptions C65_release.

Section WithGeo.
Context {G : Geo}.

(** A program that ends well on values ends well in memory, with the same answers, the same index and the same objects: no
    block is used after it was released, none is released twice.  After the calls the blocks are those of the tree, those of
    the pointers of the caller and [lost]; after the release of the tree the pointers can be released.  Nothing is lost when
    every call is clean. *)
Theorem C65_program cap minpart maxsplit ds n l rs q0 s h m r :
  p_make_tree cap minpart maxsplit ds = Ok q0 -> x_run n (q0, []) l = Ok (rs, s) -> p_free n (fst s) = Ok h ->
  x_roomy_run n (q0, []) l = true -> HeapSpec.holds m r ->
  exists w0 m0 x m1 us m2 m3 lost,
    w_make cap minpart maxsplit ds m = Ok (w0, m0) /\ er_world w0 = q0 /\ HeapSpec.holds m0 (bl_world w0 ++ r) /\
    hx_run n (w0, []) l m0 = Ok ((rs, x), m1) /\ er_x x = s /\ HeapSpec.holds m1 (bl_world (fst x) ++ bl_items (snd x) ++ lost ++ r) /\
    w_free n (fst x) m1 = Ok ((h, us), m2) /\ paired us h /\ HeapSpec.holds m2 (bl_subs us ++ bl_items (snd x) ++ lost ++ r) /\
    release (snd x) m2 = Ok (tt, m3) /\ HeapSpec.holds m3 (bl_subs us ++ lost ++ r) /\
    (x_clean_run n (q0, []) l = true -> lost = []).
Proof.
  intros E0 E1 E2 R H. destruct (world_make_ok cap minpart maxsplit ds q0 m r E0 H) as (w0 & m0 & X0 & A0 & W0 & l0 & L0 & H0).
  rewrite (L0 eq_refl) in H0. cbn [app] in H0. subst q0.
  assert (H0' : HeapSpec.holds m0 (bl_x (w0, []) ++ r)) by (unfold bl_x; cbn [fst snd bl_items flat_map]; now rewrite app_nil_r).
  destruct (x_run_ok n l (w0, []) rs s m0 r E1 R (conj W0 (Forall_nil _)) H0') as ([rs' [w its]] & m1 & X1 & A1 & A2 & (W1 & F1) & lost & L1 & H1).
  unfold bl_x in H1. cbn [fst snd] in *. subst rs' s. unfold er_x in E2. cbn [fst snd] in E2. rewrite <- app_assoc in H1.
  destruct (world_free_ok n w h m1 _ E2 W1 H1) as ([h' us] & m2 & X2 & A3 & P & H2). cbn [fst snd] in *. subst h'.
  destruct (C65_release its m2 (bl_subs us ++ lost ++ r)) as (m3 & X3 & H3); [eapply HeapSpec_perm; [exact H2|perm]|].
  exists w0, m0, (w, its), m1, us, m2, m3, lost. cbn [fst snd]. repeat (split; [assumption || reflexivity|]). exact L1.
Qed.
(** When no subscription is left outside the tree and every call is clean, all memory is given back. *)
Theorem C65_all_released cap minpart maxsplit ds n l rs q0 s h m r :
  p_make_tree cap minpart maxsplit ds = Ok q0 -> x_run n (q0, []) l = Ok (rs, s) -> p_free n (fst s) = Ok h -> h_cells h = [] ->
  x_roomy_run n (q0, []) l = true -> x_clean_run n (q0, []) l = true -> HeapSpec.holds m r ->
  exists w0 m0 x m1 m2 m3,
    w_make cap minpart maxsplit ds m = Ok (w0, m0) /\ hx_run n (w0, []) l m0 = Ok ((rs, x), m1) /\
    w_free n (fst x) m1 = Ok ((h, []), m2) /\ release (snd x) m2 = Ok (tt, m3) /\ HeapSpec.holds m3 r.
Proof.
  intros E0 E1 E2 E3 R C H.
  destruct (C65_program cap minpart maxsplit ds n l rs q0 s h m r E0 E1 E2 R H) as (w0 & m0 & x & m1 & us & m2 & m3 & lost & X0 & _ & _ & X1 & _ & _ & X2 & PR & _ & X3 & H3 & L).
  unfold paired, sview in PR. rewrite E3 in PR. apply Permutation_sym, Permutation_nil in PR. apply map_eq_nil in PR. subst us.
  rewrite (L C) in H3. exists w0, m0, x, m1, m2, m3. repeat (split; [assumption|]). exact H3.
Qed.
End WithGeo.
Print Assumptions C65_program.
Print Assumptions C65_all_released.

(** The object of C45 as calls: pointers 0-20; a constant; two searches with the same report and object. *)
Definition xc_build : list xcall := map XObj
  [OStrs 2; OAddStr 0 1 "b"; OAddStr 0 0 "zz"; OStrsVar "sl" 0;          (* 0, 1 *)
   OInts 3; OAddInt 2 1 5; OIntsVar "il" 2;                               (* 2, 3 *)
   OSeg 3 90000000; OSegs 1; OAddSeg 5 0 4; OSegsVar "segments_with_timestamp" 5;       (* 4, 5, 6 *)
   OCap "flight" 20 "ns" true 0 9; OCaps 1; OAddCap 8 0 7; OCapsVar "frequency_caps" 8; (* 7, 8, 9 *)
   OIntVar "I" 9; OStrVar "s" "hello"; OIntVar "now" 100; OEvent].        (* 10, 11, 12, 13 *)
Definition xc_set : list xcall := map XObj
  [OSetVar 13 3 1; OSetVar 13 0 3; OSetVar 13 7 6; OSetVar 13 8 9; OSetVar 13 1 10; OSetVar 13 2 11; OSetVar 13 11 12].
Definition xc_consts : list xcall := map XObj [OConst "campaign_id" 20; OConst "flight_id" 20; OConst "advertiser_id" 1; OReport]. (* 14-17 *)
Definition xc_use : list xcall :=
  [XInsert 2 [14%nat; 15%nat; 16%nat] "within_frequency_cap('flight',""ns"", 10 ,100)"; XInsert 1 [] "i=9 or sl one of ('q')";
   XSearchEvent 13 17; XInsert 5 [] "sl one of ('zz')"; XExistsEvent 13; XSearch case_event_text 17; XSearchEvent 13 17].
Definition xc_all := xc_build ++ xc_set ++ xc_consts ++ xc_use.
Definition x_start : xstate := match p_make_tree 1 0 1000 case_ds with Ok q => (q, []) | _ => (mkP (make_config 0 0) make_pred_map 0 (mkH 1 []) [], []) end.
Definition x_counts (l : list xcall) : option (list nat) :=
  match w_make 1 0 1000 case_ds (mkLedger 1 []) with
  | Ok (w0, m0) =>
      match hx_run 40 (w0, []) l m0 with
      | Ok (_, x, m1) =>
          match w_free 40 (fst x) m1 with
          | Ok (_, _, m2) => match release (snd x) m2 with Ok (_, m3) => Some (map (fun m => List.length (l_live m)) [m0; m1; m2; m3]) | _ => None end
          | _ => None
          end
      | _ => None
      end
  | _ => None
  end.
Definition x_answers (l : list xcall) : list (bool * list Z) :=
  match x_run 40 x_start l with
  | Ok (rs, _) => flat_map (fun a => match a with RReport b r => [(b, r_subs r)] | RBool b => [(b, [])] | RNone => [] end) rs
  | _ => []
  end.
Definition x_index_left (l : list xcall) : option nat :=
  match x_run 40 x_start l with Ok (_, s) => match p_free 40 (fst s) with Ok h => Some (List.length (h_cells h)) | _ => None end | _ => None end.
(** An object without its variables is refused; the variable that is set again at the same place. *)
Definition xc_refused := xc_build ++ xc_consts ++ [XSearchEvent 13 17].
Definition xc_twice := xc_build ++ xc_set ++ map XObj [OStrVar "s" "other"; OSetVar 13 2 14].
Example C65_case :
  p_make_tree 1 0 1000 case_ds = Ok (fst x_start) /\ snd x_start = [] /\
  x_roomy_run 40 x_start xc_all = true /\ x_clean_run 40 x_start xc_all = true /\ x_index_left xc_all = Some 0%nat /\
  x_answers xc_all = [(true, []); (true, []); (true, [2; 1]); (true, []); (true, []); (true, [2; 1; 2; 1]); (true, [2; 1; 2; 1; 2; 1; 5])] /\
  (* blocks at the start, after the calls, after the release of the tree, after the release of the pointers *)
  x_counts xc_all = Some [29; 105; 37; 0]%nat /\
  x_clean_run 40 x_start xc_refused = false /\ x_answers xc_refused = [(false, [])] /\ x_counts xc_refused = Some [29; 67; 38; 1]%nat /\
  x_clean_run 40 x_start xc_twice = false /\ x_counts xc_twice = Some [29; 62; 33; 3]%nat /\
  (* nothing may be released twice, nor what was given to an event *)
  x_run 40 x_start (xc_all ++ map XObj [OFree 13; OFree 13]) = UB /\ x_run 40 x_start (xc_all ++ map XObj [OFree 12]) = UB /\
  x_counts (xc_all ++ map XObj [OFree 13; OFree 17; OFree 14]) = Some [29; 72; 4; 0]%nat.
Proof. repeat split; vm_compute; reflexivity. Qed.
