(** A concrete world used to show that the hypotheses of the theorems are met by non-trivial cases. *)
From Coq Require Import ZArith NArith String Bool List.
From Verif Require Import Base Float Value Ast Config Assign Special Match Bound Tree PredMap Source Api Spec TreeSpec Hist Check.
Import ListNotations.
Local Open Scope Z_scope.
Local Open Scope string_scope.

Global Instance case_geo : Geo := fun lat lon x y r => fltb (fabs (fsub lat x)) r && fltb (fabs (fsub lon y)) r.

Definition case_ds : list domain :=
  [ mkD "b" (BBool false true) true;
    mkD "i" (BInt false 0 10) false;
    mkD "s" (BStr TStr 0 5) true;
    mkD "il" (BInt true 0 20) true;
    mkD "f" (BFloat (fopp DBL_MAX) DBL_MAX) true;
    mkD "ie" (BStr TIEnum 0 (SIZE_MAX - 1)) true;
    mkD "sl" (BStr TStrList 0 6) true;
    mkD "frequency_caps" BFreqs true;
    mkD "now" (BInt false INT64_MIN INT64_MAX) false;
    mkD "segments_with_timestamp" BSegs true;
    mkD "latitude" (BFloat (fopp DBL_MAX) DBL_MAX) true;
    mkD "longitude" (BFloat (fopp DBL_MAX) DBL_MAX) true ].

Definition i_eq z := XAtom (AEq QEq "i" (SInt z)).
Definition case_cs : constants := [("flight_id", VInt 20)].
Definition case_ops : list op :=
  [ OInsert 1 [] (i_eq 1);
    OInsert 2 [] (i_eq 2);
    OInsert 3 [] (XAnd (i_eq 3) (XAtom (AVar "b")));
    OInsert 4 [] (XAtom (ACmp CGt "I" (CInt 7)));
    OInsert 5 [] (XOr (i_eq 4) (XAtom (AEq QEq "s" (SStr "x"))));
    OInsert 6 [] (XAtom (AIn SIn "i" (SInts [9; 2; 9])));
    OInsert 7 [] (XNot (XAtom (AVar "b")));
    OInsert 8 [] (XAtom (AList LAllOf "il" (SInts [3; 1])));
    OInsert 9 case_cs (XAtom (AFreq "flight" "ns" 10 100));
    OInsert 10 [] (XAtom (AFreq "flight" "ns" 10 100));   (* refused: no constant *)
    OInsert 11 [] (XAtom (AVar "unknown"));                 (* refused: not declared *)
    OMake 12 [] (XAnd (XAtom (AIn SNotIn "s" (SStrs ["y"; "x"]))) (XNot (i_eq 5)));
    OMake 13 [] (XAtom (AHas SIn (SStr "a") "sl"));
    OInsertSub 1%nat;
    OChange (XAtom (ACmp CLe "i" (CInt 12)));
    OInsert 14 [] (XAnd (XAtom (AVar "b")) (XOr (i_eq 1) (XAtom (ACmp CLt "f" (CFloat (f_of_Z 2))))));
    OInsert 15 [] (XAtom (AEq QEq "ie" (SInt 7)));
    OInsert 16 [] (XAnd (XAtom (ASeg SegWithin None 3 20)) (XAtom (AStr StContains "s" "ell")));
    OInsertSub 0%nat ].

Definition state_of (cap minpart maxsplit : Z) (ops : list op) : state :=
  match run case_ds cap minpart maxsplit ops with
  | Some st => st
  | None => (make_tree cap minpart maxsplit case_ds, [], [])
  end.
Definition case_t : betree := Eval vm_compute in fst (fst (state_of 1 0 1000 case_ops)).
Definition case_log : list entry := Eval vm_compute in snd (state_of 1 0 1000 case_ops).
Lemma case_reach : reach case_ds case_t [] case_log.
Proof. apply (run_reach _ 1 0 1000 case_ops). vm_compute. reflexivity. Qed.

(** The same calls, other parameters. *)
Definition case_t' : betree := Eval vm_compute in fst (fst (state_of 3 2 5 case_ops)).
Lemma case_reach' : reach case_ds case_t' [] case_log.
Proof. apply (run_reach _ 3 2 5 case_ops). vm_compute. reflexivity. Qed.

(** `and` and `or` below `not`. *)
Definition case_not_ops : list op :=
  [ OInsert 1 [] (XNot (XAnd (XAtom (AEq QEq "s" (SStr "x"))) (i_eq 1)));
    OInsert 2 [] (XNot (XOr (XAtom (ANull NIsNull "s")) (XAtom (ANull NIsNull "il"))));
    OInsert 3 [] (XNot (XAnd (XAnd (XAtom (AIn SIn "s" (SStrs ["hello"]))) (XAtom (AEq QEq "f" (SInt 3)))) (XNot (XAtom (ANull NIsNull "b")))));
    OInsert 4 [] (XNot (XOr (XAtom (ACmp CLt "i" (CInt 3))) (XNot (XAtom (AEq QEq "s" (SStr "hello"))))));
    OInsert 5 [] (XNot (XNot (XAnd (i_eq 9) (XNot (XAnd (i_eq 9) (XAtom (AHas SIn (SInt 4) "il")))))));
    OInsert 6 [] (i_eq 2); OInsert 7 [] (i_eq 8) ].
Definition case_not_t : betree := Eval vm_compute in fst (fst (state_of 1 0 1000 case_not_ops)).
Definition case_not_log : list entry := Eval vm_compute in snd (state_of 1 0 1000 case_not_ops).
Lemma case_not_reach : reach case_ds case_not_t [] case_not_log.
Proof. apply (run_reach _ 1 0 1000 case_not_ops). vm_compute. reflexivity. Qed.

Definition str s := mkS s 0.
Definition case_ev1 : event := [("i", Some (VInt 1)); ("b", Some (VBool true)); ("now", Some (VInt 100)); ("s", None)].
Definition case_ev2 : event :=
  [("now", Some (VInt 100)); ("I", Some (VInt 9)); ("s", Some (VStr (str "hello"))); ("il", Some (VIntList [5; 3; 1; 3]));
   ("sl", Some (VStrList [str "q"; str "a"])); ("ie", Some (VInt 7)); ("segments_with_timestamp", Some (VSegs [mkSeg 3 90000000]));
   ("frequency_caps", Some (VFreqs [mkCap FTFlight 20 (str "ns") true 0 9]))].
(** Without the required variable i. *)
Definition case_ev3 : event := [("now", Some (VInt 100)); ("i", None)].

Definition answer (r : result (bool * report)) : list Z := match r with Ok (true, r) => r_subs r | _ => [] end.
Definition same_ids (a b : list Z) : bool :=
  forallb (fun x => memZ x b) a && forallb (fun x => memZ x a) b && (List.length a =? List.length b)%nat.

(** Trees made by insertions only. *)
Fixpoint build_all (ds : list domain) (l done : list entry) (t : betree) : option betree :=
  match l with
  | [] => Some t
  | e :: l' =>
      if accepts_b ds (bt_cfg t) false (e_cs e) (e_src e) && negb (memZ (e_id e) (map e_id done))
      then match betree_insert_with_constants t (e_id e) (e_cs e) (e_src e) with
           | Ok (true, t') => build_all ds l' (done ++ [e]) t'
           | _ => None
           end
      else None
  end.
Definition build_from (ds : list domain) (cap minpart maxsplit : Z) (l : list entry) : option betree :=
  let t := make_tree cap minpart maxsplit ds in
  if decls_ok_b ds && (0 <=? maxsplit)%Z && (maxsplit <? SIZE_MAX - 1)%Z && whole_floats_b (bt_cfg t)
  then build_all ds l [] t else None.
Lemma build_all_ok ds cap minpart maxsplit l : forall done t t',
  builds ds cap minpart maxsplit done t -> build_all ds l done t = Some t' ->
  builds ds cap minpart maxsplit (done ++ l)%list t'.
Proof.
  induction l as [|e l IH]; cbn [build_all]; intros done t t' B H.
  - injection H as <-. now rewrite app_nil_r.
  - destruct (accepts_b _ _ _ _ _ && _) eqn:E; [|discriminate]. apply andb_prop in E. destruct E as [E1 E2].
    destruct (betree_insert_with_constants _ _ _ _) as [[[] t1]| | |] eqn:EI; try discriminate.
    change (e :: l) with ([e] ++ l)%list. rewrite app_assoc. eapply IH; [|exact H].
    destruct e as [id cs x]. eapply b_insert; eauto; [now apply accepts_b_ok|now apply memZ_In].
Qed.
Lemma build_from_ok ds cap minpart maxsplit l t :
  build_from ds cap minpart maxsplit l = Some t -> builds ds cap minpart maxsplit l t.
Proof.
  unfold build_from. destruct (_ && _) eqn:E; [|discriminate]. intros H.
  apply andb_prop in E. destruct E as [E E4]. apply andb_prop in E. destruct E as [E E3]. apply andb_prop in E. destruct E as [E1 E2].
  change l with ([] ++ l)%list. eapply build_all_ok; [|exact H]. apply b_start.
  - now apply decls_ok_b_ok.
  - split; [now apply Z.leb_le|now apply Z.ltb_lt].
  - now apply whole_floats_b_ok.
Qed.
Definition built (o : option betree) : betree := match o with Some t => t | None => make_tree 0 0 0 [] end.
Definition case_b1 : betree := Eval vm_compute in built (build_from case_ds 1 0 1000 case_log).
Definition case_b2 : betree := Eval vm_compute in built (build_from case_ds 1 0 1000 (rev case_log)).
Definition case_b3 : betree := Eval vm_compute in built (build_from case_ds 3 2 5 (rev case_log)).
Lemma case_built1 : builds case_ds 1 0 1000 case_log case_b1.
Proof. apply build_from_ok. vm_compute. reflexivity. Qed.
Lemma case_built2 : builds case_ds 1 0 1000 (rev case_log) case_b2.
Proof. apply build_from_ok. vm_compute. reflexivity. Qed.
Lemma case_built3 : builds case_ds 3 2 5 (rev case_log) case_b3.
Proof. apply build_from_ok. vm_compute. reflexivity. Qed.

(** The next call. *)
Definition case_new : src := XOr (i_eq 9) (XAnd (XAtom (AVar "b")) (XAtom (AEq QNe "s" (SStr "hello")))).
Definition case_next : betree :=
  Eval vm_compute in match betree_insert_with_constants case_t 77 [] case_new with Ok (_, t) => t | _ => case_t end.
Lemma case_insert : betree_insert_with_constants case_t 77 [] case_new = Ok (true, case_next).
Proof. vm_compute. reflexivity. Qed.
Definition case_made : option sub * betree :=
  Eval vm_compute in match betree_make_sub case_t 77 [] case_new with Ok r => r | _ => (None, case_t) end.
Definition case_made_sub : sub := Eval vm_compute in match fst case_made with Some s => s | None => mkSub 0 (ELeaf 0 (PLit true)) [] [] [] end.
Definition case_made_t : betree := Eval vm_compute in snd case_made.
Lemma case_make : betree_make_sub case_t 77 [] case_new = Ok (Some case_made_sub, case_made_t).
Proof. vm_compute. reflexivity. Qed.
Definition case_made_t2 : betree := Eval vm_compute in match betree_insert_sub case_made_t case_made_sub with Ok t => t | _ => case_t end.
Lemma case_make_insert : betree_insert_sub case_made_t case_made_sub = Ok case_made_t2.
Proof. vm_compute. reflexivity. Qed.
Definition case_wider : src := XAtom (ACmp CLe "i" (CInt 40)).
Definition case_changed : betree :=
  Eval vm_compute in match betree_change_boundaries case_t case_wider with Ok t => t | _ => case_t end.
Lemma case_change : betree_change_boundaries case_t case_wider = Ok case_changed.
Proof. vm_compute. reflexivity. Qed.
(** Refused: two new strings where only one fits. *)
Definition case_many : src := XAtom (AIn SIn "s" (SStrs ["1"; "2"; "3"; "4"; "5"; "6"])).
