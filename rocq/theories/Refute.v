(** Counterexamples: the properties fail when one of their conditions is dropped.

    Each theorem names the property and gives calls of the public functions that meet all conditions but
    one (the one named in the comment).  All witnesses are computed by the model itself. *)
From Coq Require Import ZArith NArith String Bool List.
From Verif Require Import Base Float Value Ast Config Assign Special Match Bound Tree PredMap Source Api Spec TreeSpec Hist Check Cases.
Import ListNotations.
Local Open Scope Z_scope.
Local Open Scope string_scope.

(** Insertion of several subscriptions, all of which must be accepted. *)
Fixpoint insert_all (t : betree) (l : list entry) : result betree :=
  match l with
  | [] => Ok t
  | e :: l' =>
      bind (betree_insert_with_constants t (e_id e) (e_cs e) (e_src e))
           (fun bt => if fst bt then insert_all (snd bt) l' else Abort)
  end.
(** A search accepts the event but reports an id that does not match, or misses one that does. *)
Definition wrong_id (ds : list domain) (cap : Z) (l : list entry) (ev : event) (id : Z) : bool :=
  match insert_all (make_tree cap 0 1000 ds) l with
  | Ok t => match betree_search t ev make_report with
            | Ok (true, r) => negb (Bool.eqb (memZ id (r_subs r)) (memZ id (hits ev l)))
            | _ => false
            end
  | _ => false
  end.
Definition wrong (ds : list domain) (cap : Z) (l : list entry) (ev : event) : Prop :=
  exists t r id, insert_all (make_tree cap 0 1000 ds) l = Ok t /\ betree_search t ev make_report = Ok (true, r)
    /\ ~ (In id (r_subs r) <-> In id (hits ev l)).
Lemma wrong_id_ok ds cap l ev id : wrong_id ds cap l ev id = true -> wrong ds cap l ev.
Proof.
  unfold wrong_id, wrong. destruct (insert_all _ l) as [t| | |]; try discriminate.
  destruct (betree_search t ev make_report) as [[[] r]| | |] eqn:E; try discriminate.
  intros H. exists t, r, id. split; [reflexivity|]. split; [exact E|]. intros K.
  assert (forall z m, memZ z m = true <-> In z m) as M.
  { intros z m. destruct (memZ z m) eqn:E'.
    - split; [intros _|easy]. unfold memZ in E'. apply existsb_exists in E'. destruct E' as (y & Y & E'). apply Z.eqb_eq in E'. now subst.
    - split; [discriminate|]. intros I. exfalso. revert I. apply memZ_In. now rewrite E'. }
  rewrite <- !M in K. destruct (memZ id (r_subs r)), (memZ id (hits ev l)); cbn in H; try discriminate; destruct K as [K1 K2].
  - discriminate (K1 eq_refl).
  - discriminate (K2 eq_refl).
Qed.

Definition typed (ds : list domain) (l : list entry) : Prop := Forall (fun e => src_ok ds (e_cs e) (e_src e)) l.
Lemma typed_b_ok ds l : forallb (fun e => src_ok_b ds (e_cs e) (e_src e)) l = true -> typed ds l.
Proof. unfold typed. rewrite forallb_forall, Forall_forall. intros H e K. apply src_ok_b_ok. now apply H. Qed.
Definition distinct (l : list entry) : Prop := NoDup (map e_id l).
Definition good_event (ds : list domain) (ev : event) : Prop := event_ok ds ev /\ complete ds ev.
Definition no_split_floats (ds : list domain) (cap : Z) : Prop := whole_floats (bt_cfg (make_tree cap 0 1000 ds)).

Ltac check := lazymatch goal with
  | |- decls_ok _ => apply decls_ok_b_ok; vm_compute; reflexivity
  | |- typed _ _ => apply typed_b_ok; vm_compute; reflexivity
  | |- distinct _ => unfold distinct; cbn [map e_id]; repeat constructor; cbn [In]; intuition discriminate
  | |- good_event _ _ => split; [apply event_ok_b_ok; vm_compute; reflexivity|apply complete_b_ok; vm_compute; reflexivity]
  | |- event_ok _ _ => apply event_ok_b_ok; vm_compute; reflexivity
  | |- no_split_floats _ _ => apply whole_floats_b_ok; vm_compute; reflexivity
  | |- _ = _ => vm_compute; reflexivity
  end.
Ltac checks := repeat match goal with |- _ /\ _ => split end; try check.
Ltac refute id := apply (wrong_id_ok _ _ _ _ id); vm_compute; reflexivity.

Definition v_a := XAtom (AVar "a").
Definition v_b := XAtom (AVar "b").
Definition yes := XAtom (ALit true).
Definition i_cmp op z := XAtom (ACmp op "i" (CInt z)).
Definition f_eq x := XAtom (AEq QEq "f" (SFlt x)).
Definition s_eq s := XAtom (AEq QEq "s" (SStr s)).
Definition bool_d x := mkD x (BBool false true) true.
Definition i_d := mkD "i" (BInt false 0 10) false.
Definition now_d := mkD "now" (BInt false 0 10) false.

(** The shortcut for undefined variables is unsound for `or` below `not`: `not (a or b)` with a undefined
    and b true is false but reported. *)
Theorem C02_not_or_refuted : exists ds cap l ev,
  decls_ok ds /\ typed ds l /\ distinct l /\ no_split_floats ds cap /\ good_event ds ev /\ wrong ds cap l ev.
Proof.
  exists [bool_d "a"; bool_d "b"], 3, [mkE 1 [] (XNot (XOr v_a v_b))], [("b", Some (VBool true))].
  checks. refute 1.
Qed.
Theorem C05_not_or_refuted : exists ds s ev p,
  (forall e, In e [mkE 1 [] s] -> src_ok ds (e_cs e) (e_src e)) /\ good_event ds ev
  /\ make_env (bt_cfg (make_tree 3 0 1000 ds)) ev = Ok p /\ sem [] ev s = false
  /\ exists t sb, betree_insert (make_tree 3 0 1000 ds) 1 s = Ok (true, t) /\ subs_cnode (bt_root t) = [sb]
     /\ try_short_circuit (s_pass sb) (s_fail sb) (make_undefined p) = Ok ScPass.
Proof.
  exists [bool_d "a"; bool_d "b"], (XNot (XOr v_a v_b)), [("b", Some (VBool true))]. eexists. checks.
  - intros e [<-|[]]. apply src_ok_b_ok. vm_compute. reflexivity.
  - do 2 eexists. checks.
Qed.

(** The range derived for `and` below `not` is too small: `not (i > 5 and b)` is true for i = 7 and b
    undefined, but it is filed under i <= 5 and missed. *)
Theorem C01_not_and_refuted : exists ds cap l ev,
  decls_ok ds /\ typed ds l /\ distinct l /\ no_split_floats ds cap /\ good_event ds ev /\ wrong ds cap l ev.
Proof.
  exists [i_d; bool_d "b"], 1,
    [mkE 1 [] (XNot (XAnd (i_cmp CGt 5) v_b)); mkE 2 [] (i_eq 1); mkE 3 [] (i_eq 9); mkE 4 [] (i_eq 2)],
    [("i", Some (VInt 7)); ("b", Some (VBool false))].
  checks. refute 1.
Qed.
Theorem C20_not_and_refuted : exists e r,
  get_variable_bound 0 (BInt false 0 10) e = Ok r
  /\ e = assign_variable_id (bt_cfg (make_tree 3 0 1000 [i_d; bool_d "b"])) (build (XNot (XAnd (i_cmp CGt 5) v_b)))
  /\ sem [] [("i", Some (VInt 7)); ("b", Some (VBool false))] (XNot (XAnd (i_cmp CGt 5) v_b)) = true
  /\ r = BInt false 0 5.
Proof. do 2 eexists. split; [|split; [reflexivity|split]]; [vm_compute; reflexivity|vm_compute; reflexivity|reflexivity]. Qed.

(** The shortcut is also unsound for `is null` in an `and` below `not`: `not (s is null and b)` with s undefined and
    b false is true but missed. *)
Theorem C01_not_and_null_refuted : exists ds cap l ev,
  decls_ok ds /\ typed ds l /\ distinct l /\ no_split_floats ds cap /\ good_event ds ev /\ wrong ds cap l ev.
Proof.
  exists [mkD "s" (BStr TStr 0 10) true; bool_d "b"], 3, [mkE 1 [] (XNot (XAnd (XAtom (ANull NIsNull "s")) v_b))],
    [("b", Some (VBool false))].
  checks. refute 1.
Qed.

(** Reorganisation identifies subscriptions by id (tree.c 497-522): with a repeated id it drops the wrong
    one. *)
Theorem C09_same_ids_refuted : exists ds cap l ev,
  decls_ok ds /\ typed ds l /\ no_split_floats ds cap /\ good_event ds ev /\ wrong ds cap l ev.
Proof.
  exists [i_d], 1, [mkE 1 [] yes; mkE 1 [] (i_eq 1); mkE 2 [] (i_eq 9)], [("i", Some (VInt 5))].
  checks. refute 1.
Qed.

(** Float variables with narrow declared ranges: equality holds up to epsilon, ranges do not. *)
Definition below_one : flt := SpecFloat.S754_finite false 9007199254740991 (-53).   (* 1 - 2^-53 *)
Theorem C01_float_range_refuted : exists ds cap l ev,
  decls_ok ds /\ typed ds l /\ distinct l /\ good_event ds ev /\ wrong ds cap l ev.
Proof.
  exists [mkD "f" (BFloat (f_of_Z 0) (f_of_Z 1)) false], 1,
    [mkE 1 [] (f_eq (f_of_Z 1)); mkE 2 [] (f_eq (f_of_Z 0)); mkE 3 [] (f_eq (f_of_Z 1))],
    [("f", Some (VFloat below_one))].
  checks. refute 1.
Qed.
(** Splitting the range [0, 1.5] of a float aborts (tree.c 931). *)
Theorem C10_float_split_refuted : exists ds cap l,
  decls_ok ds /\ typed ds l /\ distinct l /\ insert_all (make_tree cap 0 1000 ds) l = Abort
  /\ forall e, In e l -> exists t, betree_insert_with_constants (make_tree cap 0 1000 ds) (e_id e) (e_cs e) (e_src e) = Ok (true, t).
Proof.
  exists [mkD "f" (BFloat (f_of_Z 0) (fdiv (f_of_Z 3) (f_of_Z 2))) false], 1,
    [mkE 1 [] (f_eq (f_of_Z 1)); mkE 2 [] (f_eq (f_of_Z 1)); mkE 3 [] (f_eq (f_of_Z 1))].
  checks. intros e [<-|[<-|[<-|[]]]]; eexists; vm_compute; reflexivity.
Qed.

(** Literals at the end of the int64_t range overflow when the range is derived. *)
Theorem C10_overflow_refuted : exists ds cap l,
  decls_ok ds /\ distinct l /\ no_split_floats ds cap /\ insert_all (make_tree cap 0 1000 ds) l = UB.
Proof.
  exists [i_d], 1, [mkE 1 [] (i_cmp CLt INT64_MIN); mkE 2 [] (i_eq 3); mkE 3 [] (i_eq 4)]. checks.
Qed.
(** A declared variable used with the wrong type is accepted; a later insertion aborts. *)
Theorem C10_untyped_refuted : exists ds cap l,
  decls_ok ds /\ distinct l /\ no_split_floats ds cap /\ insert_all (make_tree cap 0 1000 ds) l = Abort
  /\ exists t, betree_insert (make_tree cap 0 1000 ds) 1 (XAtom (AVar "i")) = Ok (true, t).
Proof.
  exists [mkD "i" (BInt false 0 10) true], 1, [mkE 1 [] (XAtom (AVar "i")); mkE 2 [] (XAtom (AVar "i"))]. checks.
  eexists. vm_compute. reflexivity.
Qed.
(** The leaf capacity is kept in 8 bits (config.h): 256 becomes 0 and the first insertion divides by it. *)
Theorem C10_capacity_refuted : exists ds l,
  decls_ok ds /\ typed ds l /\ distinct l /\ no_split_floats ds 256 /\ insert_all (make_tree 256 0 1000 ds) l = UB.
Proof. exists [bool_d "a"], [mkE 1 [] v_a]. checks. Qed.

(** A finite integer range wider than an int64_t: llabs(max - min) overflows when a leaf is first split. *)
Theorem C10_width_refuted : exists ds cap l,
  decls_ok ds /\ typed ds l /\ distinct l /\ no_split_floats ds cap /\ insert_all (make_tree cap 0 1000 ds) l = UB.
Proof.
  exists [mkD "i" (BInt false (INT64_MIN + 1) (INT64_MAX - 1)) true], 1, [mkE 1 [] (i_eq 3); mkE 2 [] (i_eq 4); mkE 3 [] (i_eq 5)]. checks.
Qed.
(** Bounded strings: the check looks at one predicate at a time, so `s = "a" or s = "b"` is accepted for a
    variable with room for one string; the second string gets the invalid id and equals every unknown one. *)
Theorem C18_refuted : exists ds cap l ev,
  decls_ok ds /\ typed ds l /\ distinct l /\ no_split_floats ds cap /\ good_event ds ev
  /\ ds = [mkD "s" (BStr TStr 0 0) true] /\ l = [mkE 1 [] (XOr (s_eq "a") (s_eq "b"))] /\ wrong ds cap l ev.
Proof.
  do 2 eexists. exists [mkE 1 [] (XOr (s_eq "a") (s_eq "b"))], [("s", Some (VStr (str "z")))].
  split; [|split; [|split; [|split; [|split; [|split; [reflexivity|split; [reflexivity|]]]]]]]; try check.
  instantiate (1 := 3). refute 1.
Qed.
(** The check compares names as written, so a capital letter avoids it. *)
Theorem C18_capital_refuted : exists ds cap l ev,
  decls_ok ds /\ typed ds l /\ distinct l /\ no_split_floats ds cap /\ good_event ds ev
  /\ ds = [mkD "s" (BStr TStr 0 0) true] /\ wrong ds cap l ev.
Proof.
  do 2 eexists. exists [mkE 1 [] (XAtom (AEq QEq "S" (SStr "a"))); mkE 2 [] (s_eq "b")], [("s", Some (VStr (str "z")))].
  split; [|split; [|split; [|split; [|split; [|split; [reflexivity|]]]]]]; try check.
  instantiate (1 := 3). refute 2.
Qed.
(** Bounded enums are not checked at all. *)
Theorem C17_bounded_enum_refuted : exists ds cap l ev,
  decls_ok ds /\ typed ds l /\ distinct l /\ no_split_floats ds cap /\ good_event ds ev /\ wrong ds cap l ev.
Proof.
  exists [mkD "ie" (BStr TIEnum 0 0) true], 3,
    [mkE 1 [] (XAtom (AEq QEq "ie" (SInt 1))); mkE 2 [] (XAtom (AEq QEq "ie" (SInt 2)))], [("ie", Some (VInt 3))].
  checks. refute 2.
Qed.
(** The namespaces of frequency caps have room for one string when inserted with betree_insert. *)
Theorem C16_namespace_refuted : exists ds cap l ev,
  decls_ok ds /\ typed ds l /\ distinct l /\ no_split_floats ds cap /\ good_event ds ev /\ wrong ds cap l ev.
Proof.
  exists [mkD "frequency_caps" BFreqs true; now_d], 3,
    [mkE 1 case_cs (XAtom (AFreq "flight" "ns" 10 100)); mkE 2 case_cs (XAtom (AFreq "flight" "other" 10 100))],
    [("frequency_caps", Some (VFreqs [mkCap FTFlight 20 (str "third") true 0 50])); ("now", Some (VInt 5))].
  checks. refute 2.
Qed.

(** Repetitions in the list of `all of`. *)
Theorem C14_all_of_refuted : exists ds cap l ev,
  decls_ok ds /\ distinct l /\ no_split_floats ds cap /\ good_event ds ev
  /\ l = [mkE 1 [] (XAtom (AList LAllOf "il" (SInts [1; 1])))] /\ wrong ds cap l ev.
Proof.
  exists [mkD "il" (BInt true 0 10) true], 3. eexists. exists [("il", Some (VIntList [1]))].
  split; [|split; [|split; [|split; [|split; [reflexivity|]]]]]; try check. refute 1.
Qed.

(** Geo predicates: undeclared latitude and longitude are not refused but read outside the tables. *)
Theorem C29_geo_refuted : exists x, insert_all (make_tree 3 0 1000 []) [mkE 1 [] x] = UB.
Proof. exists (XAtom (AGeo (f_of_Z 1) (f_of_Z 1) (f_of_Z 1))). vm_compute. reflexivity. Qed.

(** betree_exists does not check required variables (betree.c 570-589). *)
Theorem C06_incomplete_refuted : exists ds t ev,
  decls_ok ds /\ event_ok ds ev /\ insert_all (make_tree 3 0 1000 ds) [mkE 1 [] yes] = Ok t
  /\ betree_search t ev make_report = Ok (false, make_report) /\ betree_exists t ev = Ok true.
Proof.
  exists [i_d]. eexists. exists []. split; [check|split; [check|split; [vm_compute; reflexivity|]]].
  split; vm_compute; reflexivity.
Qed.

(** An optional `now`: the shortcut rejects a frequency cap that an empty cap list satisfies. *)
Theorem C05_now_refuted : exists ds cap l ev,
  decls_ok ds /\ distinct l /\ no_split_floats ds cap /\ good_event ds ev
  /\ l = [mkE 1 case_cs (XAtom (AFreq "flight" "ns" 10 100))] /\ wrong ds cap l ev.
Proof.
  exists [mkD "frequency_caps" BFreqs true; mkD "now" (BInt false 0 10) true], 3. eexists.
  exists [("frequency_caps", Some (VFreqs []))].
  split; [|split; [|split; [|split; [|split; [reflexivity|]]]]]; try check. refute 1.
Qed.
(** The id constant of a cap is cut to 32 bits (special.c). *)
Theorem C34_wide_constant_refuted : exists ds cap l ev,
  decls_ok ds /\ distinct l /\ no_split_floats ds cap /\ good_event ds ev
  /\ l = [mkE 1 [("flight_id", VInt 4294967316)] (XAtom (AFreq "flight" "ns" 10 100))] /\ wrong ds cap l ev.
Proof.
  exists [mkD "frequency_caps" BFreqs true; now_d], 3. eexists.
  exists [("frequency_caps", Some (VFreqs [mkCap FTFlight 4294967316 (str "ns") true 0 50])); ("now", Some (VInt 5))].
  split; [|split; [|split; [|split; [|split; [reflexivity|]]]]]; try check. refute 1.
Qed.
(** The seconds of a segment predicate are cut to 32 bits. *)
Theorem C26_wide_seconds_refuted : exists ds cap l ev,
  decls_ok ds /\ distinct l /\ no_split_floats ds cap /\ good_event ds ev
  /\ l = [mkE 1 [] (XAtom (ASeg SegWithin None 1 4294967396))] /\ wrong ds cap l ev.
Proof.
  exists [mkD "segments_with_timestamp" BSegs true; now_d], 3. eexists.
  exists [("segments_with_timestamp", Some (VSegs [mkSeg 1 0])); ("now", Some (VInt 1000))].
  split; [|split; [|split; [|split; [|split; [reflexivity|]]]]]; try check. refute 1.
Qed.
(** Segments of an event that are not ordered by id. *)
Theorem C26_unordered_refuted : exists ds cap l ev,
  decls_ok ds /\ typed ds l /\ distinct l /\ no_split_floats ds cap /\ complete ds ev /\ wrong ds cap l ev.
Proof.
  exists [mkD "segments_with_timestamp" BSegs true; now_d], 3, [mkE 1 [] (XAtom (ASeg SegWithin None 1 20))],
    [("segments_with_timestamp", Some (VSegs [mkSeg 5 0; mkSeg 1 1000000])); ("now", Some (VInt 5))].
  checks; [apply complete_b_ok; vm_compute; reflexivity|refute 1].
Qed.
(** An event that gives an integer for a float variable: the bits are read as a float (tree.c 1886). *)
Theorem C30_event_integer_refuted : exists ds cap l ev,
  decls_ok ds /\ typed ds l /\ distinct l /\ no_split_floats ds cap /\ complete ds ev
  /\ exists t r, insert_all (make_tree cap 0 1000 ds) l = Ok t /\ betree_search t ev make_report = Ok (true, r)
     /\ ev = [("f", Some (VInt 3))] /\ l = [mkE 1 [] (XAtom (ACmp CLt "f" (CFloat (f_of_Z 1))))] /\ r_subs r = [1].
Proof.
  exists [mkD "f" (BFloat (fopp DBL_MAX) DBL_MAX) true], 3, [mkE 1 [] (XAtom (ACmp CLt "f" (CFloat (f_of_Z 1))))], [("f", Some (VInt 3))].
  checks; [apply complete_b_ok; vm_compute; reflexivity|]. do 2 eexists.
  split; [vm_compute; reflexivity|]. split; [vm_compute; reflexivity|]. split; [reflexivity|]. split; reflexivity.
Qed.
(** A declared name with a capital letter is never found: the event that supplies it aborts. *)
Theorem C12_capital_declaration_refuted : exists ds,
  decls_ok ds /\ ds = [mkD "I" (BInt false 0 10) false]
  /\ betree_search (make_tree 3 0 1000 ds) [("I", Some (VInt 3))] make_report = Abort
  /\ betree_search (make_tree 3 0 1000 ds) [] make_report = Ok (false, make_report).
Proof. eexists. split; [|split; [reflexivity|]]; checks. Qed.

(** Adapting the boundaries gives a string variable without bound a bound: a subscription that would have
    been accepted before is refused after. *)
Theorem C19_new_bound_refuted : exists ds x y t1 t2 t3,
  decls_ok ds /\ src_ok ds [] x /\ src_ok ds [] y
  /\ betree_insert (make_tree 3 0 1000 ds) 1 x = Ok (true, t1) /\ betree_change_boundaries t1 x = Ok t2
  /\ betree_insert t2 2 y = Ok (false, t2) /\ betree_insert t1 2 y = Ok (true, t3).
Proof.
  exists [mkD "s" (BStr TStr 0 (SIZE_MAX - 1)) true], (s_eq "a"), (s_eq "b"). do 3 eexists.
  split; [check|]. split; [apply src_ok_b_ok; vm_compute; reflexivity|]. split; [apply src_ok_b_ok; vm_compute; reflexivity|].
  split; [vm_compute; reflexivity|]. split; [vm_compute; reflexivity|]. split; vm_compute; reflexivity.
Qed.
Print Assumptions C02_not_or_refuted.
Print Assumptions C05_not_or_refuted.
Print Assumptions C01_not_and_refuted.
Print Assumptions C20_not_and_refuted.
Print Assumptions C01_not_and_null_refuted.
Print Assumptions C09_same_ids_refuted.
Print Assumptions C01_float_range_refuted.
Print Assumptions C10_float_split_refuted.
Print Assumptions C10_overflow_refuted.
Print Assumptions C10_untyped_refuted.
Print Assumptions C10_capacity_refuted.
Print Assumptions C10_width_refuted.
Print Assumptions C18_refuted.
Print Assumptions C18_capital_refuted.
Print Assumptions C17_bounded_enum_refuted.
Print Assumptions C16_namespace_refuted.
Print Assumptions C14_all_of_refuted.
Print Assumptions C29_geo_refuted.
Print Assumptions C06_incomplete_refuted.
Print Assumptions C05_now_refuted.
Print Assumptions C34_wide_constant_refuted.
Print Assumptions C26_wide_seconds_refuted.
Print Assumptions C26_unordered_refuted.
Print Assumptions C30_event_integer_refuted.
Print Assumptions C12_capital_declaration_refuted.
Print Assumptions C19_new_bound_refuted.
