(** Which subscriptions are accepted: theorems. *)
From Coq Require Import ZArith NArith String Bool List Lia.
From Verif Require Import Base Float Value Ast Config Assign Special Match Bound Tree PredMap Source Api Spec TreeSpec Hist Bounded Accept Check Cases.
From Verif Require Import ExtProofs AcceptProofs RoomProofs.
Import ListNotations.
Local Open Scope Z_scope.
Local Open Scope string_scope.

(** ** C47 *)
(** betree_make_sub returns a subscription exactly when the constants of all frequency caps are given and null tests are
    of variables that allow them. *)
Theorem C47_make : forall (G : Geo) m ds t pend log id cs x, reach_in m ds t pend log -> src_ok ds cs x -> fits (bt_cfg t) true x ->
  ((exists s t', betree_make_sub t id cs x = Ok (Some s, t')) <-> constants_given cs x /\ null_tests_ok ds x).
Proof. exact @make_accepts. Qed.
Print Assumptions C47_make.

(** betree_insert_with_constants accepts exactly when the constants are given, provided there is room for the strings. *)
Theorem C47_insert : forall (G : Geo) m ds t pend log id cs x,
  m <> Splits -> reach_in m ds t pend log -> lower_names ds -> narrow (bt_cfg t) -> c_cap (bt_cfg t) <> 0 ->
  src_ok ds cs x -> fits (bt_cfg t) false x -> roomy (bt_cfg t) x -> ~ In id (ids_of pend log) ->
  ((exists t', betree_insert_with_constants t id cs x = Ok (true, t')) <-> constants_given cs x).
Proof. exact @insert_accepts. Qed.
Print Assumptions C47_insert.

(** A checker for [roomy]. *)
Definition roomy_b (c : config) (x : src) : bool :=
  forallb (fun p => match decl (c_domains c) (fst p) with
    | Some (v, d) => match d_bound d with
      | BStr _ _ hi => (Z.of_nat (List.length (strs c v)) + Z.of_nat (List.length (src_strings (lower (fst p)) x)) <=? Z.min (hi + 1) (SIZE_MAX - 1))%Z
      | _ => true end
    | None => true end) (flat_map atom_strs (src_atoms x)).
Lemma roomy_b_ok c x : roomy_b c x = true -> roomy c x.
Proof.
  unfold roomy_b. rewrite forallb_forall. intros H y v d ty lo hi D B N.
  destruct (src_strings (lower y) x) as [|s l] eqn:E; [easy|]. rewrite <- E.
  assert (In s (src_strings (lower y) x)) as I by (rewrite E; now left).
  unfold src_strings, strings_for in I. apply in_map_iff in I. destruct I as (p & <- & I). apply filter_In in I. destruct I as [I Q].
  apply String.eqb_eq in Q. specialize (H p I).
  assert (decl (c_domains c) (fst p) = decl (c_domains c) y) as Q' by (unfold decl; now rewrite Q).
  rewrite Q', D, B, Q in H. now apply Z.leb_le in H.
Qed.

Definition acc_x : src := XAnd (XAtom (AIn SIn "s" (SStrs ["x"; "u"; "v"]))) (XOr (XAtom (AHas SIn (SStr "a") "sl")) (XAtom (AFreq "flight" "ns" 10 100))).
Definition acc_null (y : string) : src := XOr (i_eq 9) (XAtom (ANull NIsNull y)).
Definition acc_empty (y : string) : src := XNot (XAtom (ANull NIsEmpty y)).
Definition made (r : result (option sub * betree)) : bool := match r with Ok (Some _, _) => true | _ => false end.
Definition took (r : result (bool * betree)) : bool := match r with Ok (true, _) => true | _ => false end.
Example C47_case :
  reach case_ds case_t [] case_log /\ lower_names case_ds /\ narrow (bt_cfg case_t) /\ c_cap (bt_cfg case_t) <> 0
  /\ ~ In 20 (ids_of [] case_log)
  /\ Forall (fun x => src_ok case_ds case_cs x /\ src_ok case_ds [] x /\ fits (bt_cfg case_t) true x /\ fits (bt_cfg case_t) false x /\ roomy (bt_cfg case_t) x)
       [acc_x; acc_null "s"; acc_null "i"; acc_empty "sl"; acc_empty "s"]
  /\ map (fun x => made (betree_make_sub case_t 20 case_cs x)) [acc_x; acc_null "s"; acc_null "i"; acc_empty "sl"; acc_empty "s"]
     = [true; true; false; true; false]
  /\ map (fun x => made (betree_make_sub case_t 20 [] x)) [acc_x; acc_null "s"; acc_null "i"; acc_empty "sl"; acc_empty "s"]
     = [false; true; false; true; false]
  /\ map (fun x => took (betree_insert_with_constants case_t 20 case_cs x)) [acc_x; acc_null "s"; acc_null "i"; acc_empty "sl"; acc_empty "s"]
     = [true; true; true; true; true]
  /\ map (fun x => took (betree_insert_with_constants case_t 20 [] x)) [acc_x; acc_null "s"; acc_null "i"; acc_empty "sl"; acc_empty "s"]
     = [false; true; true; true; true].
Proof.
  split; [exact case_reach|]. split; [repeat constructor|].
  split; [intros d H; cbn [case_t bt_cfg c_domains In] in H; repeat (destruct H as [<-|H]; [vm_compute; tauto || (right; right; congruence)|]); destruct H|].
  split; [vm_compute; congruence|].
  split; [unfold ids_of; cbn [case_log map e_id app In]; intuition discriminate|].
  split; [|repeat split; vm_compute; reflexivity].
  repeat apply Forall_cons; try apply Forall_nil; repeat split; try (apply src_ok_b_ok; vm_compute; reflexivity);
    try (apply fits_b_ok; vm_compute; reflexivity); apply roomy_b_ok; vm_compute; reflexivity.
Qed.

(** ** C52 *)
(** A returned answer is `true` exactly when the constants are given and every predicate, taken by itself, leaves the
    tables within their bounds; `false` leaves the tree as it was. *)
Theorem C52_exact : forall (G : Geo) m ds t pend log id cs x b t',
  reach_in m ds t pend log -> lower_names ds -> src_ok ds cs x -> betree_insert_with_constants t id cs x = Ok (b, t') ->
  (b = true <-> constants_given cs x /\ forall a, In a (src_atoms x) -> pred_room (bt_cfg t) a) /\ (b = false -> t' = t).
Proof. exact @insert_exact. Qed.
Print Assumptions C52_exact.
(** One predicate with too many new strings is enough for a refusal. *)
Theorem C52_refused : forall (G : Geo) m ds t pend log id cs x a,
  reach_in m ds t pend log -> lower_names ds -> src_ok ds cs x -> In a (src_atoms x) -> ~ pred_room (bt_cfg t) a ->
  betree_insert_with_constants t id cs x = Ok (false, t).
Proof. exact @insert_refuses. Qed.
Print Assumptions C52_refused.

(** A checker for [pred_room]. *)
Definition pred_room_b (c : config) (a : atom) : bool :=
  match a with AFreq _ _ _ _ => true | _ =>
    forallb (fun p => match decl (c_domains c) (fst p) with
      | Some (v, d) => negb (String.eqb (d_attr d) (fst p)) || match d_bound d with
        | BStr _ _ hi => (negb (hi + 1 <? SIZE_MAX) || (Z.of_nat (List.length (known_under c (fst p))) + Z.of_nat (List.length (new_strings c (fst p) a)) <=? hi + 1)
          || ((hi + 1 <? Z.of_nat (List.length (known_under c (fst p))))
              && (Z.of_nat (List.length (known_under c (fst p))) + Z.of_nat (List.length (new_strings c (fst p) a)) <=? hi + 1 + 2 ^ 64)))%Z
        | _ => true end
      | None => true end) (atom_strs a)
  end.
Lemma pred_room_b_ok c a : pred_room_b c a = true <-> pred_room c a.
Proof.
  destruct (match a with AFreq _ _ _ _ => true | _ => false end) eqn:NF; [now destruct a|].
  assert (pred_room c a <-> forall y s v d ty lo hi, In (y, s) (atom_strs a) -> decl (c_domains c) y = Some (v, d) -> d_attr d = y ->
      d_bound d = BStr ty lo hi -> (hi + 1 < SIZE_MAX ->
      let k := Z.of_nat (List.length (known_under c y)) in
      let n := Z.of_nat (List.length (new_strings c y a)) in
      k + n <= hi + 1 \/ hi + 1 < k /\ k + n <= hi + 1 + 2 ^ 64)%Z) as -> by (destruct a; reflexivity || discriminate NF).
  assert (pred_room_b c a = forallb (fun p => match decl (c_domains c) (fst p) with
      | Some (v, d) => negb (String.eqb (d_attr d) (fst p)) || match d_bound d with
        | BStr _ _ hi => (negb (hi + 1 <? SIZE_MAX) || (Z.of_nat (List.length (known_under c (fst p))) + Z.of_nat (List.length (new_strings c (fst p) a)) <=? hi + 1)
          || ((hi + 1 <? Z.of_nat (List.length (known_under c (fst p))))
              && (Z.of_nat (List.length (known_under c (fst p))) + Z.of_nat (List.length (new_strings c (fst p) a)) <=? hi + 1 + 2 ^ 64)))%Z
        | _ => true end
      | None => true end) (atom_strs a)) as -> by (destruct a; reflexivity || discriminate NF).
  rewrite forallb_forall. split.
  - intros H y s v d ty lo hi I D E B L. specialize (H _ I). cbn [fst] in H. rewrite D, E, String.eqb_refl, B in H. cbn [negb orb] in H.
    cbv zeta. lia.
  - intros H [y s] I. cbn [fst]. destruct (decl (c_domains c) y) as [[v d]|] eqn:D; [|reflexivity].
    destruct (String.eqb_spec (d_attr d) y) as [E|E]; [|reflexivity]. destruct (d_bound d) as [lo hi|w lo hi|lo hi|w lo hi| | ] eqn:B; try reflexivity.
    specialize (H y s v d w lo hi I D E B). cbv zeta in H. cbn [negb orb]. lia.
Qed.

(** A variable with room for three strings; two are known; then five, because betree_make_sub
    registers the strings of an expression that it refuses for another reason.
    New strings in separate predicates are accepted, in one predicate refused, even if one string is repeated; a capital
    letter avoids the check, and so does a table that is over its bound. *)
Definition room_ds : list domain := [mkD "s" (dom_bounded_s 3) true; mkD "i" (BInt false 0 10) false].
Definition room_ops1 : list op := [OInsert 1 [] (XAtom (AIn SIn "s" (SStrs ["a"; "b"])))].
Definition room_ops2 : list op := (room_ops1 ++ [OMake 2 [] (XAnd (XAtom (AIn SIn "s" (SStrs ["c"; "d"; "e"]))) (XAtom (ANull NIsNull "i")))])%list.
Definition room_t (ops : list op) : betree := match run room_ds 3 0 1000 ops with Some (t, _, _) => t | None => make_tree 3 0 1000 room_ds end.
Definition room_xs : list src :=
  [XAtom (AEq QEq "s" (SStr "f")); XOr (XAtom (AEq QEq "s" (SStr "f"))) (XAtom (AEq QEq "s" (SStr "g"))); XAtom (AIn SIn "s" (SStrs ["f"; "g"]));
   XAtom (AIn SIn "s" (SStrs ["f"; "f"])); XAtom (AIn SIn "s" (SStrs ["f"; "a"])); XAtom (AIn SIn "S" (SStrs ["f"; "g"]))].
Example C52_case :
  (exists pend log, reach room_ds (room_t room_ops1) pend log) /\ (exists pend log, reach room_ds (room_t room_ops2) pend log)
  /\ lower_names room_ds /\ Forall (src_ok room_ds []) room_xs
  /\ map (fun x => took (betree_insert_with_constants (room_t room_ops1) 9 [] x)) room_xs = [true; true; false; false; true; true]
  /\ map (fun x => forallb (pred_room_b (bt_cfg (room_t room_ops1))) (src_atoms x)) room_xs = [true; true; false; false; true; true]
  /\ map (fun x => took (betree_insert_with_constants (room_t room_ops2) 9 [] x)) room_xs = [true; true; true; true; true; true]
  /\ ~ pred_room (bt_cfg (room_t room_ops1)) (AIn SIn "s" (SStrs ["f"; "g"])).
Proof.
  assert (forall ops, match run room_ds 3 0 1000 ops with Some _ => true | None => false end = true -> exists pend log, reach room_ds (room_t ops) pend log) as RR.
  { intros ops H. unfold room_t. destruct (run room_ds 3 0 1000 ops) as [[[t pend] log]|] eqn:E; [|discriminate]. exists pend, log. eapply run_reach; exact E. }
  split; [apply RR; vm_compute; reflexivity|]. split; [apply RR; vm_compute; reflexivity|]. split; [repeat constructor|].
  split; [unfold room_xs; repeat (apply Forall_cons; [apply src_ok_b_ok; vm_compute; reflexivity|]); apply Forall_nil|].
  split; [vm_compute; reflexivity|]. split; [vm_compute; reflexivity|]. split; [vm_compute; reflexivity|].
  rewrite <- pred_room_b_ok. vm_compute. discriminate.
Qed.
