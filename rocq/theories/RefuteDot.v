(** Drawings that Graphviz reads otherwise than meant, or not at all. *)
From Coq Require Import ZArith NArith String Ascii Bool List Lia.
From Verif Require Import Base Float Value Ast Config Assign Special Match Bound Tree TreeSpec RbTree PredMap
  Source Api Cases Linked LinkedApi DotFile DotSpec.
Import ListNotations.
Local Open Scope Z_scope.
Local Open Scope string_scope.

(** The drawing after a program. *)
Definition drawing_after (ds : list domain) (l : list call) : option (list item) :=
  match v_run (mkV (make_tree 1 0 1000 ds) []) l with
  | Ok (_, st) => Some (drawing (bt_cfg (v_tree st)) (bt_root (v_tree st)))
  | _ => None
  end.

(** Two nodes of the tree with one name: escape_name makes "a-b" and "a_b" the same (debug.c 18-36). *)
Definition two_ds : list domain := [mkD "a-b" dom_b true; mkD "a_b" dom_b true].
Definition two_calls : list call :=
  [CInsert 1 [] (build (XAtom (AVar "a-b"))); CInsert 2 [] (build (XAtom (AVar "a_b")));
   CInsert 3 [] (build (XNot (XAtom (AVar "a-b")))); CInsert 4 [] (build (XNot (XAtom (AVar "a_b"))))].
Theorem C73_names_refuted : careful (mkV (make_tree 1 0 1000 two_ds) []) two_calls = true /\
  exists l, drawing_after two_ds two_calls = Some l /\ ~ NoDup (nodes_shown l).
Proof.
  split; [vm_compute; reflexivity|]. eexists. split; [vm_compute; reflexivity|]. intros H.
  apply (nodup_fixed_point string_dec), (f_equal (@List.length string)) in H. vm_compute in H. discriminate.
Qed.
Print Assumptions C73_names_refuted.

(** Two names on one level without a comma between them: [first] is passed by value (debug.c 549-569). *)
Definition comma_ds : list domain := [mkD "i" (BInt false 0 2) true].
Definition comma_calls : list call := [CInsert 1 [] (build (i_eq 0)); CInsert 2 [] (build (i_eq 2))].
Theorem C73_commas_refuted : careful (mkV (make_tree 1 0 1000 comma_ds) []) comma_calls = true /\
  exists l names, drawing_after comma_ds comma_calls = Some l /\ In (IRank names) l /\ names <> commas (map snd names)
    /\ rank_text names = """cnode__i_0_1""""cnode__i_1_2""".
Proof.
  split; [vm_compute; reflexivity|]. do 2 eexists. split; [vm_compute; reflexivity|]. split; [cbn [In]; do 23 right; left; reflexivity|].
  split; [discriminate|reflexivity].
Qed.
Print Assumptions C73_commas_refuted.

(** A table is named without quotes (debug.c 377, 484), so its name must be an identifier of the language; the names of
    ranges of a float with a negative end are not. *)
Definition word_char (a : ascii) : bool :=
  let n := N_of_ascii a in
  ((48 <=? n) && (n <=? 57) || (65 <=? n) && (n <=? 90) || (97 <=? n) && (n <=? 122) || (n =? 95) || (128 <=? n))%N%bool.
Fixpoint word (s : string) : bool := match s with "" => true | String a t => (word_char a && word t)%bool end.
Definition neg_ds : list domain := [mkD "f" (BFloat (f_of_Z (-3)) (f_of_Z 5)) true].
Definition neg_calls : list call :=
  [CInsert 1 [] (build (XAtom (ACmp CLt "f" (CFloat (f_of_Z 0))))); CInsert 2 [] (build (XAtom (ACmp CGt "f" (CFloat (f_of_Z 2)))))].
Theorem C73_quotes_refuted : careful (mkV (make_tree 1 0 1000 neg_ds) []) neg_calls = true /\
  exists l rows, drawing_after neg_ds neg_calls = Some l /\ In (ITable "cdir__f_-3_5" rows) l /\ word "cdir__f_-3_5" = false.
Proof.
  split; [vm_compute; reflexivity|]. do 2 eexists. split; [vm_compute; reflexivity|]. split; [|reflexivity].
  cbn [In]. do 5 right. left. reflexivity.
Qed.
Print Assumptions C73_quotes_refuted.
