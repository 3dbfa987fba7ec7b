(** The drawing of the index (debug.c): what is written to the file, and memory after it. *)
From Coq Require Import ZArith NArith String Bool List Permutation Lia ZifyBool ZifyNat ZifyN.
From Verif Require Import Base Float Value Ast Config Assign Special Match Bound Tree TreeSpec RbTree PredMap Source Api Cases
  Linked LinkedSpec LinkedHeap LinkedApi LinkedRun PropsLinked DotFile DotSpec DotNames DotProofs DotWalk DotLinks DotFine.
Import ListNotations.
Local Open Scope list_scope.

(** *** C73: the drawing shows the tree *)
Lemma draw_holds {G : Geo} t q T F : reps t q T F -> incl (sub_blocks (asubs_cnode T)) F -> fine_tree t ->
  exists h fuel, (forall n, (fuel <= n)%nat -> p_draw n q = Ok (file_text (drawing (bt_cfg t) (bt_root t)), h))
    /\ Permutation (h_cells h) (h_cells (p_heap q)).
Proof.
  intros (EC & EP & ER & EE & H) I FT. unfold fine_tree in FT. rewrite <- EE in FT |- *.
  set (M := blocks_cnode NULL T ++ F) in *.
  assert (I1 : incl (blocks_cnode NULL T) M) by (intros x K; apply in_or_app; now left).
  assert (I2 : incl (sub_blocks (asubs_cnode T)) M) by (intros x K; apply in_or_app; right; now apply I).
  destruct (file_ok (bt_cfg t) M T I1 I2 FT) as (N & W).
  destruct (W M (p_heap q) (incl_refl _) H) as (u & s & h & R & -> & H').
  exists h, N. split.
  - intros n LE. unfold p_draw. rewrite EC, <- ER, (R n LE). reflexivity.
  - destruct H as (_ & _ & P1). destruct H' as (_ & _ & P2). now rewrite P1, P2.
Qed.

(** After every program that does not empty its tree: drawing terminates without an error, the file has the statements of
    the tree, and memory has the blocks it had. *)
Theorem C73_draw {G : Geo} cap minpart maxsplit ds l r st :
  Forall no_empty l -> v_run (mkV (make_tree cap minpart maxsplit ds) []) l = Ok (r, st) ->
  exists q0 q h fuel, p_make_tree cap minpart maxsplit ds = Ok q0
    /\ (forall n, (fuel <= n)%nat -> p_run n q0 l = Ok (r, q)
          /\ p_draw n q = Ok (file_text (drawing (bt_cfg (v_tree st)) (bt_root (v_tree st))), h))
    /\ Permutation (h_cells h) (h_cells (p_heap q)).
Proof.
  intros NE E. destruct (start_ok cap minpart maxsplit ds) as (q0 & M & _ & L).
  assert (FT : fine_tree (v_tree st)) by (apply (run_fine l (mkV (make_tree cap minpart maxsplit ds) []) r st I E)).
  destruct (loose_run _ _ _ _ _ L NE E) as (q & (f1 & R) & (T & F & RP & IN & _)).
  destruct (draw_holds _ _ _ _ RP IN FT) as (h & f2 & D & P).
  exists q0, q, h, (f1 + f2)%nat. split; [exact M|]. split; [|exact P]. intros n LE. split; [apply R; lia|apply D; lia].
Qed.
Print Assumptions C73_draw.

(** The same with empty_tree, for programs with unique ids that insert a made subscription once. *)
Theorem C73_draw_careful {G : Geo} cap minpart maxsplit ds l r st :
  careful (mkV (make_tree cap minpart maxsplit ds) []) l = true ->
  v_run (mkV (make_tree cap minpart maxsplit ds) []) l = Ok (r, st) ->
  exists q0 q h fuel, p_make_tree cap minpart maxsplit ds = Ok q0
    /\ (forall n, (fuel <= n)%nat -> p_run n q0 l = Ok (r, q)
          /\ p_draw n q = Ok (file_text (drawing (bt_cfg (v_tree st)) (bt_root (v_tree st))), h))
    /\ Permutation (h_cells h) (h_cells (p_heap q)).
Proof.
  intros CF E. destruct (start_ok cap minpart maxsplit ds) as (q0 & M & L & _).
  assert (FT : fine_tree (v_tree st)) by (apply (run_fine l (mkV (make_tree cap minpart maxsplit ds) []) r st I E)).
  destruct (exact_run _ _ _ _ _ L CF E) as (q & (f1 & R) & (T & RP & _ & _)).
  destruct (draw_holds _ _ _ _ RP (incl_appl _ (incl_refl _)) FT) as (h & f2 & D & P).
  exists q0, q, h, (f1 + f2)%nat. split; [exact M|]. split; [|exact P]. intros n LE. split; [apply R; lia|apply D; lia].
Qed.
Print Assumptions C73_draw_careful.

(** Every subscription of the tree is shown, as often as it stands in the tree, and no other. *)
Theorem C73_subs c T : ids_shown (drawing c T) = map s_id (subs_cnode T).
Proof. apply ids_drawing. Qed.
Print Assumptions C73_subs.

(** Edges and levels name nodes, groups and cells that the drawing declares. *)
Theorem C73_declared c T : Forall (declared (drawing c T)) (drawing c T).
Proof. apply drawing_declared. Qed.
Print Assumptions C73_declared.

(** *** Cases *)
Definition dot_ds : list domain := [mkD "user-age" (BInt false (-1) 1) true].
Definition dot_eq (z : Z) : src := XAtom (AEq QEq "user-age" (SInt z)).
Definition dot_calls : list call := [CInsert 7 [] (build (dot_eq (-1))); CInsert 9 [] (build (dot_eq 1))].
(** The file after a program. *)
Definition drawn_after (ds : list domain) (l : list call) : option (string * nat * nat) :=
  match p_make_tree 1 0 1000 ds with
  | Ok q0 =>
      match p_run 30 q0 l with
      | Ok (_, q) =>
          match p_draw 30 q with Ok (s, h) => Some (s, List.length (h_cells (p_heap q)), List.length (h_cells h)) | _ => None end
      | _ => None
      end
  | _ => None
  end.

Example C73_case :
  drawn_after dot_ds dot_calls = Some ("digraph {
    compound=true    node [fontsize=20, fontname=""Verdana""];
    ""cnode_root"" [label=""c-node"", color=darkolivegreen3, fillcolor=darkolivegreen3, style=filled, shape=circle, fixedsize=true, width=0.8]
    ""lnode_"" [label=""l-node"", fillcolor=black, style=filled, fontcolor=white, shape=circle, fixedsize=true, width=0.8]
    subgraph ""clusterpdir_"" {
        color=lightpink; fillcolor=lightpink; style=filled; label=""p-directory""; fontsize=20; fontname=""Verdana""
        ""pnode__user_age"" [label=""user-age"", color=cyan2, fillcolor=cyan2, style=filled, shape=record]
    }
    ""pnode__user_age"" [label=""user-age"", color=cyan2, fillcolor=cyan2, style=filled, shape=record]
    ""pnode__user_age_fake"" [label=""p-node"", color=cyan2, fillcolor=cyan2, style=filled, shape=circle, fixedsize=true, width=0.8]
    subgraph ""clustercdir__user_age_18446744073709551615_1"" {
        color=orange; fillcolor=orange; style=filled; label=""c-directory""; fontsize=20; fontname=""Verdana""
        cdir__user_age_18446744073709551615_1 [fillcolor=darkolivegreen3, style=filled, shape=box, label=<
            <table>
                <tr>
                    <td colspan=""2"" port=""cdir__user_age_18446744073709551615_1"">[-1, 1]</td>
                </tr>
                <tr>
                    <td colspan=""1"" port=""cdir__user_age_18446744073709551615_0"">[-1, 0]</td>
                    <td colspan=""1"" port=""cdir__user_age_0_1"">[0, 1]</td>
                </tr>
            </table>
        >]
    }
    ""cnode__user_age_18446744073709551615_0"" [label=""c-node"", color=darkolivegreen3, fillcolor=darkolivegreen3, style=filled, shape=circle, fixedsize=true, width=0.8]
    ""lnode__user_age_18446744073709551615_0"" [label=""l-node"", fillcolor=black, style=filled, fontcolor=white, shape=circle, fixedsize=true, width=0.8]
    ""lnode__user_age_18446744073709551615_0_subs"" [label=<\{S<sub>7</sub>\}>, color=lightblue1, fillcolor=lightblue1, style=filled, shape=record]
    ""cnode__user_age_0_1"" [label=""c-node"", color=darkolivegreen3, fillcolor=darkolivegreen3, style=filled, shape=circle, fixedsize=true, width=0.8]
    ""lnode__user_age_0_1"" [label=""l-node"", fillcolor=black, style=filled, fontcolor=white, shape=circle, fixedsize=true, width=0.8]
    ""lnode__user_age_0_1_subs"" [label=<\{S<sub>9</sub>\}>, color=lightblue1, fillcolor=lightblue1, style=filled, shape=record]
    ""cnode_root"" -> ""lnode_""
    ""cnode_root"" -> ""pnode__user_age"" [lhead=""clusterpdir_""]
    ""pnode__user_age"" -> ""pnode__user_age_fake""
    ""pnode__user_age_fake"" -> ""cdir__user_age_18446744073709551615_1"" [lhead=""clustercdir__user_age_18446744073709551615_1""]
    cdir__user_age_18446744073709551615_1:cdir__user_age_18446744073709551615_0 -> ""cnode__user_age_18446744073709551615_0""
    ""cnode__user_age_18446744073709551615_0"" -> ""lnode__user_age_18446744073709551615_0""
    ""lnode__user_age_18446744073709551615_0"" -> ""lnode__user_age_18446744073709551615_0_subs""
    cdir__user_age_18446744073709551615_1:cdir__user_age_0_1 -> ""cnode__user_age_0_1""
    ""cnode__user_age_0_1"" -> ""lnode__user_age_0_1""
    ""lnode__user_age_0_1"" -> ""lnode__user_age_0_1_subs""
    { rank=same; ""pnode__user_age_fake"" }
    { rank=same; ""cnode__user_age_18446744073709551615_0""""cnode__user_age_0_1"" }
}
"%string, 22%nat, 22%nat).
Proof. vm_compute. reflexivity. Qed.

(** The hypotheses hold for a longer program, with and without empty_tree; its drawing shows all its subscriptions. *)
Example C73_case_run :
  careful link_start link_twice = true /\ Forall no_empty (link_calls 1) /\
  match v_run link_start link_twice with
  | Ok (_, st) => ids_shown (drawing (bt_cfg (v_tree st)) (bt_root (v_tree st))) = [8; 6; 1; 2; 3; 4; 15; 14; 7; 13]%Z
  | _ => False
  end.
Proof. vm_compute. repeat constructor. Qed.
