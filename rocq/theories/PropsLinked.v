(** The index as the C code has it: structs that point to each other, with parent pointers, counted and
    reallocated arrays, and blocks that have to be released. *)
From Coq Require Import ZArith NArith String Bool List Permutation Lia ZifyBool ZifyNat ZifyN.
From Verif Require Import Base Float Value Ast Config Assign Special Match Bound Tree TreeSpec RbTree PredMap
  Source Api Cases Linked LinkedSpec LinkedHeap LinkedApi LinkedRun.
Import ListNotations.
Local Open Scope Z_scope.

(** *** C56: the linked objects give the answers of the trees *)

(** Every program that does not empty its tree, whatever its ids and however often it inserts a subscription it made. *)
Theorem C56_answers {G : Geo} cap minpart maxsplit ds l r st :
  Forall no_empty l -> v_run (mkV (make_tree cap minpart maxsplit ds) []) l = Ok (r, st) ->
  exists q0 q fuel, p_make_tree cap minpart maxsplit ds = Ok q0
    /\ forall n, (fuel <= n)%nat -> p_run n q0 l = Ok (r, q).
Proof.
  intros NE E. destruct (start_ok cap minpart maxsplit ds) as (q0 & M & _ & L).
  destruct (loose_run _ _ _ _ _ L NE E) as (q & (fuel & R) & _). now exists q0, q, fuel.
Qed.
Print Assumptions C56_answers.

(** With empty_tree: ids are unique in the tree and a made subscription is inserted once. *)
Theorem C56_careful {G : Geo} cap minpart maxsplit ds l r st :
  careful (mkV (make_tree cap minpart maxsplit ds) []) l = true ->
  v_run (mkV (make_tree cap minpart maxsplit ds) []) l = Ok (r, st) ->
  exists q0 q fuel, p_make_tree cap minpart maxsplit ds = Ok q0
    /\ forall n, (fuel <= n)%nat -> p_run n q0 l = Ok (r, q).
Proof.
  intros CF E. destruct (start_ok cap minpart maxsplit ds) as (q0 & M & L & _).
  destruct (exact_run _ _ _ _ _ L CF E) as (q & (fuel & R) & _). now exists q0, q, fuel.
Qed.
Print Assumptions C56_careful.

(** *** C57: every block is released once *)

(** The made subscriptions that were never inserted. *)
Definition kept (st : vstate) : list obj := map (fun x => OSub (fst x)) (filter (fun x => negb (snd x)) (v_made st)).

Lemma pending_kept m l : length m = length l ->
  map snd (sub_blocks (pending m l)) = map (fun x => OSub (fst x)) (filter (fun x : sub * bool => negb (snd x)) m).
Proof.
  revert l. induction m as [|(s, f) m IH]; intros [|a l] E; try discriminate; cbn; [reflexivity|].
  injection E as E. destruct f; cbn; [now apply IH|]. f_equal. now apply IH.
Qed.

(** After betree_free memory has the subscriptions of the caller and nothing else. *)
Theorem C57_free {G : Geo} cap minpart maxsplit ds l r st :
  careful (mkV (make_tree cap minpart maxsplit ds) []) l = true ->
  v_run (mkV (make_tree cap minpart maxsplit ds) []) l = Ok (r, st) ->
  exists q0 q h fuel, p_make_tree cap minpart maxsplit ds = Ok q0
    /\ (forall n, (fuel <= n)%nat -> p_run n q0 l = Ok (r, q) /\ p_free n q = Ok h)
    /\ Permutation (map snd (h_cells h)) (kept st).
Proof.
  intros CF E. destruct (start_ok cap minpart maxsplit ds) as (q0 & M & L & _).
  destruct (exact_run _ _ _ _ _ L CF E) as (q & (f1 & R) & X).
  destruct (exact_free _ _ X) as (h & (f2 & RF) & H). exists q0, q, h, (f1 + f2)%nat. split; [exact M|]. split.
  - intros n LE. split; [apply R; lia|apply RF; lia].
  - destruct X as (T & _ & LN & _). unfold kept. rewrite <- (pending_kept _ _ LN). apply Permutation_map. apply H.
Qed.
Print Assumptions C57_free.

(** Nothing is left when every made subscription was inserted. *)
Theorem C57_no_leak {G : Geo} cap minpart maxsplit ds l r st :
  careful (mkV (make_tree cap minpart maxsplit ds) []) l = true ->
  v_run (mkV (make_tree cap minpart maxsplit ds) []) l = Ok (r, st) ->
  forallb snd (v_made st) = true ->
  exists q0 q h fuel, p_make_tree cap minpart maxsplit ds = Ok q0
    /\ (forall n, (fuel <= n)%nat -> p_run n q0 l = Ok (r, q) /\ p_free n q = Ok h)
    /\ h_cells h = [].
Proof.
  intros CF E A. destruct (C57_free _ _ _ _ _ _ _ CF E) as (q0 & q & h & f & M & R & P).
  exists q0, q, h, f. split; [exact M|]. split; [exact R|].
  assert (K : kept st = []).
  { unfold kept. clear - A. induction (v_made st) as [|(s, b) m IH]; [reflexivity|]. cbn in A. destruct b; [|discriminate]. cbn. now apply IH. }
  rewrite K in P. apply Permutation_sym, Permutation_nil in P. now apply map_eq_nil in P.
Qed.
Print Assumptions C57_no_leak.

Lemma run_app {G : Geo} n l : forall q r q1 k a q2,
  p_run n q l = Ok (r, q1) -> p_call n q1 k = Ok (a, q2) -> p_run n q (l ++ [k]) = Ok (r ++ [a], q2).
Proof.
  induction l as [|k0 l IH]; intros q r q1 k a q2 R K; cbn [p_run app] in *.
  - injection R as <- <-. rewrite K. reflexivity.
  - destruct (p_call n q k0) as [(a0, q3)| | |]; cbn [bind] in *; try discriminate.
    destruct (p_run n q3 l) as [(r0, q4)| | |] eqn:E; cbn [bind] in *; try discriminate.
    injection R as <- <-. now rewrite (IH _ _ _ _ _ _ E K).
Qed.

(** empty_tree leaves the two blocks of an empty tree and the subscriptions of the caller. *)
Theorem C57_empty {G : Geo} cap minpart maxsplit ds l r st :
  careful (mkV (make_tree cap minpart maxsplit ds) []) l = true ->
  v_run (mkV (make_tree cap minpart maxsplit ds) []) l = Ok (r, st) ->
  exists q0 q fuel a b max, p_make_tree cap minpart maxsplit ds = Ok q0
    /\ (forall n, (fuel <= n)%nat -> p_run n q0 (l ++ [CEmpty]) = Ok (r ++ [RNone], q))
    /\ Permutation (map snd (h_cells (p_heap q))) (OCnode NULL b NULL :: OLnode a 0 NULL max :: kept st).
Proof.
  intros CF E. destruct (start_ok cap minpart maxsplit ds) as (q0 & M & L & _).
  destruct (exact_run _ _ _ _ _ L CF E) as (q & (f1 & R) & X).
  destruct X as (T & (EC & EP & ER & EE & H) & LN & ND).
  destruct (proj1 LinkedUse.free_ok T NULL _ _ H) as (h1 & (f2 & RF) & H1).
  destruct (LinkedNode.new_cnode_ok (p_cfg q) NULL h1 _ H1) as (a & la & h2 & NC & H2).
  exists q0, (mkP (p_cfg q) make_pred_map a h2 (p_made q)), (f1 + f2)%nat. do 3 eexists. split; [exact M|]. split.
  - intros n LE. apply (run_app n l q0 r q); [apply R; lia|]. cbn [p_call]. unfold p_empty.
    rewrite <- ER, RF by lia. cbn [bind]. rewrite NC. reflexivity.
  - cbn [p_heap]. destruct H2 as (_ & _ & P). rewrite P, map_app. rewrite (pending_kept _ _ LN). cbn. reflexivity.
Qed.
Print Assumptions C57_empty.

(** *** Cases *)

(** Insertions that split ranges three levels deep, two made subscriptions of which one is inserted, queries. *)
Definition link_calls (k : nat) : list call :=
  [ CInsert 1 [] (build (i_eq 1)); CInsert 2 [] (build (i_eq 2)); CInsert 3 [] (build (XAnd (i_eq 3) (XAtom (AVar "b"))));
    CInsert 4 [] (build (XAtom (ACmp CGt "I" (CInt 7)))); CInsert 5 [] (build (XAtom (AVar "unknown")));
    CInsert 6 [] (build (XAtom (AIn SIn "i" (SInts [9; 2; 9])))); CInsert 7 [] (build (XNot (XAtom (AVar "b"))));
    CInsert 8 [] (build (XAtom (AList LAllOf "il" (SInts [3; 1]))));
    CMake 12 [] (build (XNot (i_eq 5))); CMake 13 [] (build (XAtom (AHas SIn (SStr "a") "sl"))); CInsertSub k;
    CChange (build (XAtom (ACmp CLe "i" (CInt 12)))); CInsert 14 [] (build (i_eq 11)); CInsert 15 [] (build (i_eq 10));
    CSearch case_ev1; CExists case_ev2; CSearch case_ev2; CSearch case_ev3 ]%string.
Definition link_start : vstate := mkV (make_tree 1 0 1000 case_ds) [].
Definition replies (r : list reply) : list (list Z) :=
  map (fun a => match a with RNone => [-3] | RBool false => [-2] | RBool true => [-1] | RReport _ r => r_subs r end) r.

(** The program, the tree emptied, the program again. *)
Definition link_twice : list call := link_calls 1 ++ [CEmpty] ++ link_calls 3.

(** The hypotheses hold. *)
Example C56_case :
  careful link_start link_twice = true /\
  Forall no_empty (link_calls 1 ++ link_calls 1) /\
  match v_run link_start link_twice, v_run link_start (link_calls 1 ++ link_calls 1) with
  | Ok (r, _), Ok (r', _) =>
      (nth 16 (replies r) [], nth 35 (replies r) [], nth 34 (replies r') [])
      = ([8; 6; 4; 7; 13], [8; 6; 4; 7; 13], [6; 4; 6; 4; 7; 7; 13; 13; 8; 8])
  | _, _ => False
  end.
Proof. vm_compute. repeat constructor. Qed.

(** The run on linked objects, computed: the answers, the blocks in use before and after betree_free. *)
Example C57_case :
  match p_make_tree 1 0 1000 case_ds with
  | Ok q0 =>
      match p_run 40 q0 link_twice with
      | Ok (r, q) =>
          match p_free 40 q with
          | Ok h => (nth 16 (replies r) [], nth 35 (replies r) [], length (h_cells (p_heap q)), length (h_cells h))
          | _ => ([], [], 0%nat, 0%nat)
          end
      | _ => ([], [], 0%nat, 0%nat)
      end
  | _ => ([], [], 0%nat, 0%nat)
  end = ([8; 6; 4; 7; 13], [8; 6; 4; 7; 13], 92%nat, 2%nat).
Proof. vm_compute. reflexivity. Qed.
