(** C75: the index keeps its shape through every history of calls whose inserted ids differ. *)
From Coq Require Import ZArith NArith String Bool List Permutation Lia.
From Verif Require Import Base Float Value Ast Config Assign Special Match Bound Tree PredMap Source Api Spec TreeSpec Hist Calls Check Cases Refute ShapeSpec.
From Verif Require Import CallProofs PropsCalls ShapeProofs.
Import ListNotations.
Local Open Scope Z_scope.

(** Everywhere in the index: no two partitions of a node have the same variable; a partition's variable is
    declared and is not that of a partition above; the subscriptions of a node ask about none of the variables
    of its partitions; everything below a partition asks about its variable; a partition holds at least one
    subscription and at least as many as the configured minimum (an 8-bit number); a range that is not divided
    has no partitions unless it is a single value; the two parts of a divided range fit together. *)
Theorem C75_shape : forall cap minpart maxsplit ds t made ids,
  calls cap minpart maxsplit ds t made ids -> NoDup ids ->
  shaped_cnode about (List.length ds) (minpart mod 256) [] (bt_root t).
Proof. exact calls_shaped. Qed.
Print Assumptions C75_shape.

(** At most as many partitions lie inside each other as there are variables. *)
Theorem C75_depth : forall cap minpart maxsplit ds t made ids,
  calls cap minpart maxsplit ds t made ids -> NoDup ids ->
  (depth_cnode (bt_root t) <= List.length ds)%nat.
Proof.
  intros cap minpart maxsplit ds t made ids K ND. apply calls_shaped in K; [|exact ND].
  apply (proj1 (shaped_depth _ _ _)) in K; [exact K|constructor|intros v []].
Qed.
Print Assumptions C75_depth.

(** The number of partitions is at most the number of variables times that of subscriptions. *)
Theorem C75_size : forall cap minpart maxsplit ds t made ids,
  calls cap minpart maxsplit ds t made ids -> NoDup ids ->
  (size_cnode (bt_root t) <= List.length ds * List.length ids)%nat.
Proof.
  intros cap minpart maxsplit ds t made ids K ND. pose proof (Permutation_length (calls_subs _ _ _ _ _ _ _ K ND)) as L.
  rewrite map_length in L. apply calls_shaped in K; [|exact ND].
  apply (proj1 (shaped_size _ _ _)) in K; [|constructor|intros v []]. rewrite L in K. cbn [List.length] in K. now rewrite Nat.sub_0_r in K.
Qed.
Print Assumptions C75_size.

(** The variables recorded with a subscription are exactly those its expression asks about, however it was made. *)
Theorem C75_recorded : forall cap minpart maxsplit ds t made ids s v,
  calls cap minpart maxsplit ds t made ids -> NoDup ids -> In s made \/ In s (subs_cnode (bt_root t)) ->
  (N.testbit (nth (N.to_nat (v / 64)) (s_vars s) 0%N) (v mod 64) = true <-> about v s).
Proof.
  intros cap minpart maxsplit ds t made ids s v K ND I.
  assert (T : told s).
  { destruct (calls_facts _ _ _ _ _ _ _ K) as (_ & _ & A). destruct (calls_shape _ _ _ _ _ _ _ K ND) as (_ & B).
    rewrite Forall_forall in A, B. destruct I; auto. }
  rewrite <- (T v). unfold hasb, has_attr. rewrite BaseProofs.test_bit_bit. unfold BaseProofs.bit.
  rewrite BaseProofs.nthN_nth. destruct (nth_error (s_vars s) (N.to_nat (v / 64))) as [w|] eqn:E.
  - now rewrite (nth_error_nth _ _ _ E).
  - apply nth_error_None in E. rewrite (nth_overflow _ _ E), N.bits_0. reflexivity.
Qed.
Print Assumptions C75_recorded.

(** *** Cases *)
Definition shape_ds : list domain :=
  [ mkD "i" (BInt false 0 20) false; mkD "b" (BBool false true) true; mkD "c" (BBool false true) true ]%string.
Definition shape_b : src := XAtom (AVar "b")%string.
Definition shape_c : src := XAtom (AVar "c")%string.
Definition shape_i (n : Z) : src := XAtom (AEq QEq "i" (SInt n))%string.
Definition shape_log : list entry :=
  [ mkE 1 [] (XAnd (shape_i 3) (XAnd shape_b shape_c)); mkE 2 [] (XAnd (shape_i 3) shape_b); mkE 3 [] (XAnd (shape_i 3) shape_c);
    mkE 4 [] (shape_i 7); mkE 5 [] (shape_i 15); mkE 6 [] shape_b; mkE 7 [] shape_c; mkE 8 [] (XAnd shape_b shape_c);
    mkE 9 [] (XOr (shape_i 3) (shape_i 18)); mkE 10 [] (shape_i 3) ].
Definition shape_t (minpart : Z) : betree :=
  match insert_all (make_tree 1 minpart 1000 shape_ds) shape_log with Ok t => t | _ => make_tree 1 minpart 1000 shape_ds end.
Lemma shape_calls minpart : insert_all (make_tree 1 minpart 1000 shape_ds) shape_log = Ok (shape_t minpart) ->
  calls 1 minpart 1000 shape_ds (shape_t minpart) [] [1; 2; 3; 4; 5; 6; 7; 8; 9; 10].
Proof.
  intros E. apply (insert_all_calls 1 minpart 1000 shape_ds [] shape_log (make_tree 1 minpart 1000 shape_ds) []); [apply k_start|exact E].
Qed.
(** The subscriptions and the labels of all nodes. *)
Fixpoint nodes_cnode (cn : cnode) : list (list Z * list N) :=
  match cn with CNode _ subs ps => (map s_id subs, labels ps) :: nodes_pdir ps end
with nodes_pdir (ps : pdir) : list (list Z * list N) :=
  match ps with PNil => [] | PCons _ _ cd rest => nodes_cdir cd ++ nodes_pdir rest end
with nodes_cdir (cd : cdir) : list (list Z * list N) :=
  match cd with CLeaf _ cn => nodes_cnode cn | CSplit _ cn l r => nodes_cnode cn ++ nodes_cdir l ++ nodes_cdir r end.
Definition busy (l : list (list Z * list N)) : list (list Z * list N) :=
  filter (fun x => negb (match x with ([], []) => true | _ => false end)) l.
(** Without a minimum the partitions of all three variables lie inside each other, and with a minimum of 2
    fewer partitions are made. *)
Example C75_case :
  calls 1 0 1000 shape_ds (shape_t 0) [] [1; 2; 3; 4; 5; 6; 7; 8; 9; 10] /\ NoDup [1; 2; 3; 4; 5; 6; 7; 8; 9; 10]
  /\ busy (nodes_cnode (bt_root (shape_t 0)))
     = [([7], [1%N; 0%N]); ([6], [0%N; 2%N]); ([2], [2%N]); ([1], []); ([8], []); ([9], []); ([10], [2%N]); ([3], []); ([4], []); ([5], [])]
  /\ depth_cnode (bt_root (shape_t 0)) = List.length shape_ds
  /\ size_cnode (bt_root (shape_t 0)) = 6%nat.
Proof.
  split; [apply shape_calls; vm_compute; reflexivity|]. split; [repeat constructor; cbn [In]; intuition discriminate|].
  vm_compute. auto.
Qed.
Example C75_case_min :
  calls 1 2 1000 shape_ds (shape_t 2) [] [1; 2; 3; 4; 5; 6; 7; 8; 9; 10]
  /\ busy (nodes_cnode (bt_root (shape_t 2)))
     = [([7], [1%N; 0%N]); ([6; 8], [0%N]); ([1; 2], []); ([9], []); ([3; 10], []); ([4], []); ([5], [])]
  /\ size_cnode (bt_root (shape_t 2)) = 3%nat.
Proof. split; [apply shape_calls; vm_compute; reflexivity|]. vm_compute. auto. Qed.
(** Trees without the shape: a subscription left in the node though it asks about the label; the same label
    twice; a label used again below; a partition with too few subscriptions. *)
Definition shape_s : sub :=
  match make_sub (mkC shape_ds 1 0 1000 [] []) 1 (ELeaf 0 (PVar (mkAV "b" 1))) with Ok s => s | _ => mkSub 0 (ELeaf 0 (PLit true)) [] [] [] end.
Example C75_not :
  let s := shape_s in
  let cd := CLeaf (BBool false true) (CNode 1 [s] PNil) in
  shaped_cnode about 3 1 [] (CNode 1 [] (PCons 1 (f_of_Z 0) cd PNil))
  /\ ~ shaped_cnode about 3 1 [] (CNode 1 [s] (PCons 1 (f_of_Z 0) cd PNil))
  /\ ~ shaped_cnode about 3 1 [] (CNode 1 [] (PCons 1 (f_of_Z 0) cd (PCons 1 (f_of_Z 0) cd PNil)))
  /\ ~ shaped_cnode about 3 1 [1%N] (CNode 1 [] (PCons 1 (f_of_Z 0) cd PNil))
  /\ ~ shaped_cnode about 3 2 [] (CNode 1 [] (PCons 1 (f_of_Z 0) cd PNil))
  /\ ~ shaped_cnode about 3 1 [] (CNode 1 [] (PCons 2 (f_of_Z 0) cd PNil)).
Proof.
  intros s cd.
  assert (A : about 1 s) by (exists (PVar (mkAV "b" 1)); split; now left).
  assert (D : ~ about 2 s) by (intros (p & [<-|[]] & [K|[]]); discriminate).
  split; [|split; [|split; [|split; [|split]]]].
  - cbn. split; [repeat constructor; intros []|]. split.
    + intros v [<-|[]]. split; [easy|]. split; [lia|easy].
    + split; [intros x [<-|[]]; exact A|]. split; [lia|]. split; [|easy]. split; [now left|]. split; [constructor|]. split; [easy|easy].
  - intros (_ & B & _). destruct (B 1%N (or_introl eq_refl)) as (_ & _ & C). now apply (C s (or_introl eq_refl)).
  - intros (B & _). inversion B as [|x l N _]. apply N. now left.
  - intros (_ & B & _). destruct (B 1%N (or_introl eq_refl)) as (C & _). apply C. now left.
  - intros (_ & _ & _ & (_ & B) & _). cbn in B. lia.
  - intros (_ & _ & B & _). apply D, B. now left.
Qed.
