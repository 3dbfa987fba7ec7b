(** C18: bounded strings.  The property as stated is false (Refute.v: C18_refuted, C18_capital_refuted);
    here is what holds. *)
From Coq Require Import ZArith NArith String Bool List.
From Verif Require Import Base Float Value Ast Config Assign Source Api Spec Hist Bounded BoundedProofs Cases Refute.
Import ListNotations.
Local Open Scope Z_scope.

(** Insertions never register more strings for a variable than its bound. *)
Theorem C18_bound_kept_partial : forall ds t log x n v d,
  inserted ds t log -> has_room ds x n -> decl ds x = Some (v, d) ->
  Z.of_nat (List.length (strs (bt_cfg t) v)) <= n.
Proof.
  intros ds t log x n v d I (L & v' & d' & ty & lo & hi & D & B & -> & H) E. rewrite D in E. injection E as <- <-.
  exact (proj2 (bound_kept ds x v' d' ty lo hi D L B H t log I)).
Qed.
Print Assumptions C18_bound_kept_partial.

(** An expression with one predicate that brings a new string and needs, with the strings of the accepted
    subscriptions, more than the bound is refused, and the tree is unchanged.  Missing: strings spread over
    several predicates of the expression; names written with capitals; frequency caps. *)
Theorem C18_predicate_partial : forall ds t log x n id cs y a s b t',
  inserted ds t log -> has_room ds x n -> x <> "frequency_caps"%string ->
  (forall e, In e log -> named_as x (e_src e)) -> named_as x y ->
  In a (src_atoms y) -> In s (strings_for x (atom_strs a)) -> ~ In s (log_strings x log) ->
  n < Z.of_nat (List.length (nodup string_dec (log_strings x log ++ strings_for x (atom_strs a)))) ->
  betree_insert_with_constants t id cs y = Ok (b, t') -> b = false /\ t' = t.
Proof.
  intros ds t log x n id cs y a s b t' I (L & v & d & ty & lo & hi & D & B & -> & H) F N N' A S1 S2 Z R.
  exact (predicate_refused ds x v d ty lo hi D L B H F t log id cs y t' a s b I N N' A S1 S2 Z R).
Qed.
Print Assumptions C18_predicate_partial.

(** When every expression has all its strings for the variable in one predicate and writes its name in lower
    case, an expression that needs more distinct strings than the bound (with those of the subscriptions
    accepted before) is refused, and the tree is unchanged. *)
Theorem C18_expression_partial : forall ds t log x n id cs y b t',
  inserted ds t log -> has_room ds x n -> x <> "frequency_caps"%string ->
  (forall e, In e log -> named_as x (e_src e) /\ one_use x (e_src e)) -> named_as x y -> one_use x y ->
  n < Z.of_nat (List.length (nodup string_dec (log_strings x log ++ src_strings x y))) ->
  betree_insert_with_constants t id cs y = Ok (b, t') -> b = false /\ t' = t.
Proof.
  intros ds t log x n id cs y b t' I (L & v & d & ty & lo & hi & D & B & -> & H) F N N' O Z R.
  exact (expression_refused ds x v d ty lo hi D L B H F t log id cs y t' b I (fun e E => proj1 (N e E)) (fun e E => proj2 (N e E)) N' O Z R).
Qed.
Print Assumptions C18_expression_partial.

(** A variable with room for two strings: "a" and "b" are taken, "c" is refused, "b" is not. *)
Definition two_ds : list domain := [mkD "s" (BStr TStr 0 1) true].
Definition two_log : list entry := [mkE 1 [] (XAtom (AIn SIn "s" (SStrs ["a"%string; "b"%string])))].
Definition two_t : betree := Eval vm_compute in
  match insert_all (make_tree 3 0 1000 two_ds) two_log with Ok t => t | _ => make_tree 3 0 1000 two_ds end.
Example C18_case : inserted two_ds two_t two_log /\ has_room two_ds "s" 2
  /\ (forall e, In e two_log -> named_as "s" (e_src e) /\ one_use "s" (e_src e))
  /\ named_as "s" (s_eq "c") /\ one_use "s" (s_eq "c")
  /\ 2 < Z.of_nat (List.length (nodup string_dec (log_strings "s" two_log ++ src_strings "s" (s_eq "c"))))
  /\ betree_insert two_t 2 (s_eq "c") = Ok (false, two_t)
  /\ exists t', betree_insert two_t 2 (s_eq "b") = Ok (true, t').
Proof.
  split; [|split; [|split; [|split; [|split; [|split; [|split]]]]]].
  - change two_log with ([] ++ two_log)%list. unfold two_log. eapply i_yes; [exact (i_new two_ds 3 0 1000)|]. vm_compute. reflexivity.
  - split; [reflexivity|]. do 5 eexists. split; [vm_compute; reflexivity|]. split; [reflexivity|]. split; [reflexivity|]. now vm_compute.
  - intros e [<-|[]]. split.
    + intros a s [E|[E|[]]] _; injection E as <- <-; reflexivity.
    + intros a b [<-|[]] [<-|[]] _ _. reflexivity.
  - intros a s [E|[]] _; injection E as <- <-; reflexivity.
  - intros a b [<-|[]] [<-|[]] _ _. reflexivity.
  - vm_compute. reflexivity.
  - vm_compute. reflexivity.
  - eexists. vm_compute. reflexivity.
Qed.
