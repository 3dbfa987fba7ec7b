(** What does not hold of the generated parsers. *)
From Coq Require Import ZArith String Bool List Lia ZifyBool ZifyNat.
From Verif Require Import Base Value Ast Lexer Grammar Parser ParseProofs Flex Bison BisonTables BisonSpec.
Import ListNotations.
Local Open Scope Z_scope.
Local Open Scope res_scope.

(** Shifting the same token again and again fills the stack. *)
Lemma fill t p n : lookahead xp_tables xp_code [t] = Ok (xp_code t - 255) -> p <> 49 ->
  move_of xp_tables 0 (Ok (xp_code t - 255)) = Ok (Shift p) -> move_of xp_tables p (Ok (xp_code t - 255)) = Ok (Shift p) ->
  (exists p', move_of xp_tables p (Ok 31) = Ok (Shift p')) ->
  forall q v st ts r f, q = 0 \/ q = p /\ (1 <= List.length st)%nat ->
  9999 <= Z.of_nat n + Z.of_nat (List.length ((q, v) :: st)) -> q = p \/ (1 <= n)%nat ->
  (n + 1 < f)%nat -> run xp_tables xp_code xp_lval XTok xp_act f ((q, v) :: st) (repeat t n ++ KTrue :: ts) r = Ok Exhausted.
Proof.
  intros Et Np M0 Mp (p' & Mt).
  assert (F : forall q v (st : @stack xval) ts r f, YYMAXDEPTH <= Z.of_nat (List.length ((q, v) :: st)) ->
    run xp_tables xp_code xp_lval XTok xp_act (S f) ((q, v) :: st) ts r = Ok Exhausted).
  { intros q v st ts r f H. cbn [run]. unfold step. rewrite (proj2 (Z.leb_le _ _) H). reflexivity. }
  induction n as [|n IH]; intros q v st ts r f Q B N Hf.
  - destruct N as [->|N]; [|lia]. destruct f as [|f]; [lia|].
    destruct (YYMAXDEPTH <=? Z.of_nat (List.length ((p, v) :: st))) eqn:E; [apply F; lia|].
    destruct f as [|f]; [lia|]. cbn [run]. unfold step at 1. rewrite E.
    change (p_final xp_tables) with 49. rewrite (proj2 (Z.eqb_neq _ _) Np).
    cbn [repeat app]. change (lookahead xp_tables xp_code (KTrue :: ts)) with (Ok 31). rewrite Mt. cbn [bind].
    apply (F p' (xp_lval KTrue) ((p, v) :: st)). cbn [List.length] in *. unfold YYMAXDEPTH in *. lia.
  - destruct f as [|f]; [lia|].
    destruct (YYMAXDEPTH <=? Z.of_nat (List.length ((q, v) :: st))) eqn:E; [apply F; lia|].
    assert (Nq : q <> 49) by (destruct Q as [->|(-> & _)]; [discriminate|exact Np]).
    cbn [run]. unfold step. rewrite E. change (p_final xp_tables) with 49. rewrite (proj2 (Z.eqb_neq _ _) Nq).
    cbn [repeat app].
    change (lookahead xp_tables xp_code (t :: repeat t n ++ KTrue :: ts)) with (lookahead xp_tables xp_code [t]).
    rewrite Et. replace (move_of xp_tables q (Ok (xp_code t - 255))) with (Ok (Shift p)) by (destruct Q as [->|(-> & _)]; congruence).
    cbn [bind]. apply IH; [right; cbn [List.length]; split; [reflexivity|lia]|cbn [List.length] in *; lia|now left|lia].
Qed.

(** "The generated parser accepts every text of the grammar": its stack has 10000 entries at most, so enough `not` in a row
    are refused (yyparse returns 2 and prints "memory exhausted")… *)
Theorem C55_deep_not_refuted n : 9998 <= Z.of_nat n ->
  exists e, derives LOr (repeat KNot n ++ [KTrue]) e /\ xxparse (repeat KNot n ++ [KTrue]) = Ok Exhausted.
Proof.
  intros H.
  assert (D : exists e, derives LUn (repeat KNot n ++ [KTrue]) e).
  { clear H. induction n as [|n (e & IH)].
    - eexists. apply d_atom, ga_true.
    - exists (mk_not e). now apply d_not. }
  destruct D as (e & D). exists e. split; [now apply d_or_and, d_and_un|].
  unfold xxparse, yyparse. apply (fill KNot 3).
  - reflexivity.
  - discriminate.
  - reflexivity.
  - reflexivity.
  - eexists. reflexivity.
  - now left.
  - cbn [List.length]. lia.
  - lia.
  - rewrite app_length, repeat_length. cbn [List.length]. lia.
Qed.
Print Assumptions C55_deep_not_refuted.
(** … and enough open parentheses. *)
Theorem C55_deep_paren_refuted n : 9998 <= Z.of_nat n ->
  derives LOr (repeat KLParen n ++ KTrue :: repeat KRParen n) (mk_leaf (PLit true)) /\
  xxparse (repeat KLParen n ++ KTrue :: repeat KRParen n) = Ok Exhausted.
Proof.
  intros H. split.
  - apply d_or_and, d_and_un. clear H. induction n as [|n IH].
    + apply d_atom, ga_true.
    + replace (repeat KLParen (S n) ++ KTrue :: repeat KRParen (S n))%list
        with (KLParen :: (repeat KLParen n ++ KTrue :: repeat KRParen n) ++ [KRParen])%list.
      * apply d_paren. now apply d_or_and, d_and_un.
      * rewrite <- app_assoc. cbn [app]. rewrite <- repeat_cons. reflexivity.
  - unfold xxparse, yyparse. apply (fill KLParen 2).
    + reflexivity.
    + discriminate.
    + reflexivity.
    + reflexivity.
    + eexists. reflexivity.
    + now left.
    + cbn [List.length]. lia.
    + lia.
    + rewrite app_length. cbn [List.length]. rewrite !repeat_length. lia.
Qed.
Print Assumptions C55_deep_paren_refuted.
(** A few levels are fine. *)
Example C55_deep_case :
  xxparse (repeat KNot 30 ++ [KTrue]) = Ok (Accepted (parse_tokens (repeat KNot 30 ++ [KTrue]))) /\
  parse_tokens (repeat KNot 30 ++ [KTrue]) <> None /\
  xxparse (repeat KLParen 30 ++ KTrue :: repeat KRParen 30) = Ok (Accepted (Some (mk_leaf (PLit true)))).
Proof. vm_compute. repeat split; try reflexivity. intros H; discriminate H. Qed.
