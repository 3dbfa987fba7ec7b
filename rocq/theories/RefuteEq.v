(** Counterexamples about the comparison of expressions. *)
From Coq Require Import ZArith NArith String Ascii Bool List.
From Verif Require Import Base Float Value Ast Config Assign Special Match Bound Tree PredMap Source Api Spec FloatSpec TreeSpec Hist EqExpr.
From Verif Require Import Lexer LexSpec Grammar Parser TextApi TextHist TextLink Check Cases PropsText.
Import ListNotations.
Local Open Scope Z_scope.
Local Open Scope string_scope.

(** Two subscriptions of a tree whose expressions count as equal but that differ on an event. *)
Definition differ (ops : list op) (same : expr -> expr -> Prop) (ev : event) : Prop :=
  exists t log s1 s2 e1 e2,
    reach case_ds t [] log /\ In s1 (subs_cnode (bt_root t)) /\ In s2 (subs_cnode (bt_root t)) /\ log = [e1; e2]
    /\ s_id s1 = e_id e1 /\ s_id s2 = e_id e2 /\ same (s_expr s1) (s_expr s2)
    /\ sem (e_cs e1) ev (e_src e1) = true /\ sem (e_cs e2) ev (e_src e2) = false.
Ltac differs ops :=
  let E := fresh "E" in let t := fresh "t" in let log := fresh "log" in let pend := fresh "pend" in
  destruct (run case_ds 5 0 1000 ops) as [[[t pend] log]|] eqn:E; [|vm_compute in E; discriminate E];
  let R := fresh "R" in pose proof (run_reach _ _ _ _ _ _ _ _ E) as R; vm_compute in E; injection E as <- <- <-;
  eexists _, _, _, _, _, _; split; [exact R|];
  split; [first [left; reflexivity|right; left; reflexivity]|];
  split; [right; left; reflexivity|]; split; [reflexivity|]; repeat split; vm_compute; reflexivity.

(** `is null` and `is not null` of a variable. *)
Definition eq_null_ops : list op := [OInsert 1 [] (XAtom (ANull NIsNull "s")); OInsert 2 [] (XAtom (ANull NIsNotNull "s"))].
Theorem C51_null_refuted : differ eq_null_ops (fun a b => eq_expr a b = true) [("s", None)].
Proof. differs eq_null_ops. Qed.
Print Assumptions C51_null_refuted.

(** Frequency caps of different flights. *)
Definition eq_freq_ops : list op :=
  [OInsert 1 [("flight_id", VInt 20)] (XAtom (AFreq "flight" "ns" 10 0)); OInsert 2 [("flight_id", VInt 30)] (XAtom (AFreq "flight" "ns" 10 0))].
Theorem C51_frequency_refuted : differ eq_freq_ops (fun a b => eq_expr a b = true)
  [("now", Some (VInt 100)); ("frequency_caps", Some (VFreqs [mkCap FTFlight 30 (str "ns") true 0 90]))].
Proof. differs eq_freq_ops. Qed.
Print Assumptions C51_frequency_refuted.

(** Bounds closer than the machine epsilon. *)
Definition close1 : flt := Eval vm_compute in fdiv (f_of_Z 1) (f_of_Z (2 ^ 60)).
Definition close2 : flt := Eval vm_compute in fdiv (f_of_Z 1) (f_of_Z (2 ^ 61)).
Definition eq_float_ops : list op :=
  [OInsert 1 [] (XAtom (ACmp CLt "f" (CFloat close1))); OInsert 2 [] (XAtom (ACmp CLt "f" (CFloat close2)))].
Theorem C51_float_refuted : differ eq_float_ops (fun a b => eq_expr a b = true) [("f", Some (VFloat close2))].
Proof. differs eq_float_ops. Qed.
Print Assumptions C51_float_refuted.

(** So the comparison is not transitive. *)
Definition step (k : Z) : expr := build (XAtom (AEq QEq "f" (SFlt (fdiv (f_of_Z k) (f_of_Z (2 ^ 53)))))).
Theorem C51_transitive_refuted : eq_expr (step 0) (step 1) = true /\ eq_expr (step 1) (step 2) = true /\ eq_expr (step 0) (step 2) = false.
Proof. repeat split; vm_compute; reflexivity. Qed.
Print Assumptions C51_transitive_refuted.

(** The fast comparison takes `and` for `or`. *)
Definition eq_op_ops : list op :=
  [OInsert 1 [] (XOr (i_eq 1) (XAtom (AVar "b"))); OInsert 2 [] (XAnd (i_eq 1) (XAtom (AVar "b")))].
Theorem C51_operator_refuted : differ eq_op_ops (fun a b => fast_eq_expr a b = Ok true)
  [("i", Some (VInt 1)); ("b", Some (VBool false))].
Proof. differs eq_op_ops. Qed.
Print Assumptions C51_operator_refuted.

(** And reads past the operand of `not`. *)
Theorem C51_not_refuted : exists a b, reads "i = 1 and b" a /\ reads "not b" b /\ fast_eq_expr a b = UB.
Proof.
  exists (build (XAnd (i_eq 1) (XAtom (AVar "b")))), (build (XNot (XAtom (AVar "b")))).
  split; [read|]. split; [read|]. reflexivity.
Qed.
Print Assumptions C51_not_refuted.

(** Before the variables are numbered, all variables and all strings are equal. *)
Theorem C51_parsed_refuted : exists a b, reads "s = ""x""" a /\ reads "t = ""y""" b /\ eq_expr a b = true.
Proof.
  exists (build (XAtom (AEq QEq "s" (SStr "x")))), (build (XAtom (AEq QEq "t" (SStr "y")))).
  split; [read|]. split; [read|]. reflexivity.
Qed.
Print Assumptions C51_parsed_refuted.
