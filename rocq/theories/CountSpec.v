(** What the counters of a report count: a second description of a search that keeps the list of the
    predicates decided so far instead of bit tables. *)
From Coq Require Import ZArith NArith String Bool List.
From Verif Require Import Base Float Value Ast Config Special Match Bound Tree BaseProofs EvalProofs.
Import ListNotations.

(** The variables without a value. *)
Fixpoint unset_from (p : env) (v : N) : list N :=
  match p with
  | [] => []
  | None :: p' => v :: unset_from p' (v + 1)
  | Some _ :: p' => unset_from p' (v + 1)
  end.
(** A variable without a value decides the subscription: its bit is set in one of the two masks. *)
Definition early (p : env) (s : sub) : bool :=
  existsb (fun v => bit (s_pass s) v || bit (s_fail s) v) (unset_from p 0).

Section WithGeo.
  Context {G : Geo}.
  (** The value of an expression on its own. *)
  Definition holds (p : env) (e : expr) : bool := match eval p e with Ok b => b | _ => false end.
  (** What a visit says of a subscription.  The masks are read in groups of 64 variables; in the first group in
      which a variable without a value has a bit, a pass bit decides before a fail bit.  Without such a group, the
      expression decides. *)
  Definition verdict (p : env) (s : sub) : bool :=
    match find (fun v => bit (s_pass s) v || bit (s_fail s) v) (unset_from p 0) with
    | Some v => existsb (fun w => (w / 64 =? v / 64)%N && bit (s_pass s) w) (unset_from p 0)
    | None => holds p (s_expr s)
    end.

  (** A visit of [e] when the predicates [seen] are decided: how many parts are found decided, and what is
      decided afterwards.  The second operand is visited only if the first leaves the result open. *)
  Fixpoint visit (p : env) (e : expr) (seen : list N) : nat * list N :=
    if existsb (N.eqb (gid e)) seen then (1%nat, seen)
    else
      let (n, seen') :=
        match e with
        | ELeaf _ _ => (0%nat, seen)
        | ENot _ a => visit p a seen
        | EAnd _ a b =>
            let (na, sa) := visit p a seen in
            if holds p a then let (nb, sb) := visit p b sa in (na + nb, sb)%nat else (na, sa)
        | EOr _ a b =>
            let (na, sa) := visit p a seen in
            if holds p a then (na, sa) else let (nb, sb) := visit p b sa in (na + nb, sb)%nat
        end in
      (n, gid e :: seen').
  (** Visits of several expressions, one after the other. *)
  Fixpoint visits (p : env) (l : list expr) (seen : list N) : nat :=
    match l with
    | [] => 0%nat
    | e :: l' => let (n, seen') := visit p e seen in (n + visits p l' seen')%nat
    end.
End WithGeo.
