(** How deep an expression is nested: the stack of the generated parser has 10000 entries at most. *)
From Coq Require Import ZArith List.
From Verif Require Import Lexer.
Import ListNotations.

(** The greatest number of open parentheses, d being open at the start. *)
Fixpoint nesting_from (d : nat) (ts : list token) : nat :=
  match ts with
  | [] => d
  | KLParen :: r => Nat.max d (nesting_from (S d) r)
  | KRParen :: r => Nat.max d (nesting_from (pred d) r)
  | _ :: r => nesting_from d r
  end.
Definition nesting (ts : list token) : nat := nesting_from 0 ts.
(** The number of `not`. *)
Fixpoint nots (ts : list token) : nat :=
  match ts with [] => 0 | KNot :: r => S (nots r) | _ :: r => nots r end.
(** Shallow enough for the stack: five entries for an open parenthesis (as in `a or b and (`), one for a `not`. *)
Definition shallow (ts : list token) : Prop := (5 * Z.of_nat (nesting ts) + Z.of_nat (nots ts) <= 9970)%Z.
