(** Basic notions: outcomes of C computations, machine limits, bit sets. *)
From Coq Require Import ZArith NArith List Bool Lia.
Import ListNotations.
Set Implicit Arguments.

(** Outcome of a modelled C computation.  [Abort] is a call of [abort()],
    [UB] is undefined behaviour or a read of an uninitialised or out-of-bounds
    object, [Fuel] means that the recursion bound of the model was used up (the C code
    would go on). *)
Inductive result (A : Type) : Type :=
| Ok (a : A)
| Abort
| UB
| Fuel.
Arguments Ok {A} _.
Arguments Abort {A}.
Arguments UB {A}.
Arguments Fuel {A}.

(** Sequencing of outcomes: the C code stops at abort() (tree.c, ast.c, betree.c throughout). *)
Definition bind {A B} (r : result A) (f : A -> result B) : result B :=
  match r with Ok a => f a | Abort => Abort | UB => UB | Fuel => Fuel end.

Declare Scope res_scope.
Delimit Scope res_scope with res.
Notation "'do' x <- r ; k" := (bind r (fun x => k))
  (at level 200, x pattern, r at level 100, k at level 200, right associativity) : res_scope.
Notation "'do' ' x <- r ; k" := (bind r (fun x => k))
  (at level 200, x pattern, r at level 100, k at level 200, right associativity) : res_scope.

(** 64-bit limits (stdint.h). *)
Definition INT64_MIN : Z := (- 2 ^ 63)%Z.
(** stdint.h. *)
Definition INT64_MAX : Z := (2 ^ 63 - 1)%Z.
(** stdint.h. *)
Definition UINT64_MAX : Z := (2 ^ 64 - 1)%Z.
(** stdint.h, 64-bit size_t. *)
Definition SIZE_MAX : Z := UINT64_MAX.

(** value.h 10: INVALID_VAR; value.h 12: INVALID_STR; value.h 16: INVALID_IENUM;
    memoize.h 7: INVALID_PRED. All are UINT64_MAX. *)
Definition INVALID_VAR : N := (2 ^ 64 - 1)%N.
(** value.h 12. *)
Definition INVALID_STR : Z := UINT64_MAX.
(** value.h 16. *)
Definition INVALID_IENUM : Z := UINT64_MAX.
(** memoize.h 7. *)
Definition INVALID_PRED : N := (2 ^ 64 - 1)%N.

(** Range of int64_t (value.h 78-91, integer_value). *)
Definition is_int64 (z : Z) : Prop := (INT64_MIN <= z <= INT64_MAX)%Z.

(** Conversion of an integer to [int32_t] / [uint32_t] / [uint8_t] (wrap-around). *)
Definition to_uint (bits : Z) (z : Z) : Z := (z mod 2 ^ bits)%Z.
(** Conversion to int32_t (special.h, ast.h 199-206): wrap-around. *)
Definition to_sint (bits : Z) (z : Z) : Z :=
  let m := (z mod 2 ^ bits)%Z in
  if (m <? 2 ^ (bits - 1))%Z then m else (m - 2 ^ bits)%Z.

(** Array access with an [N] index. *)
Fixpoint nthN {A} (l : list A) (n : N) : option A :=
  match l with
  | [] => None
  | x :: t => if (n =? 0)%N then Some x else nthN t (N.pred n)
  end.

(** Array update A[i] = x with an [N] index (memoize.c 5-13). *)
Fixpoint updN {A} (l : list A) (n : N) (a : A) : list A :=
  match l with
  | [] => []
  | x :: t => if (n =? 0)%N then a :: t else x :: updN t (N.pred n) a
  end.

(** Bit sets: arrays of 64-bit words (memoize.c).  Words are [N]; out-of-range word
    indices read as [UB]-free 0 here, the range condition is stated in theorems. *)
Definition bits := list N.

(** bcalloc(count * sizeof(uint64_t)) with count = n / 64 + 1
    (tree.c 1595-1600, 1701-1705, 1717-1718). *)
Definition make_bits (n : N) : bits := repeat 0%N (N.to_nat (n / 64 + 1)).

(** memoize.c 5-8 [set_bit]: A[k/64] |= 1 << (k % 64). *)
Definition set_bit (A : bits) (k : N) : bits :=
  match nthN A (k / 64) with
  | Some w => updN A (k / 64) (N.lor w (N.shiftl 1 (k mod 64)))
  | None => A
  end.

(** memoize.c 10-13 [clear_bit]: A[k/64] &= ~(1 << (k % 64)). *)
Definition clear_bit (A : bits) (k : N) : bits :=
  match nthN A (k / 64) with
  | Some w => updN A (k / 64) (N.ldiff w (N.shiftl 1 (k mod 64)))
  | None => A
  end.

(** memoize.c 15-18 [test_bit]: (A[k/64] & (1 << (k % 64))) != 0. *)
Definition test_bit (A : bits) (k : N) : bool :=
  match nthN A (k / 64) with
  | Some w => negb (N.land w (N.shiftl 1 (k mod 64)) =? 0)%N
  | None => false
  end.
