(** The ledger: which blocks of memory are allocated.

    The functions of the library are run a second time here with every pointer to allocated memory as an address.  The
    contents stay with the pointers; the memory says which addresses are allocated.  Freeing an address that is not
    allocated, or using one, is undefined.  Memory never runs out. *)
From Coq Require Import ZArith List Bool.
From Verif Require Import Base.
Import ListNotations.
Local Open Scope Z_scope.

(** The next new address and the allocated addresses.  0 is NULL. *)
Record ledger := mkLedger { l_next : Z; l_live : list Z }.

(** A computation on the memory. *)
Definition cmd (A : Type) : Type := ledger -> result (A * ledger).
Definition ret {A} (a : A) : cmd A := fun m => Ok (a, m).
Definition fail {A} (r : result A) : cmd A := fun m => bind r (fun a => Ok (a, m)).
Definition then_ {A B} (c : cmd A) (k : A -> cmd B) : cmd B :=
  fun m => bind (c m) (fun x => let '(a, m') := x in k a m').
Declare Scope led_scope.
Delimit Scope led_scope with led.
Notation "'on' x <- c ; k" := (then_ c (fun x => k))
  (at level 200, x pattern, c at level 100, k at level 200, right associativity) : led_scope.
Notation "'on' ' x <- c ; k" := (then_ c (fun x => k))
  (at level 200, x pattern, c at level 100, k at level 200, right associativity) : led_scope.
Local Open Scope led_scope.

(** Is the address allocated? *)
Definition is_live (m : ledger) (a : Z) : bool := existsb (Z.eqb a) (l_live m).
Fixpoint drop_one (a : Z) (l : list Z) : list Z :=
  match l with [] => [] | b :: t => if a =? b then t else b :: drop_one a t end.

(** alloc.h 3-16: bmalloc, bcalloc. *)
Definition malloc : cmd Z := fun m => Ok (l_next m, mkLedger (l_next m + 1) (l_next m :: l_live m)).
(** Reading or writing through a pointer. *)
Definition use (a : Z) : cmd unit := fun m => if is_live m a then Ok (tt, m) else UB.
(** alloc.h 3-16: bfree; free(NULL) does nothing. *)
Definition free (a : Z) : cmd unit :=
  fun m => if a =? 0 then Ok (tt, m) else
           if is_live m a then Ok (tt, mkLedger (l_next m) (drop_one a (l_live m))) else UB.
(** alloc.h 3-16: brealloc; the block moves. *)
Definition realloc (a : Z) : cmd Z := on _ <- use a; on b <- malloc; on _ <- free a; ret b.

(** Loops over arrays. *)
Fixpoint each {A} (f : A -> cmd unit) (l : list A) : cmd unit :=
  match l with [] => ret tt | x :: t => on _ <- f x; each f t end.
Fixpoint collect {A B} (f : A -> cmd B) (l : list A) : cmd (list B) :=
  match l with [] => ret [] | x :: t => on y <- f x; on ys <- collect f t; ret (y :: ys) end.
