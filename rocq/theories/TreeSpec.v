(** What a tree holds, and what its leaves look like: read off the tree structure only. *)
From Coq Require Import ZArith NArith String Bool List.
From Verif Require Import Base Float FloatSpec Value Ast Config Special Match Source Bound Tree Api Spec.
Import ListNotations.
Local Open Scope Z_scope.

(** All subscriptions of a (sub)tree. *)
Fixpoint subs_cnode (cn : cnode) : list sub :=
  match cn with CNode _ subs ps => subs ++ subs_pdir ps end
with subs_pdir (ps : pdir) : list sub :=
  match ps with PNil => [] | PCons _ _ cd rest => subs_cdir cd ++ subs_pdir rest end
with subs_cdir (cd : cdir) : list sub :=
  match cd with
  | CLeaf _ cn => subs_cnode cn
  | CSplit _ cn l r => subs_cnode cn ++ subs_cdir l ++ subs_cdir r
  end.

(** All leaves: capacity and number of subscriptions. *)
Fixpoint leaves_cnode (cn : cnode) : list (Z * nat) :=
  match cn with CNode m subs ps => (m, length subs) :: leaves_pdir ps end
with leaves_pdir (ps : pdir) : list (Z * nat) :=
  match ps with PNil => [] | PCons _ _ cd rest => leaves_cdir cd ++ leaves_pdir rest end
with leaves_cdir (cd : cdir) : list (Z * nat) :=
  match cd with
  | CLeaf _ cn => leaves_cnode cn
  | CSplit _ cn l r => leaves_cnode cn ++ leaves_cdir l ++ leaves_cdir r
  end.

(** Sensible declarations (what the add_attr_domain_* functions of config.c 109-197 produce for
    lower end <= upper end). *)
Definition dom_fine (b : bound) : Prop :=
  match b with
  | BBool lo hi => lo = false /\ hi = true
  | BInt _ lo hi => INT64_MIN <= lo /\ lo <= hi /\ hi <= INT64_MAX
  | BStr t lo hi => (t = TStr \/ t = TStrList \/ t = TIEnum) /\ lo = 0 /\ 0 <= hi <= SIZE_MAX
  | _ => True
  end.
(** No float variable is ever split: it has no declared bounds, or they are too far apart. *)
Definition whole_floats (c : config) : Prop :=
  forall d lo hi, In d (c_domains c) -> d_bound d = BFloat lo hi -> splitable c (d_bound d) = Ok false.

(** A multiple of 2^-10, at most 2^40 in absolute value. *)
Definition coarse (f : flt) : Prop := canonical f /\ exists a, units f = a * 2 ^ 1064 /\ Z.abs a <= 2 ^ 50.
(** A float range with two ends, which are numbers. *)
Definition finite_range (b : bound) : Prop :=
  match b with
  | BFloat lo hi => canonical lo /\ canonical hi /\ units lo <= units hi
                    /\ feq lo (fopp DBL_MAX) = false /\ feq hi DBL_MAX = false
  | _ => False
  end.
(** The width is a whole number. *)
Definition whole_width (lo hi : flt) : Prop := exists k, units hi - units lo = k * 2 ^ 1074.
(** Float ranges that may be split: as long as they are narrow enough to be split, their ends are multiples
    of 2^-10 and, if that is asked for, their widths are whole numbers; a range with two ends keeps two ends when
    the declarations [c] become [c']. *)
Definition split_floats (whole : bool) (c c' : config) : Prop :=
  forall v d d' lo hi, nthN (c_domains c) v = Some d -> nthN (c_domains c') v = Some d' -> d_bound d' = BFloat lo hi ->
    (finite_range (d_bound d) -> finite_range (d_bound d'))
    /\ (splitable c' (d_bound d') = Ok false \/ finite_range (d_bound d') /\ coarse lo /\ coarse hi /\ (whole = true -> whole_width lo hi)).
(** The condition on float ranges of a history: none is split, or those that are are as above. *)
Inductive floats := NoSplit | Splits | WholeSplits.
Definition can_split (m : floats) : bool := match m with NoSplit => false | _ => true end.
Definition only_whole (m : floats) : bool := match m with WholeSplits => true | _ => false end.
Definition floats_ok (m : floats) (c c' : config) : Prop :=
  if can_split m then split_floats (only_whole m) c c' else whole_floats c'.

(** The width of a finite integer range is an int64_t (else llabs(max - min) overflows). *)
Definition narrow_bound (b : bound) : Prop :=
  match b with BInt _ lo hi => lo = INT64_MIN \/ hi = INT64_MAX \/ hi - lo <= INT64_MAX | _ => True end.
Definition narrow (c : config) : Prop := forall d, In d (c_domains c) -> narrow_bound (d_bound d).

(** The number a variable is compared with, for float variables. *)
Definition constant_of (a : atom) : option (string * flt) :=
  match a with
  | ACmp _ n (CFloat k) | AEq _ n (SFlt k) => Some (n, k)
  | ACmp _ n (CInt z) | AEq _ n (SInt z) => Some (n, f_of_Z z)
  | _ => None
  end.
(** Equal, or at least 2^-52 apart. *)
Definition apart (y k : flt) : Prop :=
  canonical y /\ canonical k /\ (units y = units k \/ 2 ^ 1022 <= Z.abs (units y - units k)).
(** No value of a float variable with a range that may be split is a near miss of a constant of the expression. *)
Definition clear (ds : list domain) (ev : event) (x : src) : Prop :=
  Forall (fun a => forall n k f v d, constant_of a = Some (n, k) -> decl ds n = Some (v, d) -> finite_range (d_bound d) ->
    lookup ev n = Some (VFloat f) -> apart f k) (src_atoms x).
(** The value [y] of the variable [v] is no near miss of a constant of the expression. *)
Definition clear_of (ds : list domain) (v : N) (y : flt) (x : src) : Prop :=
  Forall (fun a => forall n k d, constant_of a = Some (n, k) -> decl ds n = Some (v, d) -> apart y k) (src_atoms x).
