(** Predicate identity (ast_compare.c) and numbering of shared predicates (hashmap.c 13-45,
    ast.c 2230-2467 region [assign_pred_id]). *)
From Coq Require Import ZArith NArith String Bool List.
From Verif Require Import Base Float Value Ast RbTree.
Import ListNotations.
Local Open Scope Z_scope.
Local Open Scope res_scope.

(** The C comparison functions compare two nodes field by field with `>` and `<`, in a fixed order,
    and return at the first difference.  The model lists the compared fields of a node in that
    order ([node_key]) and compares the lists lexicographically.  A field is an integer (enum
    constants, booleans, identifiers, list lengths), a double, or a C string (strcmp). *)
Inductive field := FZ (z : Z) | FF (f : flt) | FS (s : string).

(** Comparison of two doubles with `>` and `<` only. *)
Definition fcmp (a b : flt) : comparison :=
  if fgtb a b then Gt else if fltb a b then Lt else Eq.

(** Fields of different kinds never meet: the fields before them differ. *)
Definition field_cmp (a b : field) : comparison :=
  match a, b with
  | FZ x, FZ y => Z.compare x y
  | FF x, FF y => fcmp x y
  | FS x, FS y => String.compare x y
  | FZ _, _ => Lt | _, FZ _ => Gt
  | FF _, _ => Lt | _, FF _ => Gt
  end.

(** ast_compare.c throughout: the first field that differs decides. *)
Fixpoint lex (a b : list field) : comparison :=
  match a, b with
  | [], [] => Eq
  | [], _ => Lt
  | _, [] => Gt
  | x :: a', y :: b' => match field_cmp x y with Eq => lex a' b' | c => c end
  end.

(** Boolean field (ast_compare.c 142-195). *)
Definition FB (b : bool) : field := FZ (if b then 1 else 0).
(** Unsigned field (ast_compare.c 142-195). *)
Definition FN (n : N) : field := FZ (Z.of_N n).
(** Variable id field (ast_compare.c 44-83). *)
Definition FV (v : avar) : field := FN (av_var v).

(** Enum constants (ast.h), in the order of their declaration. *)
Definition cmp_num (o : cmp_op) : Z := match o with CLt => 0 | CLe => 1 | CGt => 2 | CGe => 3 end.
(** ast.h 43-46. *)
Definition eq_num (o : eq_op) : Z := match o with QEq => 0 | QNe => 1 end.
(** ast.h 139-142. *)
Definition set_num (o : set_op) : Z := match o with SNotIn => 0 | SIn => 1 end.
(** ast.h 152-157. *)
Definition list_num (o : list_op) : Z := match o with LOneOf => 0 | LNoneOf => 1 | LAllOf => 2 end.
(** ast.h 194-197. *)
Definition seg_num (o : seg_op) : Z := match o with SegWithin => 0 | SegBefore => 1 end.
(** ast.h 222-226. *)
Definition str_num (o : str_op) : Z := match o with StContains => 0 | StStartsWith => 1 | StEndsWith => 2 end.
(** ast.h 253-257. *)
Definition null_num (o : null_op) : Z := match o with NIsNull => 0 | NIsNotNull => 1 | NIsEmpty => 2 end.

(** ast_compare.c 6-23 [cmp_integer_list], 25-42 [cmp_string_list]: lengths first. *)
Definition ints_key (l : list Z) : list field := FZ (Z.of_nat (length l)) :: map FZ l.
(** ast_compare.c 25-42 [cmp_string_list]. *)
Definition strs_key (l : list sval) : list field := ints_key (map sv_str l).

(** ast_compare.c 454-475 [expr_cmp] on the node type, then: 44-83 [compare_expr_cmp], 85-140
    [equality_expr_cmp], 142-195 [bool_expr_cmp], 197-259 [set_expr_cmp], 261-288 [list_expr_cmp],
    290-435 [special_expr_cmp], 437-452 [is_null_expr_cmp].  Single-valued op fields of frequency and
    geo expressions are left out. *)
Definition leaf_key (p : leaf) : list field :=
  match p with
  | PCmp op v c =>
      FZ 0 :: FZ (cmp_num op) :: FV v ::
      match c with CInt z => [FZ 0; FZ z] | CFloat f => [FZ 1; FF f] end
  | PEq op v q =>
      FZ 1 :: FZ (eq_num op) :: FV v ::
      match q with
      | QInt z => [FZ 0; FZ z] | QFloat f => [FZ 1; FF f] | QStr s => [FZ 2; FZ (sv_str s)]
      | QIEnum e => [FZ 3; FZ (ie_id e)]
      end
  | PVar v => [FZ 2; FZ 3; FV v]
  | PLit b => [FZ 2; FZ 4; FB b]
  | PSet op l r =>
      FZ 3 :: FZ (set_num op) ::
      FZ (match l with SLInt _ => 0 | SLStr _ => 1 | SLVar _ => 2 end) ::
      FZ (match r with SRInts _ => 0 | SRStrs _ => 1 | SRVar _ => 2 end) ::
      match l with SLInt z => FZ z | SLStr s => FZ (sv_str s) | SLVar v => FV v end ::
      match r with SRInts l => ints_key l | SRStrs l => strs_key l | SRVar v => [FV v] end
  | PList op v l =>
      FZ 4 :: FZ (list_num op) :: FV v ::
      match l with LInts l => FZ 0 :: ints_key l | LStrs l => FZ 1 :: strs_key l end
  | PFreq v ty ns value len now id =>
      [FZ 5; FZ 0; FV v; FZ id; FZ len; FZ (sv_str ns); FZ (ftype_num ty); FZ value]
  | PSeg op h v id seconds now =>
      [FZ 5; FZ 1; FZ (seg_num op); FB h; FV v; FZ seconds; FZ id]
  | PGeo h lat lon radius la lo =>
      [FZ 5; FZ 2; FB h; FV la; FV lo; FF lat; FF lon; FF radius]
  | PStr op v pat => [FZ 5; FZ 3; FZ (str_num op); FV v; FS pat]
  | PNull op v => [FZ 6; FV v; FZ (null_num op)]
  end.
(** ast_compare.c 142-195 [bool_expr_cmp]: operands are compared by global_id. *)
Definition node_key (e : expr) : list field :=
  match e with
  | ELeaf _ p => leaf_key p
  | EOr _ a b => [FZ 2; FZ 0; FN (gid a); FN (gid b)]
  | EAnd _ a b => [FZ 2; FZ 1; FN (gid a); FN (gid b)]
  | ENot _ a => [FZ 2; FZ 2; FN (gid a)]
  end.
(** ast_compare.c 454-475 [expr_cmp]. *)
Definition expr_cmp (a b : expr) : comparison := lex (node_key a) (node_key b).

(** hashmap.h 10-14 [struct pred_map].  [pm_mids] gives the memoize_id of the stored node with a given
    global_id; every node with that global_id has the same memoize_id from the moment a second one
    appears (the first one is the stored node itself, the others copy it, hashmap.c 36-43). *)
Record pred_map := mkPM { pm_count : N; pm_mcount : N; pm_rb : rb expr; pm_mids : list N }.
(** hashmap.c 55-65 [make_pred_map]. *)
Definition make_pred_map : pred_map := mkPM 0 0 RL [].

(** hashmap.c 13-45: node->global_id = id. *)
Definition set_gid (g : N) (e : expr) : expr :=
  match e with
  | ELeaf _ p => ELeaf g p | EAnd _ a b => EAnd g a b | EOr _ a b => EOr g a b | ENot _ a => ENot g a
  end.

(** hashmap.c 26-44: look the node up; number it or copy the number. *)
Definition assign_node (m : pred_map) (e : expr) : result (expr * pred_map) :=
  match rb_find expr_cmp (pm_rb m) e with
  | None =>
      let e' := set_gid (pm_count m) e in
      do t <- rb_insert expr_cmp (pm_rb m) e';
      Ok (e', mkPM (pm_count m + 1) (pm_mcount m) t (pm_mids m ++ [INVALID_PRED]))
  | Some f =>
      let e' := set_gid (gid f) e in
      match nthN (pm_mids m) (gid f) with
      | None => UB
      | Some i =>
          if (i =? INVALID_PRED)%N
          then Ok (e', mkPM (pm_count m) (pm_mcount m + 1) (pm_rb m)
                            (updN (pm_mids m) (gid f) (pm_mcount m)))
          else Ok (e', m)
      end
  end.

(** hashmap.c 13-45 [assign_pred]. *)
Fixpoint assign_pred (m : pred_map) (e : expr) : result (expr * pred_map) :=
  match e with
  | ELeaf g p => assign_node m e
  | ENot g a => do '(a', m1) <- assign_pred m a; assign_node m1 (ENot g a')
  | EAnd g a b =>
      do '(a', m1) <- assign_pred m a;
      do '(b', m2) <- assign_pred m1 b;
      assign_node m2 (EAnd g a' b')
  | EOr g a b =>
      do '(a', m1) <- assign_pred m a;
      do '(b', m2) <- assign_pred m1 b;
      assign_node m2 (EOr g a' b')
  end.
