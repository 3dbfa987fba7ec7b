(** Event objects: events built with the functions of betree.h and searched with
    betree_search_with_event / betree_exists_with_event, which write into them. *)
From Coq Require Import ZArith NArith String Bool List.
From Verif Require Import Base Float Value Ast Config Assign Bound Special Match Tree PredMap Source Api.
Import ListNotations.
Local Open Scope Z_scope.
Local Open Scope res_scope.

(** tree.h 12-15 [struct betree_variable]; the [var] member of its name is written by [fill_event] before it is read. *)
Definition variable := (string * value)%type.
(** betree.h 29-32 [struct betree_event]: one slot for each variable, possibly NULL. *)
Definition evobj := list (option variable).

(** betree.c 943-949 [betree_make_event]. *)
Definition make_event (t : betree) : evobj := repeat None (length (c_domains (bt_cfg t))).
(** betree.c 951-954 [betree_set_variable]: a write beyond the array is undefined. *)
Definition set_variable (ev : evobj) (i : N) (x : option variable) : result evobj :=
  if (i <? N.of_nat (length ev))%N then Ok (updN ev i x) else UB.

(** betree.c 841-845 [betree_make_boolean_variable]. *)
Definition make_boolean_variable (name : string) (b : bool) : variable := (name, VBool b).
(** betree.c 847-851 [betree_make_integer_variable]. *)
Definition make_integer_variable (name : string) (z : Z) : variable := (name, VInt z).
(** betree.c 853-857 [betree_make_float_variable]. *)
Definition make_float_variable (name : string) (f : flt) : variable := (name, VFloat f).
(** betree.c 859-864 [betree_make_string_variable]. *)
Definition make_string_variable (name s : string) : variable := (name, VStr (mkS s INVALID_STR)).

(** Lists under construction: a string, segment or cap that was not set yet is a NULL pointer. *)
Definition slots (A : Type) := list (option A).
(** betree.c 754-760 [betree_make_integer_list]: the elements are 0 at first. *)
Definition make_integer_list (n : nat) : list Z := repeat 0 n.
(** betree.c 762-765 [betree_add_integer]. *)
Definition add_integer (l : list Z) (i : N) (z : Z) : result (list Z) :=
  if (i <? N.of_nat (length l))%N then Ok (updN l i z) else UB.
(** betree.c 767-773, 781-787, 801-807: [betree_make_string_list], [betree_make_segments],
    [betree_make_frequency_caps]. *)
Definition make_slots {A} (n : nat) : slots A := repeat None n.
(** betree.c 775-779, 794-798, 825-830: [betree_add_string], [betree_add_segment],
    [betree_add_frequency_cap]. *)
Definition add_slot {A} (l : slots A) (i : N) (x : option A) : result (slots A) :=
  if (i <? N.of_nat (length l))%N then Ok (updN l i x) else UB.
(** betree.c 775-779 [betree_add_string]: the members var and str are 0. *)
Definition new_string (s : string) : option sval := Some (mkS s 0).
(** betree.c 789-792 [betree_make_segment]. *)
Definition make_segment (id ts : Z) : option segment := Some (mkSeg id ts).
(** betree.c 809-823 [betree_make_frequency_cap]: NULL for a type that does not exist. *)
Definition make_frequency_cap (ty : string) (id : Z) (ns : string) (tsdef : bool) (ts v : Z) : option fcap :=
  match get_type_from_string ty with
  | FTInvalid => None
  | t => Some (mkCap t id (mkS ns INVALID_STR) tsdef ts v)
  end.
(** The elements of a finished list.  A NULL element is read by [fill_event] (strings, caps) or by the
    evaluation (segments): undefined; the model says so when the variable is made. *)
Fixpoint elements {A} (l : slots A) : result (list A) :=
  match l with
  | [] => Ok []
  | None :: _ => UB
  | Some x :: t => do t' <- elements t; Ok (x :: t')
  end.
(** betree.c 866-871 [betree_make_integer_list_variable]. *)
Definition make_integer_list_variable (name : string) (l : list Z) : variable := (name, VIntList l).
(** betree.c 873-878 [betree_make_string_list_variable]. *)
Definition make_string_list_variable (name : string) (l : slots sval) : result variable :=
  do l' <- elements l; Ok (name, VStrList l').
(** betree.c 880-885 [betree_make_segments_variable]. *)
Definition make_segments_variable (name : string) (l : slots segment) : result variable :=
  do l' <- elements l; Ok (name, VSegs l').
(** betree.c 887-892 [betree_make_frequency_caps_variable]. *)
Definition make_frequency_caps_variable (name : string) (l : slots fcap) : result variable :=
  do l' <- elements l; Ok (name, VFreqs l').

(** tree.c 1872-1930 [fill_event], 1795-1809 [sort_event_lists] and betree.c 548-557
    [make_environment] on an object: the object changes.  (C fills all variables before it sorts; a
    variable is not affected by the others.) *)
Fixpoint fill_object (c : config) (ev : evobj) (p : env) : result (evobj * env) :=
  match ev with
  | [] => Ok ([], p)
  | None :: t => do '(t', p') <- fill_object c t p; Ok (None :: t', p')
  | Some (name, x) :: t =>
      do '(v, y) <- fill_variable c name x;
      do '(t', p') <- fill_object c t (updN p v (Some y));
      Ok (Some (name, y) :: t', p')
  end.

(** betree.c 894-899 [betree_get_variable_definition]: name and type; an index beyond the array is undefined. *)
Definition get_variable_definition (t : betree) (i : N) : result (string * vtype) :=
  match nthN (c_domains (bt_cfg t)) i with
  | Some d => Ok (d_attr d, btype (d_bound d))
  | None => UB
  end.

Section WithGeo.
  Context {G : Geo}.

  (** betree.c 599-604 [betree_search_with_event], 559-568 [betree_search_with_event_filled]. *)
  Definition search_object (t : betree) (ev : evobj) (r : report) : result (bool * report * evobj) :=
    let c := bt_cfg t in
    do '(ev', p) <- fill_object c ev (repeat None (length (c_domains c)));
    if negb (validate_variables (c_domains c) p) then Ok (false, r, ev') else
    do r' <- search_with_preds c (pm_mids (bt_pm t)) (pm_mcount (bt_pm t)) p (bt_root t) r;
    Ok (true, r', ev').

  (** betree.c 584-589 [betree_exists_with_event], 570-574 [betree_exists_with_event_filled]. *)
  Definition exists_object (t : betree) (ev : evobj) : result (bool * evobj) :=
    let c := bt_cfg t in
    do '(ev', p) <- fill_object c ev (repeat None (length (c_domains c)));
    do b <- exists_with_preds c (pm_mids (bt_pm t)) (pm_mcount (bt_pm t)) p (bt_root t);
    Ok (b, ev').
End WithGeo.
