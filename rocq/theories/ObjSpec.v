(** Event objects: the variables they hold, and objects searched repeatedly while the tree grows. *)
From Coq Require Import ZArith NArith String Bool List.
From Verif Require Import Base Float Value Ast Config Assign Bound Special Match Tree PredMap Source Api EventObj.
Import ListNotations.
Local Open Scope Z_scope.

(** The variables of an object. *)
Definition vars (ev : evobj) : event :=
  flat_map (fun o => match o with Some (n, x) => [(n, Some x)] | None => [] end) ev.

(** Several calls of betree_set_variable. *)
Fixpoint set_all (ev : evobj) (l : list (N * variable)) : result evobj :=
  match l with
  | [] => Ok ev
  | (i, x) :: t => bind (set_variable ev i (Some x)) (fun ev' => set_all ev' t)
  end.

(** In every list of strings, at most one is unknown to the tables of [c]. *)
Definition one_unknown (c : config) (ev : evobj) : Prop :=
  forall n l s s', In (Some (n, VStrList l)) ev -> In s l -> In s' l ->
    try_get_str c (try_get_id_for_attr c n) (sv_string s) = INVALID_STR ->
    try_get_str c (try_get_id_for_attr c n) (sv_string s') = INVALID_STR -> sv_string s = sv_string s'.
(** Any finished calls, on any expressions, lead from one tree to the other. *)
Inductive grown : betree -> betree -> Prop :=
| g_same t : grown t t
| g_insert t t' t'' id cs e b : grown t t' -> insert_expr t' id cs e = Ok (b, t'') -> grown t t''
| g_make t t' t'' id cs e o : grown t t' -> make_sub_expr t' id cs e = Ok (o, t'') -> grown t t''
| g_insert_sub t t' t'' s : grown t t' -> betree_insert_sub t' s = Ok t'' -> grown t t''
| g_change t t' t'' e : grown t t' -> change_boundaries_expr t' e = Ok t'' -> grown t t''
| g_empty t t' : grown t t' -> grown t (empty_tree t').

(** From a tree and an event object any calls lead to a tree and the same object as the searches left it. *)
Inductive session {G : Geo} (t : betree) (ev : evobj) : betree -> evobj -> Prop :=
| s_start : session t ev t ev
| s_grow t1 ev1 t2 : session t ev t1 ev1 -> grown t1 t2 -> session t ev t2 ev1
| s_search t1 ev1 r b r' ev2 : session t ev t1 ev1 -> search_object t1 ev1 r = Ok (b, r', ev2) -> session t ev t1 ev2
| s_exists t1 ev1 b ev2 : session t ev t1 ev1 -> exists_object t1 ev1 = Ok (b, ev2) -> session t ev t1 ev2.
