(** The public operations on texts (betree.c 459-604), as declared in betree.h. *)
From Coq Require Import ZArith NArith String Bool List.
From Verif Require Import Base Float Value Ast Config Assign Bound Special Match Tree PredMap Source Api.
From Verif Require Import Lexer Parser EventText.
Import ListNotations.
Local Open Scope Z_scope.

(** betree.c 475-503 [betree_insert_with_constants]: a text that does not parse is refused. *)
Definition insert_text (t : betree) (id : Z) (cs : constants) (s : string) : result (bool * betree) :=
  match parse s with None => Ok (false, t) | Some e => insert_expr t id cs e end.

(** betree.c 505-536 [betree_make_sub]: a text that does not parse gives NULL. *)
Definition make_sub_text (t : betree) (id : Z) (cs : constants) (s : string)
  : result (option sub * betree) :=
  match parse s with None => Ok (None, t) | Some e => make_sub_expr t id cs e end.

(** betree.c 459-473 [betree_change_boundaries]: a text that does not parse gives false. *)
Definition change_boundaries_text (t : betree) (s : string) : result (bool * betree) :=
  match parse s with
  | None => Ok (false, t)
  | Some e => bind (change_boundaries_expr t e) (fun t' => Ok (true, t'))
  end.

Section WithGeo.
  Context {G : Geo}.

  (** betree.c 591-597 [betree_search], tree.c 1811-1821 [make_event_from_string]: an event that
      does not parse ends the process. *)
  Definition search_text (t : betree) (s : string) (r : report) : result (bool * report) :=
    match event_parse s with None => Abort | Some ev => betree_search t ev r end.

  (** betree.c 576-582 [betree_exists], tree.c 1811-1821 [make_event_from_string]. *)
  Definition exists_text (t : betree) (s : string) : result bool :=
    match event_parse s with None => Abort | Some ev => betree_exists t ev end.
End WithGeo.
