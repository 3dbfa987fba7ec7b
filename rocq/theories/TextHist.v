(** Histories of calls that give texts, with the meaning of a text stated by the scanner rules
    (LexSpec.v) and the grammars (Grammar.v, EventGrammar.v). *)
From Coq Require Import ZArith NArith String Bool List.
From Verif Require Import Base Float Value Ast Config Assign Special Match Bound Tree PredMap Source Api Spec TreeSpec Hist.
From Verif Require Import Lexer LexSpec Grammar EventText EventGrammar TextApi.
Import ListNotations.
Local Open Scope Z_scope.

(** The text s is an expression with the syntax tree e. *)
Definition reads (s : string) (e : expr) : Prop :=
  exists ts, flex expr_rules s ts /\ derives LOr ts e.
(** The text s is an event with the given variables; those that are null count as missing. *)
Definition reads_event (s : string) (ev : event) : Prop :=
  exists ts l, flex event_rules s ts /\ e_event ts l
    /\ ev = filter (fun p => match snd p with Some _ => true | None => false end) l.

(** [treach_in fm ds t pend log]: calls with texts, after declarations of [ds], produced the tree [t] into
    which the subscriptions [log] were inserted, while [pend] were made by betree_make_sub but not
    inserted yet.  The log holds the source expressions of the texts; [fm] is the condition on float ranges of
    [reach_in] (Hist.v). *)
Inductive treach_in (fm : floats) : list domain -> betree -> list (sub * entry) -> list entry -> Prop :=
| tr_init ds cap minpart maxsplit :
    decls_ok ds -> 0 <= maxsplit < SIZE_MAX - 1 ->
    floats_ok fm (bt_cfg (make_tree cap minpart maxsplit ds)) (bt_cfg (make_tree cap minpart maxsplit ds)) ->
    treach_in fm ds (make_tree cap minpart maxsplit ds) [] []
| tr_insert ds t pend log id cs s x t' :
    treach_in fm ds t pend log -> reads s (build x) -> accepts ds (bt_cfg t) false cs x -> ~ In id (ids_of pend log) ->
    insert_text t id cs s = Ok (true, t') ->
    treach_in fm ds t' pend (log ++ [mkE id cs x])
| tr_refused ds t pend log id cs s t' :
    treach_in fm ds t pend log -> insert_text t id cs s = Ok (false, t') ->
    treach_in fm ds t' pend log
| tr_make ds t pend log id cs s x m t' :
    treach_in fm ds t pend log -> reads s (build x) -> accepts ds (bt_cfg t) true cs x -> ~ In id (ids_of pend log) ->
    make_sub_text t id cs s = Ok (Some m, t') -> floats_ok fm (bt_cfg t) (bt_cfg t') ->
    treach_in fm ds t' (pend ++ [(m, mkE id cs x)]) log
| tr_make_refused ds t pend log id cs s x t' :
    treach_in fm ds t pend log -> reads s (build x) -> fits (bt_cfg t) true x ->
    make_sub_text t id cs s = Ok (None, t') ->
    treach_in fm ds t' pend log
| tr_make_unread ds t pend log id cs s m t' :
    treach_in fm ds t pend log -> (forall e, ~ reads s e) -> make_sub_text t id cs s = Ok (m, t') ->
    treach_in fm ds t' pend log
| tr_insert_sub ds t pend pend' log m e t' :
    treach_in fm ds t (pend ++ (m, e) :: pend') log -> betree_insert_sub t m = Ok t' ->
    treach_in fm ds t' (pend ++ pend') (log ++ [e])
| tr_change ds t pend log s x b t' :
    treach_in fm ds t pend log -> reads s (build x) -> src_ok ds [] x -> fits (bt_cfg t) true x ->
    change_boundaries_text t s = Ok (b, t') -> floats_ok fm (bt_cfg t) (bt_cfg t') ->
    treach_in fm ds t' pend log
| tr_change_unread ds t pend log s b t' :
    treach_in fm ds t pend log -> (forall e, ~ reads s e) -> change_boundaries_text t s = Ok (b, t') ->
    treach_in fm ds t' pend log
| tr_declare ds t pend log d :
    treach_in fm ds t pend log -> decls_ok (ds ++ [d]) ->
    floats_ok fm (bt_cfg (betree_declare t d)) (bt_cfg (betree_declare t d)) ->
    (pend = [] /\ log = [] \/ (S (List.length ds) mod 64 <> 0)%nat) ->
    treach_in fm (ds ++ [d]) (betree_declare t d) pend log
| tr_empty ds t pend log :
    treach_in fm ds t pend log -> treach_in fm ds (empty_tree t) [] [].
Arguments tr_init {fm}.
Arguments tr_insert {fm}.
Arguments tr_refused {fm}.
Arguments tr_make {fm}.
Arguments tr_make_refused {fm}.
Arguments tr_make_unread {fm}.
Arguments tr_insert_sub {fm}.
Arguments tr_change {fm}.
Arguments tr_change_unread {fm}.
Arguments tr_declare {fm}.
Arguments tr_empty {fm}.
Notation treach := (treach_in NoSplit).

(** A set expression the grammar allows and the source language (Source.v) has no counterpart for:
    two variables, or no variable. *)
Definition odd_leaf (p : leaf) : bool :=
  match p with
  | PSet _ (SLVar _) (SRVar _) => true
  | PSet _ (SLInt _) (SRInts _) | PSet _ (SLInt _) (SRStrs _) => true
  | PSet _ (SLStr _) (SRInts _) | PSet _ (SLStr _) (SRStrs _) => true
  | _ => false
  end.
(** Two variables. *)
Definition two_vars (p : leaf) : bool :=
  match p with PSet _ (SLVar _) (SRVar _) => true | _ => false end.
