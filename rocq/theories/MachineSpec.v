(** Supported programs of calls with texts: the histories of TextHist.v with the calls that make them. *)
From Coq Require Import ZArith NArith Ascii String Bool List.
From Verif Require Import Base Float Value Ast Config Assign Special Match Bound Tree PredMap Source Api Spec TreeSpec Hist.
From Verif Require Import Lexer LexSpec Grammar EventText EventGrammar TextApi TextHist BisonSpec LinkedApi Machine.
Import ListNotations.
Local Open Scope Z_scope.

(** A C string. *)
Definition c_text (s : string) : Prop := all_chars (fun c => negb (Ascii.eqb c zero)) s = true.
(** An expression that does not nest too deep for the stack of the generated parser. *)
Definition readable (s : string) : Prop := c_text s /\ shallow (lex s).

(** What was made: the subscription, whether it was inserted, and what it says as long as it may be inserted. *)
Definition made := list (sub * bool * option entry).
(** Those that may be inserted. *)
Definition waiting (m : made) : list (sub * entry) :=
  flat_map (fun x => match x with (s, false, Some e) => [(s, e)] | _ => [] end) m.
(** The k-th was inserted. *)
Fixpoint take (k : nat) (m : made) : made :=
  match m, k with
  | [], _ => []
  | (s, _, o) :: t, O => (s, true, o) :: t
  | x :: t, S k => x :: take k t
  end.
(** After emptying none may be inserted: their predicate numbers are stale (C46_kept_sub_refuted). *)
Definition forget (m : made) : made := map (fun x => (fst x, None)) m.

(** [supported fm cap minpart maxsplit ds0 l rs ds t m log]: the program [l], started on a tree with these parameters and the
    variables [ds0], is a supported history in the sense of [treach_in] and is answered by [rs]; the variables are [ds] then, the tree is [t],
    [m] was made and [log] is in the tree. Searches in between may be of any kind that finishes. *)
Inductive supported {G : Geo} (fm : floats) (cap minpart maxsplit : Z) (ds0 : list domain) :
  list tcall -> list reply -> list domain -> betree -> made -> list entry -> Prop :=
| s_start :
    decls_ok ds0 -> 0 <= maxsplit < SIZE_MAX - 1 ->
    floats_ok fm (bt_cfg (make_tree cap minpart maxsplit ds0)) (bt_cfg (make_tree cap minpart maxsplit ds0)) ->
    supported fm cap minpart maxsplit ds0 [] [] ds0 (make_tree cap minpart maxsplit ds0) [] []
| s_insert l rs ds t m log id cs s x t' :
    supported fm cap minpart maxsplit ds0 l rs ds t m log ->
    readable s -> reads s (build x) -> accepts ds (bt_cfg t) false cs x -> ~ In id (ids_of (waiting m) log) ->
    insert_text t id cs s = Ok (true, t') ->
    supported fm cap minpart maxsplit ds0 (l ++ [TInsert id cs s]) (rs ++ [RBool true]) ds t' m (log ++ [mkE id cs x])
| s_refused l rs ds t m log id cs s t' :
    supported fm cap minpart maxsplit ds0 l rs ds t m log -> readable s -> insert_text t id cs s = Ok (false, t') ->
    supported fm cap minpart maxsplit ds0 (l ++ [TInsert id cs s]) (rs ++ [RBool false]) ds t' m log
| s_make l rs ds t m log id cs s x b t' :
    supported fm cap minpart maxsplit ds0 l rs ds t m log ->
    readable s -> reads s (build x) -> accepts ds (bt_cfg t) true cs x -> ~ In id (ids_of (waiting m) log) ->
    make_sub_text t id cs s = Ok (Some b, t') -> floats_ok fm (bt_cfg t) (bt_cfg t') ->
    supported fm cap minpart maxsplit ds0 (l ++ [TMake id cs s]) (rs ++ [RBool true]) ds t' (m ++ [(b, false, Some (mkE id cs x))]) log
| s_make_refused l rs ds t m log id cs s x t' :
    supported fm cap minpart maxsplit ds0 l rs ds t m log ->
    readable s -> reads s (build x) -> fits (bt_cfg t) true x -> make_sub_text t id cs s = Ok (None, t') ->
    supported fm cap minpart maxsplit ds0 (l ++ [TMake id cs s]) (rs ++ [RBool false]) ds t' m log
| s_make_unread l rs ds t m log id cs s :
    supported fm cap minpart maxsplit ds0 l rs ds t m log -> readable s -> (forall e, ~ reads s e) ->
    supported fm cap minpart maxsplit ds0 (l ++ [TMake id cs s]) (rs ++ [RBool false]) ds t m log
| s_insert_sub l rs ds t m log k b e t' :
    supported fm cap minpart maxsplit ds0 l rs ds t m log ->
    nth_error m k = Some (b, false, Some e) -> betree_insert_sub t b = Ok t' ->
    supported fm cap minpart maxsplit ds0 (l ++ [TInsertSub k]) (rs ++ [RNone]) ds t' (take k m) (log ++ [e])
| s_change l rs ds t m log s x b t' :
    supported fm cap minpart maxsplit ds0 l rs ds t m log ->
    readable s -> reads s (build x) -> src_ok ds [] x -> fits (bt_cfg t) true x ->
    change_boundaries_text t s = Ok (b, t') -> floats_ok fm (bt_cfg t) (bt_cfg t') ->
    supported fm cap minpart maxsplit ds0 (l ++ [TChange s]) (rs ++ [RBool b]) ds t' m log
| s_change_unread l rs ds t m log s :
    supported fm cap minpart maxsplit ds0 l rs ds t m log -> readable s -> (forall e, ~ reads s e) ->
    supported fm cap minpart maxsplit ds0 (l ++ [TChange s]) (rs ++ [RBool false]) ds t m log
| s_declare l rs ds t m log d :
    supported fm cap minpart maxsplit ds0 l rs ds t m log -> decls_ok (ds ++ [d]) ->
    floats_ok fm (bt_cfg (betree_declare t d)) (bt_cfg (betree_declare t d)) ->
    (waiting m = [] /\ log = [] \/ (S (List.length ds) mod 64 <> 0)%nat) ->
    supported fm cap minpart maxsplit ds0 (l ++ [TDeclare d]) (rs ++ [RNone]) (ds ++ [d]) (betree_declare t d) m log
| s_empty l rs ds t m log :
    supported fm cap minpart maxsplit ds0 l rs ds t m log ->
    supported fm cap minpart maxsplit ds0 (l ++ [TEmpty]) (rs ++ [RNone]) ds (empty_tree t) (forget m) []
| s_search l rs ds t m log s b r :
    supported fm cap minpart maxsplit ds0 l rs ds t m log -> c_text s -> search_text t s make_report = Ok (b, r) ->
    supported fm cap minpart maxsplit ds0 (l ++ [TSearch s]) (rs ++ [RReport b r]) ds t m log
| s_exists l rs ds t m log s b :
    supported fm cap minpart maxsplit ds0 l rs ds t m log -> c_text s -> exists_text t s = Ok b ->
    supported fm cap minpart maxsplit ds0 (l ++ [TExists s]) (rs ++ [RBool b]) ds t m log.
