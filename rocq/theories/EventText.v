(** The parser of event texts (event_parser.y 80-198), as recursive descent; EventGrammar.v has
    the productions. *)
From Coq Require Import ZArith NArith String Bool List.
From Verif Require Import Base Float Value Ast Lexer Parser.
Import ListNotations.

(** A parser of event tokens. *)
Definition jparser (A : Type) := list etoken -> option (A * list etoken).

(** Punctuation: `[`, `]`, `,` and `:`. *)
Definition j_lsq (ts : list etoken) : option (list etoken) :=
  match ts with JLSq :: r => Some r | _ => None end.
(** A closing bracket. *)
Definition j_rsq (ts : list etoken) : option (list etoken) :=
  match ts with JRSq :: r => Some r | _ => None end.
(** A comma. *)
Definition j_comma (ts : list etoken) : option (list etoken) :=
  match ts with JComma :: r => Some r | _ => None end.
(** A colon. *)
Definition j_colon (ts : list etoken) : option (list etoken) :=
  match ts with JColon :: r => Some r | _ => None end.

(** event_parser.y 128 [string]. *)
Definition j_string : jparser string :=
  fun ts => match ts with JStr s :: r => Some (s, r) | _ => None end.
(** event_parser.y 120-122 [integer]. *)
Definition j_int : jparser Z :=
  fun ts =>
    match ts with
    | JInt z :: r => Some (z, r)
    | JMinus :: r => match r with JInt z :: r' => Some ((- z)%Z, r') | _ => None end
    | _ => None
    end.
(** event_parser.y 124-126 [float]. *)
Definition j_flt : jparser flt :=
  fun ts =>
    match ts with
    | JFlt f :: r => Some (f, r)
    | JMinus :: r => match r with JFlt f :: r' => Some (fopp f, r') | _ => None end
    | _ => None
    end.

(** event_parser.y 154-155 [segment_value], value.c 180-186 [make_segment]: both fields are int64_t. *)
Definition j_segment : jparser segment :=
  fun ts =>
    do r <- j_lsq ts; do (id, r) <- j_int r;
    do r <- j_comma r; do (t, r) <- j_int r;
    do r <- j_rsq r; Some (mkSeg id t, r).

(** value.c 188-197 [make_frequency_cap] as called by the grammar: id and value are uint32_t, the
    timestamp is always defined. *)
Definition mk_cap (ty : string) (id : Z) (ns : string) (ts v : Z) : fcap :=
  mkCap (get_type_from_string ty) (to_uint 32 id) (mk_str ns) true ts (to_uint 32 v).

(** event_parser.y 165-169 [frequency_value]: ["type", id, "ns", value, timestamp] or
    [["type", id, "ns"], value, timestamp]. *)
Definition j_freq : jparser fcap :=
  fun ts =>
    do r <- j_lsq ts;
    match j_lsq r with
    | Some r =>
        do (ty, r) <- j_string r;
        do r <- j_comma r; do (id, r) <- j_int r;
        do r <- j_comma r; do (ns, r) <- j_string r;
        do r <- j_rsq r;
        do r <- j_comma r; do (v, r) <- j_int r;
        do r <- j_comma r; do (t, r) <- j_int r;
        do r <- j_rsq r; Some (mk_cap ty id ns t v, r)
    | None =>
        do (ty, r) <- j_string r;
        do r <- j_comma r; do (id, r) <- j_int r;
        do r <- j_comma r; do (ns, r) <- j_string r;
        do r <- j_comma r; do (v, r) <- j_int r;
        do r <- j_comma r; do (t, r) <- j_int r;
        do r <- j_rsq r; Some (mk_cap ty id ns t v, r)
    end.

(** event_parser.y 98-100, 135-137, 142-144, 149-152, 160-163: a non-empty sequence of items
    separated by commas and its closing token; n bounds the number of items. *)
Fixpoint j_items {A} (close : list etoken -> option (list etoken)) (item : jparser A) (n : nat) :
  jparser (list A) :=
  fun ts =>
    match n with
    | O => None
    | S n' =>
        do (a, r) <- item ts;
        match close r with
        | Some r' => Some ([a], r')
        | None =>
            do r' <- j_comma r;
            do (l, r'') <- j_items close item n' r'; Some (a :: l, r'')
        end
    end.
(** A list in brackets. *)
Definition j_list {A} (item : jparser A) : jparser (list A) :=
  fun ts => do r <- j_lsq ts; j_items j_rsq item (List.length r) r.

(** The first of two parsers that succeeds. *)
Definition orelse {A} (a b : option A) : option A := match a with Some _ => a | None => b end.
(** A parser followed by a function on its value. *)
Definition j_map {A B} (f : A -> B) (p : jparser A) : jparser B :=
  fun ts => do (a, r) <- p ts; Some (f a, r).

(** event_parser.y 106-114 [value]; an empty list is an integer list. *)
Definition j_value : jparser value :=
  fun ts =>
    match ts with
    | JTrue :: r => Some (VBool true, r)
    | JFalse :: r => Some (VBool false, r)
    | JStr s :: r => Some (VStr (mk_str s), r)
    | JLSq :: JRSq :: r => Some (VIntList [], r)
    | JLSq :: _ =>
        orelse (j_map VIntList (j_list j_int) ts)
          (orelse (j_map (fun l => VStrList (map mk_str l)) (j_list j_string) ts)
             (orelse (j_map VSegs (j_list j_segment) ts)
                (j_map VFreqs (j_list j_freq) ts)))
    | _ => orelse (j_map VInt j_int ts) (j_map VFloat j_flt ts)
    end.

(** event_parser.y 102-104 [variable]: `null` gives no variable. *)
Definition j_variable : jparser (string * option value) :=
  fun ts =>
    do (x, r) <- j_string ts; do r <- j_colon r;
    match r with
    | JNull :: r' => Some ((x, None), r')
    | _ => do (v, r') <- j_value r; Some ((x, Some v), r')
    end.

(** A closing brace. *)
Definition j_rcu (ts : list etoken) : option (list etoken) :=
  match ts with JRCu :: r => Some r | _ => None end.

(** tree.c 1846-1850 [add_variable]: a null variable is not added. *)
Definition add_vars (l : list (string * option value)) : list (string * option value) :=
  filter (fun p => match snd p with Some _ => true | None => false end) l.

(** event_parser.y 94-96 [program]. *)
Definition event_tokens (ts : list etoken) : option (list (string * option value)) :=
  match ts with
  | JLCu :: JRCu :: [] => Some []
  | JLCu :: r =>
      match j_items j_rcu j_variable (List.length r) r with
      | Some (l, []) => Some (add_vars l)
      | _ => None
      end
  | _ => None
  end.

(** event_parser.y 179-198 [event_parse]: None stands for the result -1. *)
Definition event_parse (text : string) : option (list (string * option value)) :=
  event_tokens (elex text).
