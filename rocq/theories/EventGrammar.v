(** The grammar of events (event_parser.y 94-169), production by production, on token
    sequences. *)
From Coq Require Import ZArith NArith String Bool List.
From Verif Require Import Base Float Value Ast Lexer.
Import ListNotations.

(** event_parser.y 120-122 [integer]. *)
Inductive e_int : list etoken -> Z -> Prop :=
| ei_pos z : e_int [JInt z] z
| ei_neg z : e_int [JMinus; JInt z] (- z)%Z.

(** event_parser.y 124-126 [float]. *)
Inductive e_flt : list etoken -> flt -> Prop :=
| ef_pos f : e_flt [JFlt f] f
| ef_neg f : e_flt [JMinus; JFlt f] (fopp f).

(** event_parser.y 128 [string]. *)
Inductive e_str : list etoken -> string -> Prop :=
| es s : e_str [JStr s] s.

(** event_parser.y 154-155 [segment_value]; value.h 40-43: id and timestamp are int64_t. *)
Inductive e_seg : list etoken -> segment -> Prop :=
| esg a id b t : e_int a id -> e_int b t ->
    e_seg (JLSq :: a ++ JComma :: b ++ [JRSq]) (mkSeg id t).

(** event_parser.y 165-169 [frequency_value]; value.h: id and value are uint32_t. *)
Inductive e_cap : list etoken -> fcap -> Prop :=
| ec_flat ty a id ns b v c t : e_int a id -> e_int b v -> e_int c t ->
    e_cap (JLSq :: JStr ty :: JComma :: a ++ JComma :: JStr ns :: JComma ::
           b ++ JComma :: c ++ [JRSq])
          (mkCap (get_type_from_string ty) (to_uint 32 id) (mk_str ns) true t (to_uint 32 v))
| ec_nested ty a id ns b v c t : e_int a id -> e_int b v -> e_int c t ->
    e_cap (JLSq :: JLSq :: JStr ty :: JComma :: a ++ JComma :: JStr ns :: JRSq :: JComma ::
           b ++ JComma :: c ++ [JRSq])
          (mkCap (get_type_from_string ty) (to_uint 32 id) (mk_str ns) true t (to_uint 32 v)).

(** event_parser.y 98-100, 135-137, 142-144, 149-152, 160-163: the loops. *)
Inductive e_loop {A} (item : list etoken -> A -> Prop) : list etoken -> list A -> Prop :=
| el_one a x : item a x -> e_loop item a [x]
| el_more a l b x : e_loop item a l -> item b x -> e_loop item (a ++ JComma :: b) (l ++ [x]).

(** event_parser.y 106-114 [value], 116-118 [boolean], 130-158: values and lists. *)
Inductive e_value : list etoken -> value -> Prop :=
| ev_true : e_value [JTrue] (VBool true)
| ev_false : e_value [JFalse] (VBool false)
| ev_int a z : e_int a z -> e_value a (VInt z)
| ev_flt a f : e_flt a f -> e_value a (VFloat f)
| ev_str a s : e_str a s -> e_value a (VStr (mk_str s))
| ev_empty : e_value [JLSq; JRSq] (VIntList [])
| ev_ints a l : e_loop e_int a l -> e_value (JLSq :: a ++ [JRSq]) (VIntList l)
| ev_strs a l : e_loop e_str a l -> e_value (JLSq :: a ++ [JRSq]) (VStrList (map mk_str l))
| ev_segs a l : e_loop e_seg a l -> e_value (JLSq :: a ++ [JRSq]) (VSegs l)
| ev_caps a l : e_loop e_cap a l -> e_value (JLSq :: a ++ [JRSq]) (VFreqs l).

(** event_parser.y 102-104 [variable]. *)
Inductive e_variable : list etoken -> string * option value -> Prop :=
| ea_value x a v : e_value a v -> e_variable (JStr x :: JColon :: a) (x, Some v)
| ea_null x : e_variable [JStr x; JColon; JNull] (x, None).

(** event_parser.y 94-96 [program]: the variables in order, nulls included. *)
Inductive e_event : list etoken -> list (string * option value) -> Prop :=
| ep_empty : e_event [JLCu; JRCu] []
| ep_vars a l : e_loop e_variable a l -> e_event (JLCu :: a ++ [JRCu]) l.
