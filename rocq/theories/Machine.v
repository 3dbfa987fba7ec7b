(** Programs of calls with texts, with all the parts as the C code has them: texts go through the generated scanners and
    parsers (FlexTables.v, BisonTables.v), the index is made of linked structs (Linked.v). *)
From Coq Require Import ZArith NArith String Bool List.
From Verif Require Import Base Float Value Ast Config Assign Special Match Bound Tree RbTree PredMap Source Api Linked LinkedApi BisonTables.
Import ListNotations.
Local Open Scope Z_scope.
Local Open Scope res_scope.

Section WithGeo.
  Context {G : Geo}.

  (** A call as betree.h 77-136 declares it; [TInsertSub k] inserts the k-th subscription that was made. *)
  Inductive tcall :=
  | TInsert (id : Z) (cs : constants) (s : string)
  | TMake (id : Z) (cs : constants) (s : string)
  | TInsertSub (k : nat)
  | TChange (s : string)
  | TDeclare (d : domain)
  | TEmpty
  | TSearch (s : string)
  | TExists (s : string).

  (** betree.c 459-604, tree.c 1811-1821 [make_event_from_string]: an expression that does not parse is refused, an event
      that does not parse ends the process. *)
  Definition m_call (n : nat) (q : pstate) (k : tcall) : result (reply * pstate) :=
    match k with
    | TInsert id cs s => do o <- parse_c s; match o with None => Ok (RBool false, q) | Some e => p_call n q (CInsert id cs e) end
    | TMake id cs s => do o <- parse_c s; match o with None => Ok (RBool false, q) | Some e => p_call n q (CMake id cs e) end
    | TInsertSub k => p_call n q (CInsertSub k)
    | TChange s =>
        do o <- parse_c s;
        match o with None => Ok (RBool false, q) | Some e => do '(_, q) <- p_call n q (CChange e); Ok (RBool true, q) end
    | TDeclare d => p_call n q (CDeclare d)
    | TEmpty => p_call n q CEmpty
    | TSearch s =>
        do o <- event_parse_c s;
        match o with None => Abort | Some l => p_call n q (CSearch (map (fun p => (fst p, Some (snd p))) l)) end
    | TExists s =>
        do o <- event_parse_c s;
        match o with None => Abort | Some l => p_call n q (CExists (map (fun p => (fst p, Some (snd p))) l)) end
    end.
  (** A program. *)
  Fixpoint m_run (n : nat) (q : pstate) (l : list tcall) : result (list reply * pstate) :=
    match l with
    | [] => Ok ([], q)
    | k :: t => do '(a, q) <- m_call n q k; do '(r, q) <- m_run n q t; Ok (a :: r, q)
    end.
End WithGeo.
