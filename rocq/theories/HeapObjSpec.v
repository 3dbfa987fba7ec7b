(** Which blocks belong to the pointers of the caller, and which calls lose none. *)
From Coq Require Import ZArith NArith String Bool List.
From Verif Require Import Base Float Value Ast Config Assign Special Match Bound Tree PredMap Source Api EventObj Linked LinkedApi BisonTables Machine ObjProgram.
From Verif Require Import Ledger HeapExpr HeapSpec HeapEvent HeapEventSpec HeapConf HeapConfSpec HeapWorld HeapWorldSpec HeapObj.
Import ListNotations.
Local Open Scope Z_scope.

(** Without addresses. *)
Definition er_item (x : hitem) : item :=
  match x with
  | JInts l => IInts (hi_items l)
  | JStrs l => IStrs (map (option_map er_sval) (sl_items l))
  | JSeg s => ISeg (hg_seg s)
  | JSegs l => ISegs (map (option_map hg_seg) (sl_items l))
  | JCap k => ICap (er_cap k)
  | JCaps l => ICaps (map (option_map er_cap) (sl_items l))
  | JVar x => IVar (er_variable x)
  | JEvent e => IEvent (er_event e)
  | JConst _ name z => IConst (hs_text name) z
  | JReport r => IReport (hp_report r)
  | JNull => INull
  | JGone => IGone
  end.
(** The blocks. *)
Definition bl_opt {A} (f : A -> list Z) (x : option A) : list Z := match x with Some y => f y | None => [] end.
Definition bl_slots {A} (f : A -> list Z) (l : hslots A) : list Z :=
  sl_at l :: bl_arr (sl_items l) (sl_arr l) ++ flat_map (bl_opt f) (sl_items l).
Definition bl_item (x : hitem) : list Z :=
  match x with
  | JInts l => bl_ints l
  | JStrs l => bl_slots bl_sval l
  | JSeg s => [hg_at s]
  | JSegs l => bl_slots (fun s => [hg_at s]) l
  | JCap k => bl_cap k
  | JCaps l => bl_slots bl_cap l
  | JVar x => bl_variable x
  | JEvent e => bl_event e
  | JConst a name _ => [a; hs_at name]
  | JReport r => bl_report r
  | JNull | JGone => []
  end.
Definition bl_items (l : list hitem) : list Z := flat_map bl_item l.
Definition item_ok (x : hitem) : Prop := match x with JReport r => report_ok r | _ => True end.

(** Nothing was set there. *)
Definition vacant {A} (l : list (option A)) (i : N) : bool := match nthN l i with Some (Some _) => false | _ => true end.
(** The call overwrites nothing. *)
Definition o_clean (l : list item) (k : ocall) : bool :=
  match k with
  | OAddStr h i _ => match nth_error l h with Some (IStrs t) => vacant t i | _ => true end
  | OAddSeg h i _ => match nth_error l h with Some (ISegs t) => vacant t i | _ => true end
  | OAddCap h i _ => match nth_error l h with Some (ICaps t) => vacant t i | _ => true end
  | OSetVar h i _ => match nth_error l h with Some (IEvent t) => vacant t i | _ => true end
  | _ => true
  end.

Definition er_x (s : xheap) : xstate := (er_world (fst s), map er_item (snd s)).

Section WithGeo.
  Context {G : Geo}.
  (** The call loses no block. *)
  Definition x_clean (n : nat) (s : xstate) (k : xcall) : bool :=
    match k with
    | XTree k => clean_call n (fst s) k
    | XObj k => o_clean (snd s) k
    | XInsert id hs t => match consts_at (snd s) hs with Ok cs => clean_call n (fst s) (TInsert id cs t) | _ => true end
    | XMake id hs t => match consts_at (snd s) hs with Ok cs => clean_call n (fst s) (TMake id cs t) | _ => true end
    | XSearch _ _ | XSearchEvent _ _ => match x_call n s k with Ok (RReport b _, _) => b | _ => true end
    | XExistsEvent _ => true
    end.
  Fixpoint x_clean_run (n : nat) (s : xstate) (l : list xcall) : bool :=
    match l with
    | [] => true
    | k :: t => x_clean n s k && match x_call n s k with Ok (_, s) => x_clean_run n s t | _ => true end
    end.
  (** As in HeapWorldSpec.v. *)
  Fixpoint x_roomy_run (n : nat) (s : xstate) (l : list xcall) : bool :=
    roomy (p_cfg (fst s)) &&
    match l with
    | [] => true
    | k :: t => match x_call n s k with Ok (_, s) => x_roomy_run n s t | _ => true end
    end.
End WithGeo.
