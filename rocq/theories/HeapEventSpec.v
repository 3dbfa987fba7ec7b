(** Which blocks belong to an event, to a report, and to a value of the parser of events. *)
From Coq Require Import ZArith String List Bool.
From Verif Require Import Base Value Tree Api BisonTables Ledger HeapExpr HeapSpec HeapEvent.
Import ListNotations.
Local Open Scope Z_scope.

(** The array of a list; an empty list need not have one. *)
Definition bl_arr {A} (items : list A) (a : Z) : list Z := match items with [] => opt_at a | _ => [a] end.
Definition bl_segs (l : hsegs) : list Z := hgs_at l :: bl_arr (hgs_items l) (hgs_arr l) ++ map hg_at (hgs_items l).
Definition bl_cap (k : hcap) : list Z := hc_at k :: bl_sval (hc_ns k).
Definition bl_caps (l : hcaps) : list Z := hcs_at l :: bl_arr (hcs_items l) (hcs_arr l) ++ flat_map bl_cap (hcs_items l).
Definition bl_value (v : hvalue) : list Z :=
  match v with
  | HWBool _ | HWInt _ | HWFloat _ | HWIEnum _ => []
  | HWStr s => bl_sval s
  | HWInts l => bl_ints l
  | HWStrs l => bl_strs l
  | HWSegs l => bl_segs l
  | HWCaps l => bl_caps l
  end.
(** The variable, its name, its value. *)
Definition bl_variable (x : hvariable) : list Z := hy_at x :: hs_at (hv_attr (hy_attr x)) :: bl_value (hy_value x).
Definition bl_slot (x : option hvariable) : list Z := match x with Some y => bl_variable y | None => [] end.
(** All blocks of an event. *)
Definition bl_event (e : hevent) : list Z := he_at e :: bl_arr (he_vars e) (he_arr e) ++ flat_map bl_slot (he_vars e).

(** The blocks of a report; it has an array once something matched. *)
Definition bl_report (r : hreport) : list Z := hp_at r :: opt_at (hp_subs r).
Definition report_ok (r : hreport) : Prop := 0 <= r_matched (hp_report r) /\ (r_matched (hp_report r) = 0 <-> hp_subs r = 0).

(** The blocks of a value on the stack of the parser. *)
Definition bl_eval (v : heval) : list Z :=
  match v with
  | GTok | GBool _ | GInt _ | GFlt _ => []
  | GString s => [hs_at s]
  | GStr s => bl_sval s
  | GInts l => bl_ints l
  | GStrs l => bl_strs l
  | GSeg s => [hg_at s]
  | GSegs l => bl_segs l
  | GCap k => bl_cap k
  | GCaps l => bl_caps l
  | GValue v => bl_value v
  | GVariable x => bl_slot x
  | GEvent e => bl_event e
  end.

(** The event a text stands for. *)
Definition text_event (text : string) : result event :=
  (do o <- event_parse_c text;
   match o with None => Abort | Some l => Ok (map (fun p => (fst p, Some (snd p))) l) end)%res.
