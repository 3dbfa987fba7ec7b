(** What is printed of events and variables. *)
From Coq Require Import ZArith NArith Ascii String Bool List.
From Verif Require Import Base Float Value Printer EventObj.
Import ListNotations.
Local Open Scope Z_scope.
Local Open Scope string_scope.

Definition commas (l : list string) : string := String.concat ", " l.
(** A list that is not empty. *)
Definition some_list (l : list string) : option string := match l with [] => None | _ => Some (commas l) end.

(** A value in the text of an event, if it has one: integers modulo 2^64. *)
Definition value_text (v : value) : option string :=
  match v with
  | VInt z => Some (show_Z (z mod 2 ^ 64))
  | VFloat f => Some (show_flt f)
  | VBool b => Some (if b then "true" else "false")
  | VStr s => Some (show_str (sv_string s))
  | VIEnum e => Some (show_Z (ie_int e))
  | VIntList l => option_map (fun s => "(" ++ s ++ ")") (some_list (map show_Z l))
  | VStrList l => option_map (fun s => "(" ++ s ++ ")") (some_list (map (fun s => show_str (sv_string s)) l))
  | VSegs _ | VFreqs _ => None
  end.
Definition slot_text (x : option variable) : option string :=
  match x with Some (name, v) => option_map (fun s => name ++ " = " ++ s) (value_text v) | None => None end.
Fixpoint all_some {A} (l : list (option A)) : option (list A) :=
  match l with
  | [] => Some []
  | x :: t => match x, all_some t with Some a, Some r => Some (a :: r) | _, _ => None end
  end.
(** The text of an event: all variables are there and have a text. *)
Definition event_text (e : evobj) : option string := option_map commas (all_some (map slot_text e)).

(** ast.h: the names of the types of frequency caps. *)
Definition type_name (t : ftype) : option string := match show_ftype t with Ok s => Some s | _ => None end.
Definition segment_text (s : segment) : string := "[" ++ show_Z (sg_id s) ++ ", " ++ show_Z (sg_ts s) ++ "]".
Definition cap_text (k : fcap) : option string :=
  option_map (fun ty => "[[" ++ show_str ty ++ ", " ++ show_Z (fc_id k) ++ ", " ++ show_str (sv_string (fc_ns k)) ++ "], " ++
    show_Z (fc_value k) ++ ", " ++ (if fc_tsdef k then show_Z (fc_ts k) else "undefined") ++ "]") (type_name (fc_type k)).
(** The line printed for a variable, if there is one. *)
Definition printed_value (v : value) : option (string * string) :=
  match v with
  | VBool b => Some ("boolean", if b then "true" else "false")
  | VInt z => Some ("integer", show_Z z)
  | VFloat f => Some ("float", show_flt f)
  | VStr s => Some ("string", sv_string s)
  | VIEnum e => Some ("integer_enum", show_Z (ie_int e))
  | VIntList l => option_map (pair "integer_list") (some_list (map show_Z l))
  | VStrList l => option_map (pair "string_list") (some_list (map (fun s => show_str (sv_string s)) l))
  | VSegs l => option_map (pair "segments") (some_list (map segment_text l))
  | VFreqs l => option_map (pair "frequency_caps") (match all_some (map cap_text l) with Some r => some_list r | None => None end)
  end.
Definition line_text (x : option variable) : option string :=
  match x with
  | None => Some "undefined"
  | Some (name, v) => option_map (fun p => fst p ++ " " ++ name ++ " = " ++ snd p) (printed_value v)
  end.
