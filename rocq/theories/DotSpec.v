(** What a drawing of the index should show: the statements of the graph, read off a tree without pointers. *)
From Coq Require Import ZArith NArith String Ascii Bool List Floats.SpecFloat.
From Verif Require Import Base Float Value Ast Config Tree Printer.
Import ListNotations.
Local Open Scope string_scope.
Local Open Scope list_scope.

(** The statements of the graph. *)
Inductive item :=
| INode (name attrs : string)                               (** a node *)
| ISubs (name : string) (ids : list Z)                      (** the subscriptions of the leaf [name] *)
| IPdir (name : string) (pnodes : list (string * string))   (** the pnodes of a cnode: names and variables *)
| ITable (name : string) (rows : list (list (option (string * string))))   (** the ranges of a variable: names and ends *)
| IEdge (from to : string)
| IHead (from to cluster : string)                          (** an edge to a group *)
| IPort (table port to : string)                            (** an edge from a range in a table *)
| IRank (l : list (bool * string)).                         (** nodes on one level; with a comma before the name or not *)

(** *** Texts *)

(** Blanks. *)
Definition pad (n : nat) : string := String.concat "" (repeat " " n).
(** Names of variables with underscores for hyphens. *)
Definition underscored (s : string) : string :=
  string_of_list_ascii (map (fun a => if Ascii.eqb a "-" then "_"%char else a) (list_ascii_of_string s)).
(** The integer nearest to a / b; the even one if two are. *)
Definition nearest_even (a b : Z) : Z :=
  let q := ((2 * a + b) / (2 * b))%Z in
  if ((2 * a + b) mod (2 * b) =? 0)%Z && Z.odd q then (q - 1)%Z else q.
(** A double without decimals. *)
Definition whole (f : flt) : string :=
  (match f with S754_zero true | S754_infinity true | S754_finite true _ _ => "-" | _ => "" end
   ++ match f with
      | S754_zero _ => "0"
      | S754_infinity _ => "inf"
      | S754_nan => "nan"
      | S754_finite _ m e => show_Z (if (0 <=? e)%Z then Z.pos m * 2 ^ e else nearest_even (Z.pos m) (2 ^ (- e)))
      end)%string.
Definition yes_no (b : bool) : string := if b then "true" else "false".

(** *** The tree as statements *)
Section Spec.
  Variable c : config.

  (** The name of a variable. *)
  Definition var_name (v : N) : string := match nthN (c_domains c) v with Some d => d_attr d | None => "" end.
  (** The ends of a range, as shown. *)
  Definition shown_range (b : bound) : string :=
    match b with
    | BInt _ lo hi | BStr _ lo hi => "[" ++ show_Z lo ++ ", " ++ show_Z hi ++ "]"
    | BFloat lo hi => "[" ++ whole lo ++ ", " ++ whole hi ++ "]"
    | BBool lo hi => "[" ++ yes_no lo ++ ", " ++ yes_no hi ++ "]"
    | BSegs | BFreqs => ""
    end.
  (** The ends of a range, as part of a name. *)
  Definition range_name (b : bound) : string :=
    match b with
    | BInt _ lo hi => show_Z (to_uint 64 lo) ++ "_" ++ show_Z (to_uint 64 hi)
    | BStr _ lo hi => show_Z lo ++ "_" ++ show_Z hi
    | BFloat lo hi => whole lo ++ "_" ++ whole hi
    | BBool lo hi => yes_no lo ++ "_" ++ yes_no hi
    | BSegs | BFreqs => ""
    end.
  (** The path of a pnode below a cnode with path [t]; of a range of a pnode with path [s]. *)
  Definition to_pnode (t : string) (v : N) : string := t ++ "_" ++ underscored (var_name v).
  Definition to_range (s : string) (b : bound) : string := s ++ "_" ++ range_name b.
  (** The name of a cnode. *)
  Definition cnode_name (root : bool) (t : string) : string := if root then "cnode_root" else "cnode_" ++ t.

  (** A cnode is drawn unless it is empty; the root is always drawn. *)
  Definition drawn (T : cnode) : bool := match T with CNode _ [] PNil => false | _ => true end.

  (** The levels of a cdir and its children. *)
  Fixpoint height (D : cdir) : nat :=
    match D with CLeaf _ _ => 1 | CSplit _ _ l r => S (Nat.max (height l) (height r)) end.
  (** The ranges at a level; None where there is none. *)
  Fixpoint level_of (s : string) (d : nat) (D : option cdir) : list (option (string * string)) :=
    match d with
    | O => [match D with Some D => Some (("cdir_" ++ to_range s (cd_bound D))%string, shown_range (cd_bound D)) | None => None end]
    | S d =>
        match D with
        | Some (CSplit _ _ l r) => level_of s d (Some l) ++ level_of s d (Some r)
        | _ => level_of s d None ++ level_of s d None
        end
    end.
  Definition rows_of (s : string) (D : cdir) : list (list (option (string * string))) :=
    map (fun d => level_of s d (Some D)) (seq 0 (height D)).

  (** The attributes of the nodes. *)
  Definition cnode_style := "label=""c-node"", color=darkolivegreen3, fillcolor=darkolivegreen3, style=filled, shape=circle, fixedsize=true, width=0.8".
  Definition lnode_style := "label=""l-node"", fillcolor=black, style=filled, fontcolor=white, shape=circle, fixedsize=true, width=0.8".
  Definition fake_style := "label=""p-node"", color=cyan2, fillcolor=cyan2, style=filled, shape=circle, fixedsize=true, width=0.8".
  Definition pnode_style (v : N) : string := "label=""" ++ var_name v ++ """, color=cyan2, fillcolor=cyan2, style=filled, shape=record".

  (** The pnodes below a cnode with path [t]. *)
  Fixpoint pnodes_of (t : string) (ps : pdir) : list N := match ps with PNil => [] | PCons v _ _ rest => v :: pnodes_of t rest end.

  (** The nodes. *)
  Fixpoint nodes_cnode (root : bool) (t : string) (T : cnode) : list item :=
    match T with
    | CNode _ subs ps =>
        INode (cnode_name root t) cnode_style :: INode ("lnode_" ++ t) lnode_style
        :: match subs with [] => [] | _ => [ISubs ("lnode_" ++ t) (map s_id subs)] end
        ++ match ps with
           | PNil => []
           | _ => IPdir ("pdir_" ++ t) (map (fun v => (("pnode_" ++ to_pnode t v)%string, var_name v)) (pnodes_of t ps))
                  :: nodes_pdir t ps
           end
    end
  with nodes_pdir (t : string) (ps : pdir) : list item :=
    match ps with
    | PNil => []
    | PCons v _ D rest =>
        INode ("pnode_" ++ to_pnode t v) (pnode_style v) :: INode ("pnode_" ++ to_pnode t v ++ "_fake") fake_style
        :: ITable ("cdir_" ++ to_range (to_pnode t v) (cd_bound D)) (rows_of (to_pnode t v) D)
        :: nodes_cdir (to_pnode t v) D ++ nodes_pdir t rest
    end
  with nodes_cdir (s : string) (D : cdir) : list item :=
    match D with
    | CLeaf b T => if drawn T then nodes_cnode false (to_range s b) T else []
    | CSplit b T l r =>
        (if drawn T then nodes_cnode false (to_range s b) T else []) ++ nodes_cdir s l ++ nodes_cdir s r
    end.

  (** The edges. *)
  Fixpoint edges_cnode (root : bool) (t : string) (T : cnode) : list item :=
    match T with
    | CNode _ subs ps =>
        IEdge (cnode_name root t) ("lnode_" ++ t)
        :: match subs with [] => [] | _ => [IEdge ("lnode_" ++ t) ("lnode_" ++ t ++ "_subs")] end
        ++ match ps with
           | PNil => []
           | PCons v _ _ _ => IHead (cnode_name root t) ("pnode_" ++ to_pnode t v) ("pdir_" ++ t) :: edges_pdir t ps
           end
    end
  with edges_pdir (t : string) (ps : pdir) : list item :=
    match ps with
    | PNil => []
    | PCons v _ D rest =>
        let table := ("cdir_" ++ to_range (to_pnode t v) (cd_bound D))%string in
        IEdge ("pnode_" ++ to_pnode t v) ("pnode_" ++ to_pnode t v ++ "_fake")
        :: IHead ("pnode_" ++ to_pnode t v ++ "_fake") table table
        :: edges_cdir (to_pnode t v) table D ++ edges_pdir t rest
    end
  with edges_cdir (s table : string) (D : cdir) : list item :=
    let at_cnode b T :=
      if drawn T then
        IPort table ("cdir_" ++ to_range s b) (cnode_name false (to_range s b)) :: edges_cnode false (to_range s b) T
      else [] in
    match D with
    | CLeaf b T => at_cnode b T
    | CSplit b T l r => at_cnode b T ++ edges_cdir s table l ++ edges_cdir s table r
    end.

  (** The cnodes of the ranges of one variable; [first] tells whether none was named above. *)
  Fixpoint rank_of (s : string) (first : bool) (D : cdir) : list (bool * string) :=
    let at_cnode b T := if drawn T then [(negb first, cnode_name false (to_range s b))] else [] in
    match D with
    | CLeaf b T => at_cnode b T
    | CSplit b T l r =>
        at_cnode b T ++ rank_of s (if drawn T then false else first) l ++ rank_of s (if drawn T then false else first) r
    end.
  (** A list with commas. *)
  Definition commas (l : list string) : list (bool * string) :=
    match l with [] => [] | x :: l => (false, x) :: map (fun x => (true, x)) l end.
  (** The levels. *)
  Fixpoint ranks_cnode (t : string) (T : cnode) : list item :=
    match T with
    | CNode _ _ PNil => []
    | CNode _ _ ps =>
        IRank (commas (map (fun v => "pnode_" ++ to_pnode t v ++ "_fake")%string (pnodes_of t ps))) :: ranks_pdir t ps
    end
  with ranks_pdir (t : string) (ps : pdir) : list item :=
    match ps with
    | PNil => []
    | PCons v _ D rest => IRank (rank_of (to_pnode t v) true D) :: ranks_cdir (to_pnode t v) D ++ ranks_pdir t rest
    end
  with ranks_cdir (s : string) (D : cdir) : list item :=
    match D with
    | CLeaf b T => if drawn T then ranks_cnode (to_range s b) T else []
    | CSplit b T l r => (if drawn T then ranks_cnode (to_range s b) T else []) ++ ranks_cdir s l ++ ranks_cdir s r
    end.

  (** All statements. *)
  Definition drawing (T : cnode) : list item := nodes_cnode true "" T ++ edges_cnode true "" T ++ ranks_cnode "" T.
End Spec.

(** *** Statements as text *)

(** In quotes. *)
Definition quoted (s : string) : string := """" ++ s ++ """".
Definition line_end : string := "
".
(** The width of a cell in a row with [k] rows from it on: 2^(k-1). *)
Definition width_of (k : nat) : Z := (2 ^ Z.of_nat k mod 2 ^ 64 / 2)%Z.
(** A cell of a table. *)
Definition cell_text (k : nat) (x : option (string * string)) : string :=
  pad 20 ++ "<td colspan=""" ++ show_Z (width_of k) ++ """"
  ++ match x with Some (port, range) => " port=""" ++ port ++ """>" ++ range | None => ">" end ++ "</td>" ++ line_end.
(** The rows. *)
Fixpoint rows_text (rows : list (list (option (string * string)))) : string :=
  match rows with
  | [] => ""
  | row :: rest =>
      pad 16 ++ "<tr>" ++ line_end ++ String.concat "" (map (cell_text (List.length rows)) row)
      ++ pad 16 ++ "</tr>" ++ line_end ++ rows_text rest
  end.
(** The subscriptions, five to a row. *)
Fixpoint ids_text (i : nat) (ids : list Z) : string :=
  match ids with
  | [] => ""
  | z :: rest =>
      (if Nat.eqb i 0 then "" else if Nat.eqb (Nat.modulo i 5) 0 then "<br/>" else ", ")
      ++ "S<sub>" ++ show_Z z ++ "</sub>" ++ ids_text (S i) rest
  end.
(** The names of a level. *)
Definition rank_text (l : list (bool * string)) : string :=
  String.concat "" (map (fun x : bool * string => (if fst x then ", " else "") ++ quoted (snd x))%string l).
Definition node_text (n : nat) (name attrs : string) : string := pad n ++ quoted name ++ " [" ++ attrs ++ "]" ++ line_end.

(** A statement. *)
Definition item_text (i : item) : string :=
  match i with
  | INode name attrs => node_text 4 name attrs
  | ISubs name ids =>
      node_text 4 (name ++ "_subs")
        ("label=<\{" ++ ids_text 0 ids ++ "\}>, color=lightblue1, fillcolor=lightblue1, style=filled, shape=record")
  | IPdir name pnodes =>
      pad 4 ++ "subgraph " ++ quoted ("cluster" ++ name) ++ " {" ++ line_end
      ++ pad 8 ++ "color=lightpink; fillcolor=lightpink; style=filled; label=""p-directory""; fontsize=20; fontname=""Verdana""" ++ line_end
      ++ String.concat "" (map (fun x : string * string =>
           node_text 8 (fst x) ("label=""" ++ snd x ++ """, color=cyan2, fillcolor=cyan2, style=filled, shape=record")) pnodes)
      ++ pad 4 ++ "}" ++ line_end
  | ITable name rows =>
      pad 4 ++ "subgraph " ++ quoted ("cluster" ++ name) ++ " {" ++ line_end
      ++ pad 8 ++ "color=orange; fillcolor=orange; style=filled; label=""c-directory""; fontsize=20; fontname=""Verdana""" ++ line_end
      ++ pad 8 ++ name ++ " [fillcolor=darkolivegreen3, style=filled, shape=box, label=<" ++ line_end
      ++ pad 12 ++ "<table>" ++ line_end ++ rows_text rows ++ pad 12 ++ "</table>" ++ line_end
      ++ pad 8 ++ ">]" ++ line_end ++ pad 4 ++ "}" ++ line_end
  | IEdge from to => pad 4 ++ quoted from ++ " -> " ++ quoted to ++ line_end
  | IHead from to cluster =>
      pad 4 ++ quoted from ++ " -> " ++ quoted to ++ " [lhead=" ++ quoted ("cluster" ++ cluster) ++ "]" ++ line_end
  | IPort table port to => pad 4 ++ table ++ ":" ++ port ++ " -> " ++ quoted to ++ line_end
  | IRank l => pad 4 ++ "{ rank=same; " ++ rank_text l ++ " }" ++ line_end
  end.
(** The file. *)
Definition file_text (l : list item) : string :=
  "digraph {" ++ line_end ++ "    compound=true    node [fontsize=20, fontname=""Verdana""];" ++ line_end
  ++ String.concat "" (map item_text l) ++ "}" ++ line_end.

(** *** What a drawing shows *)

(** The subscriptions. *)
Definition ids_shown (l : list item) : list Z := flat_map (fun i => match i with ISubs _ ids => ids | _ => [] end) l.
(** The nodes that may be named. *)
Definition nodes_shown (l : list item) : list string :=
  flat_map (fun i => match i with
                     | INode name _ => [name]
                     | ISubs name _ => [(name ++ "_subs")%string]
                     | ITable name _ => [name]
                     | _ => []
                     end) l.
(** The groups. *)
Definition groups_shown (l : list item) : list string :=
  flat_map (fun i => match i with IPdir name _ | ITable name _ => [name] | _ => [] end) l.
(** The cells of the tables, by table and port. *)
Definition ports_shown (l : list item) : list (string * string) :=
  flat_map (fun i => match i with
                     | ITable name rows =>
                         flat_map (fun x : option (string * string) => match x with Some (p, _) => [(name, p)] | None => [] end) (List.concat rows)
                     | _ => []
                     end) l.
(** The statement names only what the others declare. *)
Definition declared (l : list item) (i : item) : Prop :=
  match i with
  | IEdge a b => In a (nodes_shown l) /\ In b (nodes_shown l)
  | IHead a b g => In a (nodes_shown l) /\ In b (nodes_shown l) /\ In g (groups_shown l)
  | IPort t p b => In (t, p) (ports_shown l) /\ In b (nodes_shown l)
  | IRank names => Forall (fun x => In (snd x) (nodes_shown l)) names
  | _ => True
  end.
