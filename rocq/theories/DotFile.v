(** The drawing of the index as a graph (debug.c 11-569, 641-697, 764-781): node names built from the parent pointers, and the
    text written to the file.  Opening the file succeeds; its text is the concatenation of what is
    printed.  Not modelled: code in comments (340-343, 571-639) and 699-762, which nothing calls. *)
From Coq Require Import ZArith NArith String Ascii Bool List Floats.SpecFloat.
From Verif Require Import Base Float Value Ast Config Tree Printer Api Linked LinkedApi.
Import ListNotations.
Local Open Scope string_scope.
Local Open Scope res_scope.

(** *** Printing *)

(** A step: it may read memory, allocate and free, and print. *)
Definition dot (A : Type) : Type := heap -> result (A * string * heap).
(** Nothing. *)
Definition dret {A} (a : A) : dot A := fun h => Ok (a, "", h).
(** One step after the other. *)
Definition dbind {A B} (m : dot A) (k : A -> dot B) : dot B :=
  fun h => do '(a, s, h) <- m h; do '(b, t, h) <- k a h; Ok (b, s ++ t, h).
Declare Scope dot_scope.
Notation "'on' x <- m ; k" := (dbind m (fun x => k)) (at level 200, x pattern, m at level 100, k at level 200) : dot_scope.
Notation "m ;; k" := (dbind m (fun _ => k)) (at level 199, right associativity) : dot_scope.
Local Open Scope dot_scope.
(** Reading memory. *)
Definition peek {A} (f : heap -> result A) : dot A := fun h => do a <- f h; Ok (a, "", h).
(** No fuel. *)
Definition dfuel {A} : dot A := fun _ => Fuel.

(** An allocated text: its address and what it says. *)
Definition dname : Type := N * string.
(** alloc.c 64-74 [basprintf], alloc.h [bstrdup], [bcalloc] with a text written into it. *)
Definition asprintf (s : string) : dot dname := fun h => let '(a, h) := alloc OStr h in Ok ((a, s), "", h).
(** The characters at an address: undefined unless a text is allocated there. *)
Definition str_at (h : heap) (a : N) : result unit := do o <- load h a; match o with OStr => Ok tt | _ => UB end.
(** A text used as an argument of a printing function. *)
Definition text_of (x : dname) : dot string := peek (fun h => do _ <- str_at h (fst x); Ok (snd x)).
(** bfree of a text. *)
Definition bfree (x : dname) : dot unit := fun h => do _ <- str_at h (fst x); do h <- release h (fst x); Ok (tt, "", h).
(** fprintf of a known text. *)
Definition say (s : string) : dot unit := fun h => Ok (tt, s, h).

(** debug.c 186-189 [print_spaces]; (int)level * 4 stays small. *)
Fixpoint blanks (n : nat) : string := match n with O => "" | S n => " " ++ blanks n end.
(** debug.c 186-189 [print_spaces]. *)
Definition print_spaces (level : nat) : dot unit := say (blanks (4 * level)).

(** printf `%.0f` (glibc: the exact value, rounded to nearest even). *)
Definition show_flt0 (f : flt) : string :=
  match f with
  | S754_zero s => (if s then "-" else "") ++ "0"
  | S754_infinity s => (if s then "-" else "") ++ "inf"
  | S754_nan => "nan"
  | S754_finite s m e =>
      (if s then "-" else "") ++ show_Z (if (e <? 0)%Z then near_div (Z.pos m) (2 ^ (- e)) else (Z.pos m * 2 ^ e)%Z)
  end.
(** "true" or "false" (debug.c 92-93, 267-268). *)
Definition show_bool (b : bool) : string := if b then "true" else "false".

(** *** Names (debug.c 18-184) *)

(** debug.c 18-36 [escape_name]. *)
Fixpoint escape (s : string) : string :=
  match s with
  | "" => ""
  | String c t => String (if (c =? "-")%char then "_" else c)%char (escape t)
  end.
(** attr_var.attr: the copy at [sa] of the name of the variable (tree.c 588-652). *)
Definition attr_text (c : config) (v sa : N) : dot string :=
  peek (fun h => do _ <- str_at h sa; do d <- get_domain c v; Ok (d_attr d)).
(** debug.c 72-115: the part of a path made from a range; `%lu` of an int64_t. *)
Definition path_range (b : bound) : result string :=
  match b with
  | BInt _ lo hi => Ok (show_Z (to_uint 64 lo) ++ "_" ++ show_Z (to_uint 64 hi))
  | BFloat lo hi => Ok (show_flt0 lo ++ "_" ++ show_flt0 hi)
  | BBool lo hi => Ok (show_bool lo ++ "_" ++ show_bool hi)
  | BStr _ lo hi => Ok (show_Z lo ++ "_" ++ show_Z hi)
  | BSegs | BFreqs => Abort
  end.

(** debug.c 120-126 [get_path_cnode], 51-118 [get_path_cdir], 38-49 [get_path_pnode]. *)
Fixpoint path_cnode (n : nat) (c : config) (a : N) : dot dname :=
  match n with
  | O => dfuel
  | S n =>
      on (p, _, _) <- peek (fun h => get_cnode h a);
      if (p =? NULL)%N then asprintf "" else path_cdir n c p true
  end
with path_cdir (n : nat) (c : config) (a : N) (first : bool) : dot dname :=
  match n with
  | O => dfuel
  | S n =>
      on (k, p, _, _, b, _, _, _) <- peek (fun h => get_cdir h a);
      if first then
        on parent <- (if k : bool then path_pnode n c p else path_cdir n c p false);
        on r <- peek (fun _ => path_range b);
        on t <- text_of parent;
        on x <- asprintf (t ++ "_" ++ r);
        bfree parent;;
        dret x
      else if k : bool then path_pnode n c p else path_cdir n c p false
  end
with path_pnode (n : nat) (c : config) (a : N) : dot dname :=
  match n with
  | O => dfuel
  | S n =>
      on (pd, v, sa, _, _) <- peek (fun h => get_pnode h a);
      on (cn, _, _) <- peek (fun h => get_pdir h pd);
      on parent <- path_cnode n c cn;
      on attr <- attr_text c v sa;
      on esc <- asprintf (escape attr);
      on t <- text_of parent;
      on e <- text_of esc;
      on x <- asprintf (t ++ "_" ++ e);
      bfree parent;;
      bfree esc;;
      dret x
  end.

(** basprintf of a prefix and a path, which is freed (debug.c 131-136 and the other names). *)
Definition prefixed (prefix : string) (path : dot dname) : dot dname :=
  on p <- path;
  on t <- text_of p;
  on x <- asprintf (prefix ++ t);
  bfree p;;
  dret x.
(** debug.c 128-137 [get_name_pnode]. *)
Definition name_pnode (n : nat) (c : config) (a : N) : dot dname := prefixed "pnode_" (path_pnode n c a).
(** debug.c 139-148 [get_name_cdir]. *)
Definition name_cdir (n : nat) (c : config) (a : N) : dot dname := prefixed "cdir_" (path_cdir n c a true).
(** debug.c 150-162 [get_name_cnode]. *)
Definition name_cnode (n : nat) (c : config) (a : N) : dot dname :=
  on (p, _, _) <- peek (fun h => get_cnode h a);
  if (p =? NULL)%N then asprintf "cnode_root" else prefixed "cnode_" (path_cnode n c a).
(** debug.c 164-173 [get_name_lnode]. *)
Definition name_lnode (n : nat) (c : config) (a : N) : dot dname :=
  on (p, _, _, _) <- peek (fun h => get_lnode h a);
  prefixed "lnode_" (path_cnode n c p).
(** debug.c 175-184 [get_name_pdir]. *)
Definition name_pdir (n : nat) (c : config) (a : N) : dot dname :=
  on (p, _, _) <- peek (fun h => get_pdir h a);
  prefixed "pdir_" (path_cnode n c p).

(** *** Nodes (debug.c 11-14, 191-469) *)

(** debug.c 11-14 [should_print_cnode]. *)
Definition should_print (a : N) : dot bool :=
  peek (fun h => do '(_, la, pd) <- get_cnode h a;
                 if negb (pd =? NULL)%N then Ok true else
                 do '(_, n, _, _) <- get_lnode h la; Ok (Nat.ltb 0 n)).

(** debug.c 203-213: the loop; five to a row. *)
Fixpoint say_subs (i : nat) (l : list N) : dot unit :=
  match l with
  | [] => dret tt
  | a :: t =>
      say (match i with O => "" | _ => if Nat.eqb (Nat.modulo i 5) 0 then "<br/>" else ", " end);;
      on s <- peek (fun h => get_sub h a);
      say ("S<sub>" ++ show_Z (s_id s) ++ "</sub>");;
      say_subs (S i) t
  end.
(** debug.c 191-217 [write_dot_file_lnode_names]. *)
Definition lnode_names (n : nat) (c : config) (a : N) (level : nat) : dot unit :=
  on x <- name_lnode n c a;
  print_spaces level;;
  on t <- text_of x;
  say ("""" ++ t ++ """ [label=""l-node"", fillcolor=black, style=filled, fontcolor=white, shape=circle, fixedsize=true, width=0.8]
");;
  on (_, k, sa, _) <- peek (fun h => get_lnode h a);
  (if Nat.ltb 0 k then
     print_spaces level;;
     on t <- text_of x;
     say ("""" ++ t ++ "_subs"" [label=<\{");;
     on l <- peek (fun h => entries h k sa);
     say_subs 0 l;;
     say "\}>, color=lightblue1, fillcolor=lightblue1, style=filled, shape=record]
"
   else dret tt);;
  bfree x.

(** debug.c 222-228 [colspan_value]. *)
Fixpoint colspan_value (level : nat) : Z :=
  match level with O => 1 | S level => to_uint 64 (colspan_value level * 2) end.
(** debug.c 247-298: the range in a cell. *)
Definition cell_range (b : bound) : result string :=
  match b with
  | BInt _ lo hi => Ok ("[" ++ show_Z lo ++ ", " ++ show_Z hi ++ "]")
  | BFloat lo hi => Ok ("[" ++ show_flt0 lo ++ ", " ++ show_flt0 hi ++ "]")
  | BBool lo hi => Ok ("[" ++ show_bool lo ++ ", " ++ show_bool hi ++ "]")
  | BStr _ lo hi => Ok ("[" ++ show_Z lo ++ ", " ++ show_Z hi ++ "]")
  | BSegs | BFreqs => Abort
  end.
(** debug.c 237-238: the children of a cdir that may be missing. *)
Definition children (a : N) : dot (N * N) :=
  if (a =? NULL)%N then dret (NULL, NULL)
  else on (_, _, _, _, _, _, l, r) <- peek (fun h => get_cdir h a); dret (l, r).
(** debug.c 230-306 [write_dot_file_cdir_td]. *)
Fixpoint cdir_td (n : nat) (c : config) (a : N) (level depth : nat) (colspan : Z) : dot unit :=
  on (l, r) <- children a;
  match depth with
  | O =>
      print_spaces level;;
      if (a =? NULL)%N then say ("<td colspan=""" ++ show_Z colspan ++ """></td>
") else
      on x <- name_cdir n c a;
      on (_, _, _, _, b, _, _, _) <- peek (fun h => get_cdir h a);
      on r <- peek (fun _ => cell_range b);
      on t <- text_of x;
      say ("<td colspan=""" ++ show_Z colspan ++ """ port=""" ++ t ++ """>" ++ r ++ "</td>
");;
      bfree x
  | S depth =>
      cdir_td n c l level depth colspan;;
      cdir_td n c r level depth colspan
  end.
(** The loop of debug.c 314-323 from [current_depth] on, with [k] rows left. *)
Fixpoint cdir_rows (n : nat) (c : config) (a : N) (level k current_depth : nat) : dot unit :=
  match k with
  | O => dret tt
  | S k' =>
      print_spaces level;;
      say "<tr>
";;
      cdir_td n c a (level + 1) current_depth (colspan_value k / 2);;
      print_spaces level;;
      say "</tr>
";;
      cdir_rows n c a level k' (S current_depth)
  end.

(** The loop of debug.c 352-358: [current] plus the number of cdirs from [a] up to the one below the pnode. *)
Fixpoint parents (n : nat) (a : N) (current : nat) : dot nat :=
  match n with
  | O => dfuel
  | S n =>
      if (a =? NULL)%N then dret current else
      on (k, p, _, _, _, _, _, _) <- peek (fun h => get_cdir h a);
      if k : bool then dret (S current) else parents n p (S current)
  end.
(** debug.c 345-363 [depth_of_cdir]. *)
Fixpoint depth_of_cdir (n : nat) (a : N) : dot nat :=
  match n with
  | O => dfuel
  | S n =>
      if (a =? NULL)%N then dret 0%nat else
      on (k, p, _, _, _, _, l, r) <- peek (fun h => get_cdir h a);
      on current <- (if k : bool then dret 1%nat else parents n p 1);
      on x <- depth_of_cdir n l;
      on y <- depth_of_cdir n r;
      dret (Nat.max (Nat.max x y) current)
  end.

(** debug.c 365-392 of [write_dot_file_cdir_names]. *)
Definition cdir_table (n : nat) (c : config) (a : N) (level : nat) : dot unit :=
  on x <- name_cdir n c a;
  print_spaces level;;
  on t <- text_of x;
  say ("subgraph ""cluster" ++ t ++ """ {
");;
  print_spaces (level + 1);;
  say "color=orange; fillcolor=orange; style=filled; label=""c-directory""; fontsize=20; fontname=""Verdana""
";;
  print_spaces (level + 1);;
  on t <- text_of x;
  say (t ++ " [fillcolor=darkolivegreen3, style=filled, shape=box, label=<
");;
  print_spaces (level + 2);;
  say "<table>
";;
  on depth <- depth_of_cdir n a;
  cdir_rows n c a (level + 3) depth 0;;
  print_spaces (level + 2);;
  say "</table>
";;
  print_spaces (level + 1);;
  say ">]
";;
  print_spaces level;;
  say "}
";;
  bfree x.
(** debug.c 400-411 of [write_dot_file_pnode_names]. *)
Definition pnode_label (n : nat) (c : config) (a : N) (level : nat) : dot unit :=
  on x <- name_pnode n c a;
  print_spaces level;;
  on (_, v, sa, _, _) <- peek (fun h => get_pnode h a);
  on t <- text_of x;
  on attr <- attr_text c v sa;
  say ("""" ++ t ++ """ [label=""" ++ attr ++ """, color=cyan2, fillcolor=cyan2, style=filled, shape=record]
");;
  print_spaces level;;
  on t <- text_of x;
  say ("""" ++ t ++ "_fake"" [label=""p-node"", color=cyan2, fillcolor=cyan2, style=filled, shape=circle, fixedsize=true, width=0.8]
");;
  bfree x.
(** debug.c 417-430 [write_dot_file_pdir_inner_names]. *)
Fixpoint pdir_inner (n : nat) (c : config) (l : list N) (level : nat) : dot unit :=
  match l with
  | [] => dret tt
  | a :: rest =>
      on x <- name_pnode n c a;
      print_spaces level;;
      on (_, v, sa, _, _) <- peek (fun h => get_pnode h a);
      on t <- text_of x;
      on attr <- attr_text c v sa;
      say ("""" ++ t ++ """ [label=""" ++ attr ++ """, color=cyan2, fillcolor=cyan2, style=filled, shape=record]
");;
      bfree x;;
      pdir_inner n c rest level
  end.
(** debug.c 435-447 of [write_dot_file_pdir_names]. *)
Definition pdir_cluster (n : nat) (c : config) (a : N) (l : list N) (level : nat) : dot unit :=
  on x <- name_pdir n c a;
  print_spaces level;;
  on t <- text_of x;
  say ("subgraph ""cluster" ++ t ++ """ {
");;
  print_spaces (level + 1);;
  say "color=lightpink; fillcolor=lightpink; style=filled; label=""p-directory""; fontsize=20; fontname=""Verdana""
";;
  pdir_inner n c l (level + 1);;
  print_spaces level;;
  say "}
";;
  bfree x.

(** debug.c 453-469 [write_dot_file_cnode_names], 432-451 [write_dot_file_pdir_names] with its last loop,
    397-415 [write_dot_file_pnode_names], 326-338 [write_dot_file_cdir_cnode_names]. *)
Fixpoint cnode_names (n : nat) (c : config) (a : N) (level : nat) : dot unit :=
  match n with
  | O => dfuel
  | S n =>
      on x <- name_cnode n c a;
      print_spaces level;;
      on t <- text_of x;
      say ("""" ++ t ++ """ [label=""c-node"", color=darkolivegreen3, fillcolor=darkolivegreen3, style=filled, shape=circle, fixedsize=true, width=0.8]
");;
      bfree x;;
      on (_, la, pd) <- peek (fun h => get_cnode h a);
      (if (la =? NULL)%N then dret tt else lnode_names n c la level);;
      if (pd =? NULL)%N then dret tt else
      on (_, k, pa) <- peek (fun h => get_pdir h pd);
      on l <- peek (fun h => entries h k pa);
      pdir_cluster n c pd l level;;
      pnodes_names n c l level
  end
with pnodes_names (n : nat) (c : config) (l : list N) (level : nat) : dot unit :=
  match n with
  | O => dfuel
  | S n =>
      match l with
      | [] => dret tt
      | a :: rest =>
          pnode_label n c a level;;
          on (_, _, _, cd, _) <- peek (fun h => get_pnode h a);
          (if (cd =? NULL)%N then dret tt else cdir_table n c cd level;; cdir_names n c cd level);;
          pnodes_names n c rest level
      end
  end
with cdir_names (n : nat) (c : config) (a : N) (level : nat) : dot unit :=
  match n with
  | O => dfuel
  | S n =>
      on (_, _, _, _, _, cn, l, r) <- peek (fun h => get_cdir h a);
      on p <- (if (cn =? NULL)%N then dret false else should_print cn);
      (if p : bool then cnode_names n c cn level else dret tt);;
      (if (l =? NULL)%N then dret tt else cdir_names n c l level);;
      (if (r =? NULL)%N then dret tt else cdir_names n c r level)
  end.

(** *** Edges (debug.c 471-547) *)

(** debug.c 526-536 of [write_dot_file_cnode_links]. *)
Definition lnode_links (n : nat) (c : config) (x : dname) (la : N) (level : nat) : dot unit :=
  on y <- name_lnode n c la;
  print_spaces level;;
  on s <- text_of x;
  on t <- text_of y;
  say ("""" ++ s ++ """ -> """ ++ t ++ """
");;
  on (_, k, _, _) <- peek (fun h => get_lnode h la);
  (if Nat.ltb 0 k then
     print_spaces level;;
     on t <- text_of y;
     say ("""" ++ t ++ """ -> """ ++ t ++ "_subs""
")
   else dret tt);;
  bfree y.
(** debug.c 538-543 of [write_dot_file_cnode_links]. *)
Definition pdir_link (n : nat) (c : config) (x : dname) (pd pn : N) (level : nat) : dot unit :=
  on y <- name_pdir n c pd;
  on z <- name_pnode n c pn;
  print_spaces level;;
  on s <- text_of x;
  on u <- text_of z;
  on t <- text_of y;
  say ("""" ++ s ++ """ -> """ ++ u ++ """ [lhead=""cluster" ++ t ++ """]
");;
  bfree y;;
  bfree z.
(** debug.c 523-547 [write_dot_file_cnode_links], 514-521 [write_dot_file_pdir_links], 497-512
    [write_dot_file_pnode_links], 474-495 [write_dot_file_cdir_links]. *)
Fixpoint cnode_links (n : nat) (c : config) (a : N) (level : nat) : dot unit :=
  match n with
  | O => dfuel
  | S n =>
      on x <- name_cnode n c a;
      on (_, la, pd) <- peek (fun h => get_cnode h a);
      (if (la =? NULL)%N then dret tt else lnode_links n c x la level);;
      (if (pd =? NULL)%N then dret tt else
       on (_, k, pa) <- peek (fun h => get_pdir h pd);
       on l <- peek (fun h => entries h k pa);
       match l with
       | [] => dret tt
       | pn :: _ => pdir_link n c x pd pn level;; pnodes_links n c l level
       end);;
      bfree x
  end
with pnodes_links (n : nat) (c : config) (l : list N) (level : nat) : dot unit :=
  match n with
  | O => dfuel
  | S n =>
      match l with
      | [] => dret tt
      | a :: rest =>
          on (_, _, _, cd, _) <- peek (fun h => get_pnode h a);
          (if (cd =? NULL)%N then dret tt else
           on x <- name_pnode n c a;
           on y <- name_cdir n c cd;
           print_spaces level;;
           on s <- text_of x;
           say ("""" ++ s ++ """ -> """ ++ s ++ "_fake""
");;
           print_spaces level;;
           on s <- text_of x;
           on t <- text_of y;
           say ("""" ++ s ++ "_fake"" -> """ ++ t ++ """ [lhead=""cluster" ++ t ++ """]
");;
           bfree x;;
           cdir_links n c cd level y;;
           bfree y);;
          pnodes_links n c rest level
      end
  end
with cdir_links (n : nat) (c : config) (a : N) (level : nat) (table : dname) : dot unit :=
  match n with
  | O => dfuel
  | S n =>
      on x <- name_cdir n c a;
      on (_, _, _, _, _, cn, l, r) <- peek (fun h => get_cdir h a);
      on p <- (if (cn =? NULL)%N then dret false else should_print cn);
      (if p : bool then
         on y <- name_cnode n c cn;
         print_spaces level;;
         on s <- text_of table;
         on t <- text_of x;
         on u <- text_of y;
         say (s ++ ":" ++ t ++ " -> """ ++ u ++ """
");;
         bfree y;;
         cnode_links n c cn level
       else dret tt);;
      (if (l =? NULL)%N then dret tt else cdir_links n c l level table);;
      (if (r =? NULL)%N then dret tt else cdir_links n c r level table);;
      bfree x
  end.

(** *** Ranks (debug.c 549-569, 641-697) *)

(** debug.c 549-569 [write_dot_file_cdir_cnode_ranks]: [first] is passed by value. *)
Fixpoint cnode_rank (n : nat) (c : config) (a : N) (first : bool) : dot unit :=
  match n with
  | O => dfuel
  | S n =>
      on (_, _, _, _, _, cn, l, r) <- peek (fun h => get_cdir h a);
      on p <- (if (cn =? NULL)%N then dret false else should_print cn);
      (if p : bool then
         on y <- name_cnode n c cn;
         say (if first then "" else ", ");;
         on u <- text_of y;
         say ("""" ++ u ++ """");;
         bfree y
       else dret tt);;
      let first := if p then false else first in
      (if (l =? NULL)%N then dret tt else cnode_rank n c l first);;
      (if (r =? NULL)%N then dret tt else cnode_rank n c r first)
  end.
(** The loop of debug.c 677-684. *)
Fixpoint pnode_rank (n : nat) (c : config) (i : nat) (l : list N) : dot unit :=
  match l with
  | [] => dret tt
  | a :: rest =>
      on x <- name_pnode n c a;
      say (match i with O => "" | _ => ", " end);;
      on t <- text_of x;
      say ("""" ++ t ++ "_fake""");;
      bfree x;;
      pnode_rank n c (S i) rest
  end.
(** debug.c 691-697 [write_dot_file_cnode_ranks], 672-689 [write_dot_file_pdir_ranks] with its last loop, 664-670
    [write_dot_file_pnode_ranks], 644-662 [write_dot_file_cdir_ranks]. *)
Fixpoint cnode_ranks (n : nat) (c : config) (a : N) (level : nat) : dot unit :=
  match n with
  | O => dfuel
  | S n =>
      on (_, _, pd) <- peek (fun h => get_cnode h a);
      if (pd =? NULL)%N then dret tt else
      on (_, k, pa) <- peek (fun h => get_pdir h pd);
      on l <- peek (fun h => entries h k pa);
      print_spaces level;;
      say "{ rank=same; ";;
      pnode_rank n c 0 l;;
      say " }
";;
      pnodes_ranks n c l level
  end
with pnodes_ranks (n : nat) (c : config) (l : list N) (level : nat) : dot unit :=
  match n with
  | O => dfuel
  | S n =>
      match l with
      | [] => dret tt
      | a :: rest =>
          on (_, _, _, cd, _) <- peek (fun h => get_pnode h a);
          (if (cd =? NULL)%N then dret tt else cdir_ranks n c cd level true);;
          pnodes_ranks n c rest level
      end
  end
with cdir_ranks (n : nat) (c : config) (a : N) (level : nat) (first : bool) : dot unit :=
  match n with
  | O => dfuel
  | S n =>
      (if first then
         print_spaces level;;
         say "{ rank=same; ";;
         cnode_rank n c a true;;
         say " }
"
       else dret tt);;
      on (_, _, _, _, _, cn, l, r) <- peek (fun h => get_cdir h a);
      on p <- (if (cn =? NULL)%N then dret false else should_print cn);
      (if p : bool then cnode_ranks n c cn level else dret tt);;
      (if (l =? NULL)%N then dret tt else cdir_ranks n c l level false);;
      (if (r =? NULL)%N then dret tt else cdir_ranks n c r level false)
  end.

(** debug.c 764-781 [write_dot_file], after the file is open: the text in the file.  The file is never closed. *)
Definition write_dot_file (n : nat) (c : config) (root : N) : dot unit :=
  say "digraph {
";;
  say "    compound=true";;
  say "    node [fontsize=20, fontname=""Verdana""];
";;
  cnode_names n c root 1;;
  cnode_links n c root 1;;
  cnode_ranks n c root 1;;
  say "}
".
(** The same on the linked objects of an index. *)
Definition p_draw (n : nat) (q : pstate) : result (string * heap) :=
  do '(_, s, h) <- write_dot_file n (p_cfg q) (p_root q) (p_heap q); Ok (s, h).
