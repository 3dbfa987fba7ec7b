(** Valid programs that also build event objects, constants and reports (ObjProgram.v): what a caller has to respect, without
    looking at the tree. *)
From Coq Require Import ZArith NArith String Bool List.
From Verif Require Import Base Float Value Ast Config Assign Special Match Source Api EventObj Spec TreeSpec Hist Accept
  Tree LinkedApi Machine MachineSpec ObjSpec ProgramSpec ObjProgram HeapObjSpec.
Import ListNotations.
Local Open Scope Z_scope.

(** The strings which the subscriptions use for a variable. *)
Definition log_words (log : list entry) (y : string) : list string :=
  flat_map (fun e => flat_map (fun p => if String.eqb (lower (fst p)) (lower y) then [snd p] else [])
                              (flat_map atom_strs (src_atoms (e_src e)))) log.
(** In each list of strings of the event at most one is new, used by no subscription. *)
Definition one_new (log : list entry) (ev : evobj) : Prop :=
  forall n l s s', In (Some (n, VStrList l)) ev -> In s l -> In s' l ->
    ~ In (sv_string s) (log_words log n) -> ~ In (sv_string s') (log_words log n) -> sv_string s = sv_string s'.

(** [l'] is [l] with [y] in place of the element [x] at [h]. *)
Definition changed {A} (l : list A) (h : nat) (x y : A) (l' : list A) : Prop :=
  exists a b, l = a ++ x :: b /\ List.length a = h /\ l' = a ++ y :: b.
(** The element at [i] becomes [x]. *)
Definition written {A} (l : list A) (i : N) (x : A) (l' : list A) : Prop := exists y, changed l (N.to_nat i) y x l'.
(** What a call on objects does; the tree has [nv] variables. *)
Inductive does (nv : nat) (l : list item) : ocall -> list item -> Prop :=
| d_const name z : does nv l (OConst name z) (l ++ [IConst name z])
| d_ints n : does nv l (OInts n) (l ++ [IInts (repeat 0 n)])
| d_add_int h i z s s' l' : written s i z s' -> changed l h (IInts s) (IInts s') l' -> does nv l (OAddInt h i z) l'
| d_strs n : does nv l (OStrs n) (l ++ [IStrs (repeat None n)])
| d_add_str h i t s s' l' : written s i (Some (mkS t 0)) s' -> changed l h (IStrs s) (IStrs s') l' -> does nv l (OAddStr h i t) l'
| d_seg id ts : does nv l (OSeg id ts) (l ++ [ISeg (mkSeg id ts)])
| d_segs n : does nv l (OSegs n) (l ++ [ISegs (repeat None n)])
| d_add_seg h i g x s s' l1 l' : changed l g (ISeg x) IGone l1 -> written s i (Some x) s' -> changed l1 h (ISegs s) (ISegs s') l' -> does nv l (OAddSeg h i g) l'
| d_add_no_seg h i g s s' l' : nth_error l g = Some INull -> written s i None s' -> changed l h (ISegs s) (ISegs s') l' -> does nv l (OAddSeg h i g) l'
| d_cap ty id ns d ts v t : get_type_from_string ty = t -> t <> FTInvalid -> does nv l (OCap ty id ns d ts v) (l ++ [ICap (mkCap t id (mkS ns INVALID_STR) d ts v)])
| d_no_cap ty id ns d ts v : get_type_from_string ty = FTInvalid -> does nv l (OCap ty id ns d ts v) (l ++ [INull])
| d_caps n : does nv l (OCaps n) (l ++ [ICaps (repeat None n)])
| d_add_cap h i g x s s' l1 l' : changed l g (ICap x) IGone l1 -> written s i (Some x) s' -> changed l1 h (ICaps s) (ICaps s') l' -> does nv l (OAddCap h i g) l'
| d_add_no_cap h i g s s' l' : nth_error l g = Some INull -> written s i None s' -> changed l h (ICaps s) (ICaps s') l' -> does nv l (OAddCap h i g) l'
| d_bool_var name b : does nv l (OBoolVar name b) (l ++ [IVar (name, VBool b)])
| d_int_var name z : does nv l (OIntVar name z) (l ++ [IVar (name, VInt z)])
| d_float_var name f : does nv l (OFloatVar name f) (l ++ [IVar (name, VFloat f)])
| d_str_var name t : does nv l (OStrVar name t) (l ++ [IVar (name, VStr (mkS t INVALID_STR))])
| d_ints_var name h s l' : changed l h (IInts s) IGone l' -> does nv l (OIntsVar name h) (l' ++ [IVar (name, VIntList s)])
| d_strs_var name h s l' : changed l h (IStrs (map Some s)) IGone l' -> does nv l (OStrsVar name h) (l' ++ [IVar (name, VStrList s)])
| d_segs_var name h s l' : changed l h (ISegs (map Some s)) IGone l' -> does nv l (OSegsVar name h) (l' ++ [IVar (name, VSegs s)])
| d_caps_var name h s l' : changed l h (ICaps (map Some s)) IGone l' -> does nv l (OCapsVar name h) (l' ++ [IVar (name, VFreqs s)])
| d_event : does nv l OEvent (l ++ [IEvent (repeat None nv)])
| d_set h i g x e e' l1 l' : changed l g (IVar x) IGone l1 -> written e i (Some x) e' -> changed l1 h (IEvent e) (IEvent e') l' -> does nv l (OSetVar h i g) l'
| d_set_none h i g e e' l' : nth_error l g = Some INull -> written e i None e' -> changed l h (IEvent e) (IEvent e') l' -> does nv l (OSetVar h i g) l'
| d_report : does nv l OReport (l ++ [IReport (mkR 0 0 0 0 [])])
| d_free h x l' : changed l h x IGone l' -> x <> INull -> x <> IGone -> does nv l (OFree h) l'.
(** The constants at the pointers [hs]. *)
Definition constants_at (l : list item) (hs : list nat) (cs : constants) : Prop :=
  Forall2 (fun h c => exists name z, nth_error l h = Some (IConst name z) /\ c = (name, VInt z)) hs cs.

(** What the caller knows: the tree, its pointers and what it put there, by which call each report was used last, which event
    objects must not be searched again. *)
Record xview := mkXV { xv_tree : pview; xv_items : list item; xv_used : list (nat * nat); xv_stale : list nat }.
(** After the search with an event object. *)
Definition stale_after (log : list entry) (ev : evobj) (e : nat) (o o' : list nat) : Prop :=
  o' = e :: o \/ o' = o /\ one_new log ev.

(** The call that used the report [h] last. *)
Fixpoint last_use (u : list (nat * nat)) (h : nat) : option nat :=
  match u with [] => None | (h', i) :: t => if Nat.eqb h h' then Some i else last_use t h end.
(** What is in a report: nothing, or what the call that used it last answered. *)
Definition in_report (rs : list reply) (o : option nat) (r : report) : Prop :=
  match o with None => r = mkR 0 0 0 0 [] | Some i => exists b, nth_error rs i = Some (RReport b r) end.
(** A report [r0] to which a search adds what it would put in the new report [r1]. *)
Definition appended (r0 r1 : report) : report :=
  mkR (r_evaluated r0 + r_evaluated r1) (r_matched r0 + r_matched r1) (r_shorted r0 + r_shorted r1) (r_memoized r0 + r_memoized r1)
    (r_subs r0 ++ r_subs r1).
(** An answer may depend on the earlier ones. *)
Definition answer := list reply -> reply -> Prop.
Definition alone (A : reply -> Prop) : answer := fun _ => A.
Definition added_to (o : option nat) (A : reply -> Prop) : answer := fun rs a =>
  exists r0 b r1, in_report rs o r0 /\ A (RReport b r1) /\ a = RReport b (appended r0 r1).
Inductive answered : list answer -> list reply -> Prop :=
| no_answer : answered [] []
| one_more A rs (P : answer) a : answered A rs -> P rs a -> answered (A ++ [P]) (rs ++ [a]).

Section WithGeo.
  Context {G : Geo}.

  (** As [step] of ProgramSpec.v; [i] calls were made before. *)
  Inductive xstep (W : vocabulary) (i : nat) : xview -> xcall -> answer -> bool -> xview -> Prop :=
  | v_tree p its u o k A c p' :
      step W p k A c p' ->
      xstep W i (mkXV p its u o) (XTree k) (alone A) c (mkXV p' its u o)
  | v_object p its u o k its' :
      does (List.length (pv_ds p)) its k its' ->
      xstep W i (mkXV p its u o) (XObj k) (alone (eq RNone)) (o_clean its k) (mkXV p its' u o)
  | v_insert p its u o id hs s cs A c p' :
      constants_at its hs cs -> step W p (TInsert id cs s) A c p' ->
      xstep W i (mkXV p its u o) (XInsert id hs s) (alone A) c (mkXV p' its u o)
  | v_make p its u o id hs s cs A c p' :
      constants_at its hs cs -> step W p (TMake id cs s) A c p' ->
      xstep W i (mkXV p its u o) (XMake id hs s) (alone A) c (mkXV p' its u o)
  | v_search p its u o s h r A c p' :
      nth_error its h = Some (IReport r) -> step W p (TSearch s) A c p' ->
      xstep W i (mkXV p its u o) (XSearch s h) (added_to (last_use u h) A) c (mkXV p' its ((h, i) :: u) o)
  | v_search_event ds m log n its u o e h ev r o' :
      nth_error its e = Some (IEvent ev) -> ~ In e o -> nth_error its h = Some (IReport r) ->
      event_ok ds (vars ev) -> complete ds (vars ev) -> (n <= INVALID_PRED)%N -> stale_after log ev e o o' ->
      xstep W i (mkXV (mkPV ds m log n) its u o) (XSearchEvent e h) (added_to (last_use u h) (found ds log (vars ev))) true
        (mkXV (mkPV ds m log n) its ((h, i) :: u) o')
  | v_search_event_refused ds m log n its u o e h ev r o' :
      nth_error its e = Some (IEvent ev) -> ~ In e o -> nth_error its h = Some (IReport r) ->
      event_ok ds (vars ev) -> ~ complete ds (vars ev) -> stale_after log ev e o o' ->
      xstep W i (mkXV (mkPV ds m log n) its u o) (XSearchEvent e h) (added_to (last_use u h) (eq (RReport false make_report))) false
        (mkXV (mkPV ds m log n) its ((h, i) :: u) o')
  | v_exists_event ds m log n its u o e ev o' :
      nth_error its e = Some (IEvent ev) -> ~ In e o ->
      event_ok ds (vars ev) -> complete ds (vars ev) -> (n <= INVALID_PRED)%N -> stale_after log ev e o o' ->
      xstep W i (mkXV (mkPV ds m log n) its u o) (XExistsEvent e) (alone (exists_answer ds log (vars ev))) true (mkXV (mkPV ds m log n) its u o').

  Inductive xprogram (W : vocabulary) (ds0 : list domain) : list xcall -> list answer -> bool -> xview -> Prop :=
  | x_begin : variables_ok W ds0 -> xprogram W ds0 [] [] true (mkXV (mkPV ds0 [] [] 0) [] [] [])
  | x_then l A c v k a c' v' :
      xprogram W ds0 l A c v -> xstep W (List.length l) v k a c' v' -> xprogram W ds0 (l ++ [k]) (A ++ [a]) (c && c') v'.
End WithGeo.
