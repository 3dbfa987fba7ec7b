(** Valid programs: what a caller has to respect, without looking at the tree, so that every call ends and is answered as it should be. *)
From Coq Require Import ZArith NArith String Bool List.
From Verif Require Import Base Float Value Ast Config Assign Special Match Source Api Spec TreeSpec Hist Accept FloatSpec Lexer LexSpec Grammar EventGrammar
  TextApi TextHist Tree LinkedApi Machine MachineSpec.
Import ListNotations.
Local Open Scope Z_scope.

(** The words of a program: for each variable the strings, and for integer enums the integers, its expressions may use. *)
Record vocabulary := mkVoc { voc_strs : string -> list string; voc_ints : string -> list Z }.

(** A number of moderate size. *)
Definition tame (z : Z) : Prop := - 2 ^ 62 < z < 2 ^ 62.
(** How many different strings or enum integers an insertion may use for a variable; frequency caps have one namespace. *)
Definition word_room (b : bound) : Z :=
  match b with BStr _ _ hi => Z.min (hi + 1) (2 ^ 30) | BFreqs => 1 | _ => 0 end.
Definition words (W : vocabulary) (d : domain) : Z :=
  match btype (d_bound d) with
  | TIEnum => Z.of_nat (List.length (voc_ints W (d_attr d)))
  | TStr | TStrList | TFreqs => Z.of_nat (List.length (voc_strs W (d_attr d)))
  | _ => 0
  end.
(** A declaration: a name in lower case, a sensible range, room for its words.  A float range is open at one end, or its ends are
    multiples of 2^-10 and its width is a whole number. *)
Definition variable_ok (W : vocabulary) (d : domain) : Prop :=
  lower (d_attr d) = d_attr d /\ words W d <= word_room (d_bound d) /\
  match d_bound d with
  | BBool lo hi => lo = false /\ hi = true
  | BInt _ lo hi => lo <= hi /\ (lo = INT64_MIN \/ tame lo) /\ (hi = INT64_MAX \/ tame hi)
  | BFloat lo hi =>
      feq lo (fopp DBL_MAX) = true \/ feq hi DBL_MAX = true
      \/ finite_range (d_bound d) /\ coarse lo /\ coarse hi /\ whole_width lo hi
  | BStr t lo hi => (t = TStr \/ t = TStrList \/ t = TIEnum) /\ lo = 0 /\ 0 <= hi < SIZE_MAX
  | BSegs | BFreqs => True
  end.
Definition variables_ok (W : vocabulary) (ds : list domain) : Prop :=
  (N.of_nat (List.length ds) <= INVALID_VAR)%N /\ Forall (variable_ok W) ds.

(** The expression uses words of the vocabulary only. *)
Definition spoken (W : vocabulary) (ds : list domain) (x : src) : Prop :=
  (forall y s, In (y, s) (flat_map atom_strs (src_atoms x)) -> In s (voc_strs W (lower y))) /\
  (forall y z, In (y, z) (flat_map atom_ints (src_atoms x)) -> is_ienum ds y = true -> In z (voc_ints W (lower y))).
(** No predicate names a string twice. *)
Definition listed_once (x : src) : Prop := Forall (fun a => NoDup (map snd (atom_strs a))) (src_atoms x).

(** For betree_make_sub and betree_change_boundaries, which adapt ranges: integers of moderate size, strings and enum
    integers only of variables that have a bound, no comparison with a float. *)
Definition bounded_var (ds : list domain) (y : string) : Prop :=
  exists v d t lo hi, decl ds y = Some (v, d) /\ d_bound d = BStr t lo hi /\ hi < SIZE_MAX - 1.
Definition modest (z : Z) : Prop := tame (z - 1) /\ tame (z + 1).
Definition steady_atom (ds : list domain) (a : atom) : Prop :=
  match a with
  | ACmp _ y (CInt z) => has_type ds y TInt /\ modest z
  | AEq _ y (SInt z) => has_type ds y TInt /\ modest z \/ has_type ds y TIEnum /\ bounded_var ds y
  | ACmp _ _ (CFloat _) | AEq _ _ (SFlt _) => False
  | AEq _ y (SStr _) | AIn _ y (SStrs _) | AHas _ (SStr _) y | AList _ y (SStrs _) => bounded_var ds y
  | AIn _ _ (SInts l) | AList _ _ (SInts l) => Forall modest l
  | AHas _ (SInt z) _ => modest z
  | _ => True
  end.
Definition steady (ds : list domain) (x : src) : Prop := Forall (steady_atom ds) (src_atoms x).

(** The number of predicates and connectives. *)
Fixpoint weight (x : src) : N :=
  match x with XAtom _ => 1 | XNot a => weight a + 1 | XAnd a b | XOr a b => weight a + weight b + 1 end%N.

(** What the caller knows: the variables, the subscriptions made (inserted or not; what they say as long as they may be
    inserted), the subscriptions inserted, and how many predicates and connectives there were. *)
Record pview := mkPV { pv_ds : list domain; pv_made : list (bool * option entry); pv_log : list entry; pv_nodes : N }.
Definition pv_waiting (l : list (bool * option entry)) : list entry :=
  flat_map (fun x => match x with (false, Some e) => [e] | _ => [] end) l.
Definition pv_ids (p : pview) : list Z := map e_id (pv_log p) ++ map e_id (pv_waiting (pv_made p)).
Fixpoint pv_take (k : nat) (l : list (bool * option entry)) : list (bool * option entry) :=
  match l, k with
  | [], _ => []
  | (_, o) :: t, O => (true, o) :: t
  | x :: t, S k => x :: pv_take k t
  end.
Definition pv_forget (l : list (bool * option entry)) : list (bool * option entry) := map (fun x => (fst x, None)) l.

Section WithGeo.
  Context {G : Geo}.

  (** A subscription uses `not` only where undefined variables and derived ranges are handled right; the event has no near
      miss of its float constants. *)
  Definition fair_in (ds : list domain) (ev : event) (e : entry) : Prop :=
    short_ok ds ev false (e_src e) /\ range_ok false (e_src e) /\ clear ds ev (e_src e).
  (** The answer to a search: no id twice, every reported subscription is true of the event, every one that is true is reported. *)
  Definition found (ds : list domain) (log : list entry) (ev : event) (a : reply) : Prop :=
    exists r, a = RReport true r /\ NoDup (r_subs r) /\ r_matched r = Z.of_nat (List.length (r_subs r)) /\
      (forall id, In id (r_subs r) -> exists e, In e log /\ e_id e = id /\ (short_ok ds ev false (e_src e) -> sem (e_cs e) ev (e_src e) = true)) /\
      (forall e, In e log -> fair_in ds ev e -> sem (e_cs e) ev (e_src e) = true -> In (e_id e) (r_subs r)).
  (** The answer to betree_exists. *)
  Definition exists_answer (ds : list domain) (log : list entry) (ev : event) (a : reply) : Prop :=
    exists b, a = RBool b /\
      (b = true -> exists e, In e log /\ (short_ok ds ev false (e_src e) -> sem (e_cs e) ev (e_src e) = true)) /\
      (forall e, In e log -> fair_in ds ev e -> sem (e_cs e) ev (e_src e) = true -> b = true).

  (** [step W p k A c p']: the call [k] is valid when the caller knows [p]; its answer satisfies [A]; [c]: no memory is lost;
      then the caller knows [p']. *)
  Inductive step (W : vocabulary) : pview -> tcall -> (reply -> Prop) -> bool -> pview -> Prop :=
  | k_insert ds m log n id cs s x :
      readable s -> reads s (build x) -> src_ok ds cs x -> spoken W ds x -> listed_once x -> constants_given cs x ->
      ~ In id (pv_ids (mkPV ds m log n)) ->
      step W (mkPV ds m log n) (TInsert id cs s) (eq (RBool true)) true (mkPV ds m (log ++ [mkE id cs x]) (n + weight x))
  | k_insert_refused ds m log n id cs s x :
      readable s -> reads s (build x) -> src_ok ds cs x -> spoken W ds x -> listed_once x -> ~ constants_given cs x ->
      step W (mkPV ds m log n) (TInsert id cs s) (eq (RBool false)) false (mkPV ds m log n)
  | k_insert_unread p id cs s :
      readable s -> (forall e, ~ reads s e) ->
      step W p (TInsert id cs s) (eq (RBool false)) false p
  | k_make ds m log n id cs s x :
      readable s -> reads s (build x) -> src_ok ds cs x -> spoken W ds x -> steady ds x ->
      constants_given cs x -> null_tests_ok ds x -> ~ In id (pv_ids (mkPV ds m log n)) ->
      step W (mkPV ds m log n) (TMake id cs s) (eq (RBool true)) true
        (mkPV ds (m ++ [(false, Some (mkE id cs x))]) log (n + weight x))
  | k_make_refused ds m log n id cs s x :
      readable s -> reads s (build x) -> src_ok ds cs x -> spoken W ds x ->
      ~ (constants_given cs x /\ null_tests_ok ds x) ->
      step W (mkPV ds m log n) (TMake id cs s) (eq (RBool false)) true (mkPV ds m log n)
  | k_make_unread p id cs s :
      readable s -> (forall e, ~ reads s e) ->
      step W p (TMake id cs s) (eq (RBool false)) false p
  | k_insert_sub ds m log n k e :
      nth_error m k = Some (false, Some e) ->
      step W (mkPV ds m log n) (TInsertSub k) (eq RNone) true (mkPV ds (pv_take k m) (log ++ [e]) n)
  | k_change ds m log n s x :
      readable s -> reads s (build x) -> src_ok ds [] x -> spoken W ds x -> steady ds x ->
      step W (mkPV ds m log n) (TChange s) (eq (RBool true)) true (mkPV ds m log n)
  | k_change_unread p s :
      readable s -> (forall e, ~ reads s e) ->
      step W p (TChange s) (eq (RBool false)) false p
  | k_declare ds m log n d :
      variables_ok W (ds ++ [d]) -> (pv_waiting m = [] /\ log = [] \/ (S (List.length ds) mod 64 <> 0)%nat) ->
      step W (mkPV ds m log n) (TDeclare d) (eq RNone) true (mkPV (ds ++ [d]) m log n)
  | k_empty ds m log n :
      step W (mkPV ds m log n) TEmpty (eq RNone) true (mkPV ds (pv_forget m) [] n)
  | k_search ds m log n s ev :
      c_text s -> reads_event s ev -> event_ok ds ev -> complete ds ev -> (n <= INVALID_PRED)%N ->
      step W (mkPV ds m log n) (TSearch s) (found ds log ev) true (mkPV ds m log n)
  | k_search_refused ds m log n s ev :
      c_text s -> reads_event s ev -> event_ok ds ev -> ~ complete ds ev ->
      step W (mkPV ds m log n) (TSearch s) (eq (RReport false make_report)) false (mkPV ds m log n)
  | k_exists ds m log n s ev :
      c_text s -> reads_event s ev -> event_ok ds ev -> complete ds ev -> (n <= INVALID_PRED)%N ->
      step W (mkPV ds m log n) (TExists s) (exists_answer ds log ev) true (mkPV ds m log n).

  (** Valid programs, with what their answers satisfy. *)
  Inductive program (W : vocabulary) (ds0 : list domain) : list tcall -> list (reply -> Prop) -> bool -> pview -> Prop :=
  | p_start : variables_ok W ds0 -> program W ds0 [] [] true (mkPV ds0 [] [] 0)
  | p_then l A c p k a c' p' :
      program W ds0 l A c p -> step W p k a c' p' -> program W ds0 (l ++ [k]) (A ++ [a]) (c && c') p'.
End WithGeo.
