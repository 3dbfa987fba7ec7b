(** What the answers should be: meaning of source expressions on events, stated with names,
    strings and sets only (no identifiers, indices, sorting, sharing or index tree), and the
    conditions under which the properties are claimed. *)
From Coq Require Import ZArith NArith String Ascii Bool List.
From Verif Require Import Base Float Value Ast Config Assign Special Source Api.
Import ListNotations.
Local Open Scope Z_scope.

(** *** Events *)

(** The value of an attribute: names are compared ignoring case, null entries do not count, the last
    entry wins. *)
Fixpoint lookup (ev : event) (x : string) : option value :=
  match ev with
  | [] => None
  | (n, o) :: t =>
      match lookup t x with
      | Some v => Some v
      | None => if String.eqb (lower n) (lower x) then o else None
      end
  end.

(** Contents of list-valued attributes; an empty list has no element type. *)
Definition ints_in (v : value) : option (list Z) := match v with VIntList l => Some l | _ => None end.
Definition strs_in (v : value) : option (list string) :=
  match v with VStrList l => Some (map sv_string l) | VIntList [] => Some [] | _ => None end.
Definition segs_in (v : value) : option (list segment) :=
  match v with VSegs l => Some l | VIntList [] => Some [] | _ => None end.
Definition caps_in (v : value) : option (list fcap) :=
  match v with VFreqs l => Some l | VIntList [] => Some [] | _ => None end.

(** *** Meaning of expressions *)

Definition memZ (z : Z) (l : list Z) : bool := existsb (Z.eqb z) l.
Definition memS (s : string) (l : list string) : bool := existsb (String.eqb s) l.

Definition cmp_Z (op : cmp_op) (x z : Z) : bool :=
  match op with CLt => x <? z | CLe => x <=? z | CGt => z <? x | CGe => z <=? x end.
Definition cmp_F (op : cmp_op) (x z : flt) : bool :=
  match op with CLt => fltb x z | CLe => fleb x z | CGt => fltb z x | CGe => fleb z x end.
Definition eq_res (op : eq_op) (b : bool) : bool := match op with QEq => b | QNe => negb b end.
Definition in_res (op : set_op) (b : bool) : bool := match op with SIn => b | SNotIn => negb b end.

(** One of / none of / all of, as set operations. *)
Definition list_res {A} (mem : A -> list A -> bool) (op : list_op) (have want : list A) : bool :=
  match op with
  | LOneOf => existsb (fun c => mem c have) want
  | LNoneOf => negb (existsb (fun c => mem c have) want)
  | LAllOf => forallb (fun c => mem c have) want
  end.

(** The integer constant a frequency-cap type refers to. *)
Definition freq_const (ty : ftype) : string :=
  match ty with
  | FTAdvertiser | FTAdvertiserIP => "advertiser_id"
  | FTCampaign | FTCampaignIP => "campaign_id"
  | FTCampaignGroup | FTCampaignGroupIP => "campaign_group_id"
  | FTFlight | FTFlightIP => "flight_id"
  | FTProduct | FTProductIP => "product_id"
  | FTInvalid => ""
  end%string.
Definition const_int (cs : constants) (name : string) : option Z :=
  match find (fun c => String.eqb name (fst c)) cs with
  | Some (_, VInt z) => Some z
  | _ => None
  end.

(** The first cap of the event with the same type, id and namespace decides. *)
Definition sem_freq (caps : list fcap) (ty : ftype) (id : Z) (ns : string) (value window now : Z) : bool :=
  match find (fun k => (fc_id k =? id) && String.eqb (sv_string (fc_ns k)) ns
                       && (ftype_num (fc_type k) =? ftype_num ty)) caps with
  | None => true
  | Some k =>
      (fc_value k <? value)
      || ((0 <? window) && (negb (fc_tsdef k) || (window <? now - Z.quot (fc_ts k) 1000000)))
  end.

(** The segment with that id, compared in seconds. *)
Definition sem_seg (op : seg_op) (segs : list segment) (id seconds now : Z) : bool :=
  match find (fun s => sg_id s =? id) segs with
  | None => false
  | Some s =>
      match op with
      | SegWithin => now - seconds <=? Z.quot (sg_ts s) 1000000
      | SegBefore => Z.quot (sg_ts s) 1000000 <? now - seconds
      end
  end.

Definition sem_str (op : str_op) (s p : string) : bool :=
  match op with
  | StContains => match index 0 p s with Some _ => true | None => false end
  | StStartsWith => prefix p s
  | StEndsWith =>
      (String.length p <=? String.length s)%nat
      && String.eqb (substring (String.length s - String.length p) (String.length p) s) p
  end.

Section WithGeo.
  Context {G : Geo}.

  Definition sem_atom (cs : constants) (ev : event) (a : atom) : bool :=
    match a with
    | ALit b => b
    | AVar x => match lookup ev x with Some (VBool b) => b | _ => false end
    | ACmp op x (CInt z) =>
        match lookup ev x with
        | Some (VInt y) => cmp_Z op y z
        | Some (VFloat y) => cmp_F op y (f_of_Z z)
        | _ => false
        end
    | ACmp op x (CFloat f) => match lookup ev x with Some (VFloat y) => cmp_F op y f | _ => false end
    | AEq op x (SInt z) =>
        match lookup ev x with
        | Some (VInt y) => eq_res op (y =? z)
        | Some (VFloat y) => eq_res op (feq y (f_of_Z z))
        | _ => false
        end
    | AEq op x (SFlt f) => match lookup ev x with Some (VFloat y) => eq_res op (feq y f) | _ => false end
    | AEq op x (SStr s) =>
        match lookup ev x with Some (VStr y) => eq_res op (String.eqb (sv_string y) s) | _ => false end
    | AIn op x (SInts l) => match lookup ev x with Some (VInt y) => in_res op (memZ y l) | _ => false end
    | AIn op x (SStrs l) =>
        match lookup ev x with Some (VStr y) => in_res op (memS (sv_string y) l) | _ => false end
    | AHas op (SInt z) x =>
        match lookup ev x with
        | Some v => match ints_in v with Some l => in_res op (memZ z l) | None => false end
        | None => false
        end
    | AHas op (SStr s) x =>
        match lookup ev x with
        | Some v => match strs_in v with Some l => in_res op (memS s l) | None => false end
        | None => false
        end
    | AHas _ (SFlt _) _ => false
    | AList op x (SInts l) =>
        match lookup ev x with
        | Some v => match ints_in v with Some h => list_res memZ op h l | None => false end
        | None => false
        end
    | AList op x (SStrs l) =>
        match lookup ev x with
        | Some v => match strs_in v with Some h => list_res memS op h l | None => false end
        | None => false
        end
    | ANull NIsNull x => match lookup ev x with None => true | Some _ => false end
    | ANull NIsNotNull x => match lookup ev x with None => false | Some _ => true end
    | ANull NIsEmpty x =>
        match lookup ev x with
        | Some (VIntList []) | Some (VStrList []) | Some (VSegs []) | Some (VFreqs []) => true
        | _ => false
        end
    | AFreq t ns value window =>
        match lookup ev "frequency_caps" with
        | None => false
        | Some v =>
            match caps_in v with
            | None => false
            | Some [] => true
            | Some caps =>
                match lookup ev "now", const_int cs (freq_const (get_type_from_string t)) with
                | Some (VInt now), Some id => sem_freq caps (get_type_from_string t) id ns value window now
                | _, _ => false
                end
            end
        end
    | ASeg op x id seconds =>
        match lookup ev (match x with Some x => x | None => "segments_with_timestamp"%string end) with
        | None => false
        | Some v =>
            match segs_in v, lookup ev "now" with
            | Some segs, Some (VInt now) => sem_seg op segs id seconds now
            | _, _ => false
            end
        end
    | AGeo lat lon radius =>
        match lookup ev "latitude", lookup ev "longitude" with
        | Some (VFloat la), Some (VFloat lo) => geo_within lat lon la lo radius
        | _, _ => false
        end
    | AStr op x p => match lookup ev x with Some (VStr s) => sem_str op (sv_string s) p | _ => false end
    end.

  (** Classical two-valued combination. *)
  Fixpoint sem (cs : constants) (ev : event) (x : src) : bool :=
    match x with
    | XAtom a => sem_atom cs ev a
    | XNot a => negb (sem cs ev a)
    | XAnd a b => sem cs ev a && sem cs ev b
    | XOr a b => sem cs ev a || sem cs ev b
    end.
End WithGeo.

(** *** Declarations *)

(** The declaration of an attribute: the first one with the lower-cased name; its position. *)
Fixpoint decl_from (ds : list domain) (name : string) (i : N) : option (N * domain) :=
  match ds with
  | [] => None
  | d :: t => if String.eqb (d_attr d) name then Some (i, d) else decl_from t name (i + 1)
  end.
Definition decl (ds : list domain) (x : string) : option (N * domain) := decl_from ds (lower x) 0.

Definition has_type (ds : list domain) (x : string) (t : vtype) : Prop :=
  exists v d, decl ds x = Some (v, d) /\ btype (d_bound d) = t.
Definition declared (ds : list domain) (x : string) : Prop := exists v d, decl ds x = Some (v, d).
(** Every event must supply the attribute. *)
Definition required (ds : list domain) (x : string) : Prop :=
  exists v d, decl ds x = Some (v, d) /\ d_undef d = false.

(** Lengths that fit a C int (the binary search of ast.c 382 uses int indices). *)
Definition short {A} (l : list A) : Prop := Z.of_nat (List.length l) < 2 ^ 31.

(** Integers for which v-1 and v+1 do not overflow and are not an end of the int64_t range (these stand
    for "unbounded"). *)
Definition inner_int (z : Z) : Prop := INT64_MIN + 1 < z < INT64_MAX - 1.

Definition not_nan (f : flt) : Prop := f <> SpecFloat.S754_nan.
Definition plain_float (f : flt) : Prop := f <> SpecFloat.S754_nan /\ f <> SpecFloat.S754_zero true.

(** A value of the right kind for a declared type; segments come ordered by id. *)
Fixpoint segs_ordered (l : list segment) : Prop :=
  match l with
  | [] => True
  | s :: t => (forall s', In s' t -> sg_id s <= sg_id s') /\ segs_ordered t
  end.
Definition value_ok (t : vtype) (v : value) : Prop :=
  match t, v with
  | TBool, VBool _ => True
  | TInt, VInt z => is_int64 z
  | TFloat, VFloat f => not_nan f
  | TStr, VStr _ => True
  | TIEnum, VInt _ => True
  | TIntList, VIntList l => Forall is_int64 l /\ short l
  | TStrList, VStrList l => short l
  | TSegs, VSegs l => segs_ordered l
  | TFreqs, VFreqs _ => True
  | TStrList, VIntList [] | TSegs, VIntList [] | TFreqs, VIntList [] => True
  | _, _ => False
  end.
Definition event_ok (ds : list domain) (ev : event) : Prop :=
  forall n v, In (n, Some v) ev ->
    exists i d, decl ds n = Some (i, d) /\ value_ok (btype (d_bound d)) v.

(** The event supplies every required variable. *)
Definition complete (ds : list domain) (ev : event) : Prop :=
  forall i d, nthN ds i = Some d -> d_undef d = false ->
    exists n, decl ds n = Some (i, d) /\ lookup ev n <> None.

(** Well-typed atoms. *)
Definition atom_ok (ds : list domain) (cs : constants) (a : atom) : Prop :=
  match a with
  | ALit _ => True
  | AVar x => has_type ds x TBool
  | ACmp _ x (CInt z) => (has_type ds x TInt /\ inner_int z) \/ has_type ds x TFloat
  | ACmp _ x (CFloat f) => has_type ds x TFloat /\ not_nan f
  | AEq _ x (SInt z) => (has_type ds x TInt /\ inner_int z) \/ has_type ds x TIEnum \/ has_type ds x TFloat
  | AEq _ x (SFlt f) => has_type ds x TFloat /\ not_nan f
  | AEq _ x (SStr _) => has_type ds x TStr
  | AIn _ x (SInts l) => has_type ds x TInt /\ l <> [] /\ Forall inner_int l /\ short l
  | AIn _ x (SStrs l) => has_type ds x TStr /\ l <> [] /\ short l
  | AHas _ (SInt z) x => has_type ds x TIntList /\ inner_int z
  | AHas _ (SStr _) x => has_type ds x TStrList
  | AHas _ (SFlt _) _ => False
  | AList op x (SInts l) =>
      has_type ds x TIntList /\ l <> [] /\ Forall inner_int l /\ (op = LAllOf -> NoDup l)
  | AList op x (SStrs l) => has_type ds x TStrList /\ l <> [] /\ (op = LAllOf -> NoDup l)
  | ANull _ x => declared ds x
  | AFreq t _ value window =>
      get_type_from_string t <> FTInvalid
      /\ has_type ds "frequency_caps" TFreqs /\ has_type ds "now" TInt /\ required ds "now"
      /\ 0 <= value < 2 ^ 32 /\ 0 <= window < 2 ^ 63
      /\ (forall z, const_int cs (freq_const (get_type_from_string t)) = Some z -> 0 <= z < 2 ^ 32)
  | ASeg _ x id seconds =>
      has_type ds (match x with Some x => x | None => "segments_with_timestamp"%string end) TSegs
      /\ has_type ds "now" TInt /\ is_int64 id /\ - 2 ^ 31 <= seconds < 2 ^ 31
  | AGeo lat lon radius =>
      has_type ds "latitude" TFloat /\ has_type ds "longitude" TFloat
      /\ plain_float lat /\ plain_float lon /\ plain_float radius
  | AStr _ x _ => has_type ds x TStr
  end.

Fixpoint src_atoms (x : src) : list atom :=
  match x with
  | XAtom a => [a]
  | XNot a => src_atoms a
  | XAnd a b | XOr a b => src_atoms a ++ src_atoms b
  end.
Definition src_ok (ds : list domain) (cs : constants) (x : src) : Prop :=
  Forall (atom_ok ds cs) (src_atoms x).

(** Attributes read by an atom. *)
Definition atom_attrs (a : atom) : list string :=
  match a with
  | ALit _ => []
  | AVar x | ACmp _ x _ | AEq _ x _ | AIn _ x _ | AHas _ _ x | AList _ x _ | ANull _ x | AStr _ x _ => [x]
  | AFreq _ _ _ _ => ["frequency_caps"; "now"]%string
  | ASeg _ (Some x) _ _ => [x; "now"]%string
  | ASeg _ None _ _ => ["segments_with_timestamp"; "now"]%string
  | AGeo _ _ _ => ["latitude"; "longitude"]%string
  end.
Definition src_attrs (x : src) : list string := flat_map atom_attrs (src_atoms x).

(** The atoms of an expression, each with a flag: the number of `not`s above it is odd ([neg] counts those above the
    expression itself). *)
Fixpoint signed_atoms (neg : bool) (x : src) : list (bool * atom) :=
  match x with
  | XAtom a => [(neg, a)]
  | XNot a => signed_atoms (negb neg) a
  | XAnd a b | XOr a b => signed_atoms neg a ++ signed_atoms neg b
  end.
(** An atom from which no range of values follows: not from its truth (without `not`), not from its falsehood (below an
    odd number of `not`s).  Knowing that `x = 3` is false, for instance, says nothing about the range of x. *)
Definition no_range (na : bool * atom) : Prop :=
  match snd na with
  | AVar _ | ACmp _ _ _ => False
  | AEq QEq _ _ | AIn SIn _ _ | AHas SIn _ _ | AList (LOneOf | LAllOf) _ _ => fst na = true
  | AEq QNe _ _ | AIn SNotIn _ _ | AHas SNotIn _ _ | AList LNoneOf _ _ => fst na = false
  | _ => True
  end.
(** The attribute has a value, or every event that is searched gives it one. *)
Definition given (ds : list domain) (ev : event) (x : string) : Prop := required ds x \/ lookup ev x <> None.
(** An undefined attribute makes every atom false except `is null`.  [may_hold]: at this place an undefined attribute
    does not make the (possibly negated) atom false; [may_fail]: it does not make it true. *)
Definition may_hold (ds : list domain) (ev : event) (na : bool * atom) : Prop :=
  Forall (given ds ev) (atom_attrs (snd na))
  \/ fst na = match snd na with ANull NIsNull _ => false | _ => true end.
Definition may_fail (ds : list domain) (ev : event) (na : bool * atom) : Prop :=
  Forall (given ds ev) (atom_attrs (snd na))
  \/ fst na = match snd na with ANull NIsNull _ => true | _ => false end.

(** Use of `and` / `or` below an odd number of `not`s ([neg]).
    [short_ok], where an undefined attribute can decide the subscription: an `and` only over atoms that an undefined
    attribute does not make false there, an `or` only over atoms that it does not make true there.
    [range_ok], where ranges of values are derived: an `and` only over atoms without range. *)
Fixpoint short_ok (ds : list domain) (ev : event) (neg : bool) (x : src) : Prop :=
  match x with
  | XAtom _ => True
  | XNot a => short_ok ds ev (negb neg) a
  | XAnd a b =>
      (neg = true -> Forall (may_hold ds ev) (signed_atoms neg (XAnd a b)))
      /\ short_ok ds ev neg a /\ short_ok ds ev neg b
  | XOr a b =>
      (neg = true -> Forall (may_fail ds ev) (signed_atoms neg (XOr a b)))
      /\ short_ok ds ev neg a /\ short_ok ds ev neg b
  end.
Fixpoint range_ok (neg : bool) (x : src) : Prop :=
  match x with
  | XAtom _ => True
  | XNot a => range_ok (negb neg) a
  | XAnd a b => (neg = true -> Forall no_range (signed_atoms neg (XAnd a b))) /\ range_ok neg a /\ range_ok neg b
  | XOr a b => range_ok neg a /\ range_ok neg b
  end.

(** Strings and enum integers an expression mentions, with their attribute. *)
Definition atom_strs (a : atom) : list (string * string) :=
  match a with
  | AEq _ x (SStr s) | AHas _ (SStr s) x => [(x, s)]
  | AIn _ x (SStrs l) | AList _ x (SStrs l) => map (fun s => (x, s)) l
  | AFreq _ ns _ _ => [("frequency_caps"%string, ns)]
  | _ => []
  end.
Definition atom_ints (a : atom) : list (string * Z) :=
  match a with AEq _ x (SInt z) => [(x, z)] | _ => [] end.

(** *** Room for new strings *)

(** The strings / integers interned for a variable so far, in the order of their ids. *)
Definition strs (c : config) (v : N) : list string :=
  match find_strmap (c_strs c) v with Some m => sm_vals m | None => [] end.
Definition ints (c : config) (v : N) : list Z :=
  match find_intmap (c_ints c) v with Some m => im_vals m | None => [] end.

(** The number of entries at which a variable's table is full: [always] ignores the declared bound. *)
Definition room (c : config) (v : N) (always : bool) : option Z :=
  if always then None else
  match get_domain c v with
  | Ok d => match dom_smax (d_bound d) with Ok smax => Some (to_uint 64 (smax + 1)) | _ => None end
  | _ => None
  end.

(** Entries with the variable their attribute stands for. *)
Definition at_var {A} (ds : list domain) (l : list (string * A)) : list (N * A) :=
  flat_map (fun xs => match decl ds (fst xs) with Some (v, _) => [(v, snd xs)] | None => [] end) l.
Definition is_ienum (ds : list domain) (x : string) : bool :=
  match decl ds x with
  | Some (_, d) => match btype (d_bound d) with TIEnum => true | _ => false end
  | None => false
  end.
Definition src_strs (ds : list domain) (x : src) : list (N * string) :=
  at_var ds (flat_map atom_strs (src_atoms x)).
Definition src_ints (ds : list domain) (x : src) : list (N * Z) :=
  at_var ds (filter (fun xz => is_ienum ds (fst xz)) (flat_map atom_ints (src_atoms x))).

(** New entries [S] (with their variables) fit next to the entries of the tables [T]. *)
Definition fits_tab {A} (dec : forall x y : A, {x = y} + {x <> y}) (T : N -> list A) (S : list (N * A))
    (rm : N -> option Z) : Prop :=
  forall v s, In (v, s) S -> ~ In s (T v) ->
    Z.of_nat (List.length (nodup dec (T v ++ map snd (filter (fun x => (fst x =? v)%N) S))))
    <= match rm v with Some r => Z.min r (SIZE_MAX - 1) | None => SIZE_MAX - 1 end.
(** The distinct strings and enum integers of [x], together with those known already, do not exceed
    the declared bounds (for betree_make_sub, which ignores the bounds: the range of size_t). *)
Definition fits (c : config) (always : bool) (x : src) : Prop :=
  fits_tab string_dec (strs c) (src_strs (c_domains c) x) (fun v => room c v always)
  /\ fits_tab Z.eq_dec (ints c) (src_ints (c_domains c) x) (fun v => room c v always).
