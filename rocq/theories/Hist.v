(** Histories of a tree: which trees the public operations can produce, and which subscriptions they
    hold according to the calls made. *)
From Coq Require Import ZArith NArith String Bool List Permutation.
From Verif Require Import Base Float Value Ast Config Assign Special Match Bound Tree PredMap Source Api Spec TreeSpec.
Import ListNotations.
Local Open Scope Z_scope.

(** One subscription, as given by the caller. *)
Record entry := mkE { e_id : Z; e_cs : constants; e_src : src }.

(** Declarations: at most 2^64-1 variables, sensible ranges. *)
Definition decls_ok (ds : list domain) : Prop :=
  (N.of_nat (List.length ds) <= INVALID_VAR)%N /\ Forall (fun d => dom_fine (d_bound d)) ds.

(** Declared names are in lower case. *)
Definition lower_names (ds : list domain) : Prop := Forall (fun d => lower (d_attr d) = d_attr d) ds.

(** Expressions for which the properties are claimed: well typed and with room for their strings.  [always] is true for betree_make_sub, which ignores the declared bounds. *)
Definition accepts (ds : list domain) (c : config) (always : bool) (cs : constants) (x : src) : Prop :=
  src_ok ds cs x /\ fits c always x.

Definition ids_of (pend : list (sub * entry)) (log : list entry) : list Z :=
  map e_id log ++ map (fun p => e_id (snd p)) pend.

(** [reach_in m ds t pend log]: calls that declared [ds] produced the tree [t] into which the subscriptions
    [log] were inserted, while [pend] were made by betree_make_sub but not inserted yet.  Variables may be
    declared at any time; once there are subscriptions, not a 64th one (a 128th and so on), for which the
    bit sets of the existing subscriptions are too short.  Emptying the tree forgets the subscriptions that
    were made but not inserted.  [m] says what becomes of float ranges ([floats_ok]): none is ever
    split ([NoSplit]); those that are split have ends that are multiples of 2^-10, and a range with two ends keeps two
    ends ([Splits]); and, in addition, a width that is a whole number ([WholeSplits]). *)
Inductive reach_in (m : floats) : list domain -> betree -> list (sub * entry) -> list entry -> Prop :=
| r_init ds cap minpart maxsplit :
    decls_ok ds -> 0 <= maxsplit < SIZE_MAX - 1 ->
    floats_ok m (bt_cfg (make_tree cap minpart maxsplit ds)) (bt_cfg (make_tree cap minpart maxsplit ds)) ->
    reach_in m ds (make_tree cap minpart maxsplit ds) [] []
| r_insert ds t pend log id cs x t' :
    reach_in m ds t pend log -> accepts ds (bt_cfg t) false cs x -> ~ In id (ids_of pend log) ->
    betree_insert_with_constants t id cs x = Ok (true, t') ->
    reach_in m ds t' pend (log ++ [mkE id cs x])
| r_refused ds t pend log id cs x t' :
    reach_in m ds t pend log -> betree_insert_with_constants t id cs x = Ok (false, t') ->
    reach_in m ds t' pend log
| r_make ds t pend log id cs x s t' :
    reach_in m ds t pend log -> accepts ds (bt_cfg t) true cs x -> ~ In id (ids_of pend log) ->
    betree_make_sub t id cs x = Ok (Some s, t') -> floats_ok m (bt_cfg t) (bt_cfg t') ->
    reach_in m ds t' (pend ++ [(s, mkE id cs x)]) log
| r_make_refused ds t pend log id cs x t' :
    reach_in m ds t pend log -> fits (bt_cfg t) true x -> betree_make_sub t id cs x = Ok (None, t') ->
    reach_in m ds t' pend log
| r_insert_sub ds t pend pend' log s e t' :
    reach_in m ds t (pend ++ (s, e) :: pend') log -> betree_insert_sub t s = Ok t' ->
    reach_in m ds t' (pend ++ pend') (log ++ [e])
| r_change ds t pend log x t' :
    reach_in m ds t pend log -> src_ok ds [] x -> fits (bt_cfg t) true x ->
    betree_change_boundaries t x = Ok t' -> floats_ok m (bt_cfg t) (bt_cfg t') ->
    reach_in m ds t' pend log
| r_declare ds t pend log d :
    reach_in m ds t pend log -> decls_ok (ds ++ [d]) ->
    floats_ok m (bt_cfg (betree_declare t d)) (bt_cfg (betree_declare t d)) ->
    (pend = [] /\ log = [] \/ (S (List.length ds) mod 64 <> 0)%nat) ->
    reach_in m (ds ++ [d]) (betree_declare t d) pend log
| r_empty ds t pend log : reach_in m ds t pend log -> reach_in m ds (empty_tree t) [] [].
Arguments r_init {m}.
Arguments r_insert {m}.
Arguments r_refused {m}.
Arguments r_make {m}.
Arguments r_make_refused {m}.
Arguments r_insert_sub {m}.
Arguments r_change {m}.
Arguments r_declare {m}.
Arguments r_empty {m}.
(** Histories in which no float range is split. *)
Notation reach := (reach_in NoSplit).

(** Fewer than 2^64 different predicates (the counter of hashmap.h 11 did not wrap around). *)
Definition few_preds (t : betree) : Prop := (pm_count (bt_pm t) <= INVALID_PRED)%N.

(** The subscription uses `not` only where the shortcut for the undefined variables of the event is right. *)
Definition calm (t : betree) (ev : event) (e : entry) : Prop := short_ok (c_domains (bt_cfg t)) ev false (e_src e).
(** In addition it uses `not` only where the derived ranges are right, and where float ranges may be split the values of the
    event are clear of its constants ([clear], TreeSpec.v). *)
Definition fair_one (m : floats) (t : betree) (ev : event) (e : entry) : Prop :=
  calm t ev e /\ range_ok false (e_src e) /\ (m = NoSplit \/ clear (c_domains (bt_cfg t)) ev (e_src e)).
Definition fair (m : floats) (t : betree) (ev : event) (log : list entry) : Prop := Forall (fair_one m t ev) log.

Section WithGeo.
  Context {G : Geo}.
  (** The ids of the subscriptions that are true of an event. *)
  Definition hits (ev : event) (log : list entry) : list Z :=
    map e_id (filter (fun e => sem (e_cs e) ev (e_src e)) log).
End WithGeo.

(** A tree made with the given parameters by inserting the subscriptions [l], in that order, with
    betree_insert_with_constants only. *)
Inductive builds_in (m : floats) (ds : list domain) (cap minpart maxsplit : Z) : list entry -> betree -> Prop :=
| b_start :
    decls_ok ds -> 0 <= maxsplit < SIZE_MAX - 1 ->
    floats_ok m (bt_cfg (make_tree cap minpart maxsplit ds)) (bt_cfg (make_tree cap minpart maxsplit ds)) ->
    builds_in m ds cap minpart maxsplit [] (make_tree cap minpart maxsplit ds)
| b_insert l t id cs x t' :
    builds_in m ds cap minpart maxsplit l t -> accepts ds (bt_cfg t) false cs x -> ~ In id (map e_id l) ->
    betree_insert_with_constants t id cs x = Ok (true, t') ->
    builds_in m ds cap minpart maxsplit (l ++ [mkE id cs x]) t'.
Notation builds := (builds_in NoSplit).

Section Many.
  Context {G : Geo}.
  (** Several searches that use the same report. *)
  Fixpoint search_all (t : betree) (evs : list event) (r : report) : result report :=
    match evs with
    | [] => Ok r
    | ev :: l => bind (betree_search t ev r) (fun br => search_all t l (snd br))
    end.
  (** Evaluation of several subscriptions, one after the other, with one table of known results. *)
  Fixpoint eval_shared (p : env) (m : mids) (l : list sub) (st : mstate) : result (list bool) :=
    match l with
    | [] => Ok []
    | s :: l' =>
        bind (match_node p m (s_expr s) st) (fun bst =>
        bind (eval_shared p m l' (snd bst)) (fun bs => Ok (fst bst :: bs)))
    end.
End Many.

(** Finite ranges only grow. *)
Definition widened (b b' : bound) : Prop :=
  match b with
  | BInt t lo hi => (INT64_MIN < lo -> hi < INT64_MAX -> exists lo' hi', b' = BInt t lo' hi' /\ lo' <= lo /\ hi <= hi')
  | BStr t lo hi => (hi < SIZE_MAX - 1 -> exists lo' hi', b' = BStr t lo' hi' /\ lo' <= lo /\ hi <= hi')
  | BBool lo hi => b' = b
  | _ => True
  end.
Definition all_widened (c c' : config) : Prop :=
  forall v d, nthN (c_domains c) v = Some d -> exists d', nthN (c_domains c') v = Some d'
    /\ d_attr d' = d_attr d /\ d_undef d' = d_undef d /\ widened (d_bound d) (d_bound d').

(** A tree made by a history of calls, about to be searched with a good event. *)
Definition searchable_in (m : floats) (ds : list domain) (t : betree) (pend : list (sub * entry)) (log : list entry)
    (ev : event) : Prop :=
  reach_in m ds t pend log /\ few_preds t /\ event_ok ds ev /\ complete ds ev.
Notation searchable := (searchable_in NoSplit).
(** A search reports the subscription. *)
Definition reports {G : Geo} (t : betree) (ev : event) (id : Z) : Prop :=
  exists r, betree_search t ev make_report = Ok (true, r) /\ In id (r_subs r).
(** Two searches report the same ids. *)
Definition same_reports {G : Geo} (t : betree) (ev : event) (t' : betree) (ev' : event) : Prop :=
  exists r r', betree_search t ev make_report = Ok (true, r) /\ betree_search t' ev' make_report = Ok (true, r')
    /\ Permutation (r_subs r) (r_subs r').

(** [x'] is [x] with predicates replaced by related ones. *)
Inductive alike (R : atom -> atom -> Prop) : src -> src -> Prop :=
| al_atom a a' : R a a' -> alike R (XAtom a) (XAtom a')
| al_not x x' : alike R x x' -> alike R (XNot x) (XNot x')
| al_and x x' y y' : alike R x x' -> alike R y y' -> alike R (XAnd x y) (XAnd x' y')
| al_or x x' y y' : alike R x x' -> alike R y y' -> alike R (XOr x y) (XOr x' y').
Definition entries_alike (R : atom -> atom -> Prop) : list entry -> list entry -> Prop :=
  Forall2 (fun e e' => e_id e = e_id e' /\ e_cs e = e_cs e' /\ alike R (e_src e) (e_src e')).

(** The same elements, in any order and number. *)
Definition same_set {A} (l l' : list A) : Prop := forall x, In x l <-> In x l'.
Inductive lists_alike : atom -> atom -> Prop :=
| la_same a : lists_alike a a
| la_in_i op x l l' : same_set l l' -> lists_alike (AIn op x (SInts l)) (AIn op x (SInts l'))
| la_in_s op x l l' : same_set l l' -> lists_alike (AIn op x (SStrs l)) (AIn op x (SStrs l'))
| la_list_i op x l l' : same_set l l' -> lists_alike (AList op x (SInts l)) (AList op x (SInts l'))
| la_list_s op x l l' : same_set l l' -> lists_alike (AList op x (SStrs l)) (AList op x (SStrs l')).
Inductive values_alike : value -> value -> Prop :=
| va_same v : values_alike v v
| va_ints l l' : same_set l l' -> values_alike (VIntList l) (VIntList l')
| va_strs l l' : same_set (map sv_string l) (map sv_string l') -> values_alike (VStrList l) (VStrList l').
Definition events_alike (ev ev' : event) : Prop :=
  Forall2 (fun a b => fst a = fst b /\
    match snd a, snd b with Some v, Some v' => values_alike v v' | None, None => True | _, _ => False end) ev ev'.

(** Attribute names in lower case. *)
Definition lower_atom (a : atom) : atom :=
  match a with
  | AVar x => AVar (lower x)
  | ACmp op x c => ACmp op (lower x) c
  | AEq op x c => AEq op (lower x) c
  | AIn op x l => AIn op (lower x) l
  | AHas op c x => AHas op c (lower x)
  | AList op x l => AList op (lower x) l
  | ANull op x => ANull op (lower x)
  | ASeg op x id s => ASeg op (option_map lower x) id s
  | AStr op x p => AStr op (lower x) p
  | _ => a
  end.
Definition lower_event (ev : event) : event := map (fun nv => (lower (fst nv), snd nv)) ev.

(** Integer literals for float variables written with a decimal point. *)
Definition decimal_atom (ds : list domain) (a : atom) : atom :=
  match a with
  | ACmp op x (CInt z) =>
      match decl ds x with Some (_, mkD _ (BFloat _ _) _) => ACmp op x (CFloat (f_of_Z z)) | _ => a end
  | AEq op x (SInt z) =>
      match decl ds x with Some (_, mkD _ (BFloat _ _) _) => AEq op x (SFlt (f_of_Z z)) | _ => a end
  | _ => a
  end.

(** The expression as written, without the reordering by cost. *)
Fixpoint plain (x : src) : expr :=
  match x with
  | XAtom a => ELeaf 0 (build_atom a)
  | XNot a => ENot 0 (plain a)
  | XAnd a b => EAnd 0 (plain a) (plain b)
  | XOr a b => EOr 0 (plain a) (plain b)
  end.

(** Requests for the ids of strings / enum integers, one after the other. *)
Fixpoint ask_strs (c : config) (l : list (avar * string * bool)) : result (list Z * config) :=
  match l with
  | [] => Ok ([], c)
  | (v, s, always) :: t =>
      bind (get_id_for_string c v s always) (fun ic =>
      bind (ask_strs (snd ic) t) (fun r => Ok (fst ic :: fst r, snd r)))
  end.
Fixpoint ask_ints (c : config) (l : list (avar * Z * bool)) : result (list Z * config) :=
  match l with
  | [] => Ok ([], c)
  | (v, z, always) :: t =>
      bind (get_id_for_ienum c v z always) (fun ic =>
      bind (ask_ints (snd ic) t) (fun r => Ok (fst ic :: fst r, snd r)))
  end.

(** The range [r] derived for variable [v] (declared range [dom]) covers the event value [y]: when the
    value lies in the declared range it lies in [r]; a list has an element not below and one not above. *)
Definition range_covers (c : config) (v : N) (dom r : bound) (y : value) : Prop :=
  match dom, r, y with
  | BBool dlo dhi, BBool lo hi, VBool b =>
      Bool.le dlo b /\ Bool.le b dhi -> Bool.le lo b /\ Bool.le b hi
  | BInt false dlo dhi, BInt false lo hi, VInt z => dlo <= z <= dhi -> lo <= z <= hi
  | BFloat dlo dhi, BFloat lo hi, VFloat f => fleb dlo f = true /\ fleb f dhi = true -> fleb lo f = true /\ fleb f hi = true
  | BInt true dlo dhi, BInt true lo hi, VIntList l =>
      (forall z, In z l -> dlo <= z <= dhi) -> l <> [] ->
      (exists z, In z l /\ lo <= z) /\ (exists z, In z l /\ z <= hi)
  | BStr TStr dlo dhi, BStr TStr lo hi, VStr s =>
      let i := try_get_str c v (sv_string s) in dlo <= i <= dhi -> lo <= i <= hi
  | BStr TIEnum dlo dhi, BStr TIEnum lo hi, VInt z =>
      let i := try_get_ie c v z in dlo <= i <= dhi -> lo <= i <= hi
  | BStr TStrList dlo dhi, BStr TStrList lo hi, VStrList l =>
      let id s := try_get_str c v (sv_string s) in
      (forall s, In s l -> dlo <= id s <= dhi) -> l <> [] ->
      (exists s, In s l /\ lo <= id s) /\ (exists s, In s l /\ id s <= hi)
  | BStr TStrList _ _, BStr TStrList _ _, VIntList [] => True     (* the empty list as parsed *)
  | _, _, _ => False
  end.

(** Ranges that can be split: wider than one value, and no wider than an int64_t can tell. *)
Definition splits_ok (b : bound) : Prop :=
  match b with
  | BBool lo hi => lo = false /\ hi = true
  | BInt _ lo hi => INT64_MIN <= lo /\ lo < hi /\ hi <= INT64_MAX /\ hi - lo <= INT64_MAX
  | BStr _ lo hi => 0 <= lo /\ lo < hi /\ hi <= SIZE_MAX
  | _ => False
  end.
(** [l] and [r] are two halves of [b]. *)
Definition halves (b l r : bound) : Prop :=
  match b, l, r with
  | BBool lo hi, BBool l1 h1, BBool l2 h2 => l1 = lo /\ h1 = lo /\ l2 = hi /\ h2 = hi
  | BInt t lo hi, BInt t1 l1 h1, BInt t2 l2 h2 =>
      t1 = t /\ t2 = t /\ l1 = lo /\ h2 = hi /\ l1 <= h1 /\ l2 <= h2 /\ h1 <= l2 <= h1 + 1
      /\ h1 - l1 < hi - lo /\ h2 - l2 < hi - lo
      /\ (forall z, lo <= z <= hi -> l1 <= z <= h1 \/ l2 <= z <= h2)
  | BStr t lo hi, BStr t1 l1 h1, BStr t2 l2 h2 =>
      t1 = t /\ t2 = t /\ l1 = lo /\ h2 = hi /\ l1 <= h1 /\ l2 <= h2 /\ h1 <= l2 <= h1 + 1
      /\ h1 - l1 < hi - lo /\ h2 - l2 < hi - lo
      /\ (forall z, lo <= z <= hi -> l1 <= z <= h1 \/ l2 <= z <= h2)
  | _, _, _ => False
  end.
