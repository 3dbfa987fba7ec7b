(** Searches when float ranges are split.

    [reach_in Splits] (Hist.v) are the histories of [reach] in which float variables may be declared with a narrow range, so
    that the tree splits it: ranges that are narrow enough have ends that are multiples of 2^-10 (TreeSpec.v
    [split_floats]).  [clear] (TreeSpec.v): no value that the event gives a float variable with a finite range is a near
    miss of a constant of the expression, that is, different from it by less than 2^-52.  Without it a subscription may be
    missed: C53_near_miss_refuted, C01_float_range_refuted. *)
From Coq Require Import ZArith NArith String Bool List Permutation.
From Verif Require Import Base Float FloatSpec Value Ast Config Assign Special Match Bound Tree PredMap Source Api Spec TreeSpec Hist Check Cases.
From Verif Require Import PropsSearch PropsTotal TotalProofs PassTotal SplitProofs.
Import ListNotations.
Local Open Scope Z_scope.
Local Open Scope string_scope.

(** ** C53 *)
(** What is reported is true of the event, once; a subscription of which the event is no near miss is reported exactly
    when it is true. *)
Theorem C53_search : forall (G : Geo) ds t pend log ev,
  reach_in Splits ds t pend log -> few_preds t -> event_ok ds ev -> complete ds ev ->
  exists r, betree_search t ev make_report = Ok (true, r) /\ NoDup (r_subs r) /\ r_matched r = Z.of_nat (List.length (r_subs r))
    /\ (forall id, In id (r_subs r) -> exists e, In e log /\ e_id e = id /\ (calm t ev e -> sem (e_cs e) ev (e_src e) = true))
    /\ (forall e, In e log -> calm t ev e -> range_ok false (e_src e) -> clear (c_domains (bt_cfg t)) ev (e_src e) ->
          (In (e_id e) (r_subs r) <-> sem (e_cs e) ev (e_src e) = true)).
Proof. exact @split_search. Qed.
Print Assumptions C53_search.
(** An event without near misses finds exactly the subscriptions that are true of it. *)
Theorem C53_search_exact : forall (G : Geo) ds t pend log ev,
  reach_in Splits ds t pend log -> few_preds t -> event_ok ds ev -> complete ds ev -> fair Splits t ev log ->
  exists r, betree_search t ev make_report = Ok (true, r) /\ Permutation (r_subs r) (hits ev log).
Proof. exact @split_search_exact. Qed.
Print Assumptions C53_search_exact.
(** betree_exists agrees with betree_search. *)
Theorem C53_exists : forall (G : Geo) ds t pend log ev,
  reach_in Splits ds t pend log -> few_preds t -> event_ok ds ev -> complete ds ev ->
  exists b r, betree_exists t ev = Ok b /\ betree_search t ev make_report = Ok (true, r)
    /\ (b = true <-> r_subs r <> [])
    /\ (b = true -> exists e, In e log /\ (calm t ev e -> sem (e_cs e) ev (e_src e) = true))
    /\ (forall e, In e log -> fair_one Splits t ev e -> sem (e_cs e) ev (e_src e) = true -> b = true).
Proof. exact @split_exists. Qed.
Print Assumptions C53_exists.
(** Events that lack a value are refused. *)
Theorem C53_incomplete : forall (G : Geo) ds t pend log ev,
  reach_in Splits ds t pend log -> event_ok ds ev -> forall r, ~ complete ds ev -> betree_search t ev r = Ok (false, r).
Proof. exact @split_refuses. Qed.
Print Assumptions C53_incomplete.

(** Ranges whose widths are whole numbers ([reach_in WholeSplits]) are split without an abort: insertions finish, and the
    theorems above apply to the trees they give.  Ranges of other widths can abort: C10_float_split_refuted. *)
Theorem C53_whole : forall ds t pend log, reach_in WholeSplits ds t pend log -> reach_in Splits ds t pend log.
Proof. exact whole_reach. Qed.
Print Assumptions C53_whole.
Theorem C53_insert_finishes : forall (G : Geo) ds t pend log id cs x,
  reach_in WholeSplits ds t pend log -> lower_names ds -> narrow (bt_cfg t) -> c_cap (bt_cfg t) <> 0 ->
  src_ok ds cs x -> fits (bt_cfg t) false x -> ~ In id (ids_of pend log) ->
  exists inserted t', betree_insert_with_constants t id cs x = Ok (inserted, t').
Proof. exact (@insert_total WholeSplits whole_only). Qed.
Print Assumptions C53_insert_finishes.
Theorem C53_insert_sub_finishes : forall (G : Geo) ds t pend s e pend' log,
  reach_in WholeSplits ds t (pend ++ (s, e) :: pend') log -> narrow (bt_cfg t) -> c_cap (bt_cfg t) <> 0 ->
  exists t', betree_insert_sub t s = Ok t'.
Proof. exact (@insert_sub_total WholeSplits whole_only). Qed.
Print Assumptions C53_insert_sub_finishes.
(** Making a subscription and adapting boundaries finish whatever the widths are. *)
Theorem C53_make_finishes : forall (G : Geo) ds t pend log id cs x,
  reach_in Splits ds t pend log -> src_ok ds cs x -> fits (bt_cfg t) true x ->
  exists made t', betree_make_sub t id cs x = Ok (made, t').
Proof. exact (@make_total Splits). Qed.
Print Assumptions C53_make_finishes.
Theorem C53_change_finishes : forall (G : Geo) ds t pend log x,
  reach_in Splits ds t pend log -> src_ok ds [] x -> fits (bt_cfg t) true x ->
  exists t', betree_change_boundaries t x = Ok t'.
Proof. exact (@change_boundaries_total Splits). Qed.
Print Assumptions C53_change_finishes.

(** A price between 0 and 16 and a share between 0 and 1; constants that are not whole numbers. *)
Definition half (z : Z) : flt := fdiv (f_of_Z z) (f_of_Z 2).
Definition price op f := XAtom (ACmp op "price" (CFloat f)).
Definition price_ds : list domain :=
  [ mkD "price" (BFloat (f_of_Z 0) (f_of_Z 16)) false; mkD "share" (BFloat (f_of_Z 0) (f_of_Z 1)) true; mkD "b" (BBool false true) false ].
Definition price_ops : list op :=
  [ OInsert 1 [] (price CLt (half 7));
    OInsert 2 [] (price CGt (half 19));
    OInsert 3 [] (XAtom (AEq QEq "price" (SFlt (half 11))));
    OInsert 4 [] (XAnd (price CGe (f_of_Z 2)) (price CLe (half 9)));
    OInsert 5 [] (XOr (XAtom (AEq QEq "price" (SInt 6))) (XAtom (ACmp CLe "price" (CInt 1))));
    OInsert 6 [] (XAnd (XAtom (AVar "b")) (XNot (price CLt (half 25))));
    OInsert 7 [] (XAtom (ACmp CLt "share" (CFloat (half 1))));
    OInsert 8 [] (XAtom (AEq QEq "share" (SInt 1)));
    OMake 9 [] (XAnd (price CLt (f_of_Z 20)) (XAtom (AEq QNe "price" (SInt 6))));
    OInsertSub 0%nat;
    OInsert 10 [] (XAtom (AEq QNe "share" (SFlt (half 1)))) ].
Definition price_st : state := Eval vm_compute in
  match run_in WholeSplits price_ds 1 0 1000 price_ops with Some st => st | None => (make_tree 1 0 1000 price_ds, [], []) end.
Definition price_t : betree := Eval vm_compute in fst (fst price_st).
Definition price_log : list entry := Eval vm_compute in snd price_st.
Definition price_ev (p : flt) (o : option flt) : event :=
  [("price", Some (VFloat p)); ("share", option_map VFloat o); ("b", Some (VBool true))].
(** The ranges at the ends of the tree, per variable. *)
Fixpoint cuts (cd : cdir) : list (option Z * option Z) :=
  match cd with
  | CLeaf (BFloat lo hi) _ => [(f_trunc lo, f_trunc hi)]
  | CLeaf _ _ => []
  | CSplit _ _ l r => (cuts l ++ cuts r)%list
  end.
Fixpoint all_cuts (ps : pdir) : list (N * list (option Z * option Z)) :=
  match ps with PNil => [] | PCons v _ cd rest => (v, cuts cd) :: all_cuts rest end.
Lemma price_whole : reach_in WholeSplits price_ds price_t [] price_log.
Proof. apply (run_reach _ 1 0 1000 price_ops). vm_compute. reflexivity. Qed.
Lemma price_reach : reach_in Splits price_ds price_t [] price_log.
Proof. apply C53_whole, price_whole. Qed.
Example C53_case :
  reach_in Splits price_ds price_t [] price_log /\ few_preds price_t /\ List.length price_log = 10%nat
  /\ (match bt_root price_t with CNode _ _ ps => all_cuts ps end)
     = [(0%N, [(Some 0, Some 4); (Some 4, Some 8); (Some 8, Some 12); (Some 12, Some 16)]);
        (1%N, [(Some 0, Some 0); (Some 1, Some 1)])]
  /\ (event_ok price_ds (price_ev (half 7) None) /\ complete price_ds (price_ev (half 7) None)
      /\ fair Splits price_t (price_ev (half 7) None) price_log
      /\ hits (price_ev (half 7) None) price_log = [4; 9]
      /\ answer (betree_search price_t (price_ev (half 7) None) make_report) = [9; 4])
  /\ (event_ok price_ds (price_ev (half 25) (Some (f_of_Z 0))) /\ complete price_ds (price_ev (half 25) (Some (f_of_Z 0)))
      /\ fair Splits price_t (price_ev (half 25) (Some (f_of_Z 0))) price_log
      /\ hits (price_ev (half 25) (Some (f_of_Z 0))) price_log = [2; 6; 7; 9; 10]
      /\ answer (betree_search price_t (price_ev (half 25) (Some (f_of_Z 0))) make_report) = [9; 2; 6; 7; 10])
  /\ betree_exists price_t (price_ev (half 11) None) = Ok true
  /\ betree_search price_t [("price", Some (VFloat (half 7)))] make_report = Ok (false, make_report).
Proof. facts; try exact price_reach. Qed.
(** One more subscription, about prices from 1 to 2, is put into the first range, which is split again; ranges of prices are
    then [0, 2], [2, 4], [4, 8], [8, 12] and [12, 16]. *)
Definition price_new : src := XAnd (price CGe (f_of_Z 1)) (price CLe (f_of_Z 2)).
Definition price_next : betree := Eval vm_compute in
  match betree_insert_with_constants price_t 11 [] price_new with Ok (_, t) => t | _ => price_t end.
Example C53_finishes_case :
  reach_in WholeSplits price_ds price_t [] price_log /\ lower_names price_ds /\ narrow (bt_cfg price_t) /\ c_cap (bt_cfg price_t) = 1
  /\ src_ok price_ds [] price_new /\ fits (bt_cfg price_t) false price_new /\ ~ In 11 (ids_of [] price_log)
  /\ betree_insert_with_constants price_t 11 [] price_new = Ok (true, price_next)
  /\ (match bt_root price_next with CNode _ _ ps => all_cuts ps end)
     = [(0%N, [(Some 0, Some 2); (Some 2, Some 4); (Some 4, Some 8); (Some 8, Some 12); (Some 12, Some 16)]);
        (1%N, [(Some 0, Some 0); (Some 1, Some 1)])].
Proof. total_facts; try exact price_whole. Qed.
(** The theorems of PropsSearch.v apply to these trees.  One more subscription changes the answer only for itself. *)
Example C38_split_case :
  reach_in Splits price_ds price_t [] price_log /\ accepts price_ds (bt_cfg price_t) false [] price_new
  /\ ~ In 11 (ids_of [] price_log) /\ betree_insert_with_constants price_t 11 [] price_new = Ok (true, price_next)
  /\ few_preds price_t /\ few_preds price_next
  /\ event_ok price_ds (price_ev (half 3) None) /\ complete price_ds (price_ev (half 3) None)
  /\ fair Splits price_t (price_ev (half 3) None) price_log
  /\ fair Splits price_next (price_ev (half 3) None) (price_log ++ [mkE 11 [] price_new])
  /\ answer (betree_search price_t (price_ev (half 3) None) make_report) = [9; 1]
  /\ answer (betree_search price_next (price_ev (half 3) None) make_report) = [9; 1; 11].
Proof. facts; try exact price_reach. Qed.
(** The same calls on a tree that may split nothing: no float range is split, and the answers are the same (C08). *)
Definition flat_t : betree := Eval vm_compute in
  match run_in NoSplit price_ds 3 0 0 price_ops with Some st => fst (fst st) | None => make_tree 3 0 0 price_ds end.
Lemma flat_reach : reach_in NoSplit price_ds flat_t [] price_log.
Proof. apply (run_reach _ 3 0 0 price_ops). vm_compute. reflexivity. Qed.
Example C08_split_case :
  reach_in Splits price_ds price_t [] price_log /\ reach_in NoSplit price_ds flat_t [] price_log
  /\ few_preds price_t /\ few_preds flat_t
  /\ event_ok price_ds (price_ev (half 25) (Some (f_of_Z 0))) /\ complete price_ds (price_ev (half 25) (Some (f_of_Z 0)))
  /\ fair Splits price_t (price_ev (half 25) (Some (f_of_Z 0))) price_log
  /\ fair NoSplit flat_t (price_ev (half 25) (Some (f_of_Z 0))) price_log
  /\ answer (betree_search price_t (price_ev (half 25) (Some (f_of_Z 0))) make_report) = [9; 2; 6; 7; 10]
  /\ answer (betree_search flat_t (price_ev (half 25) (Some (f_of_Z 0))) make_report) = [2; 7; 9; 10; 6].
Proof. facts; try exact price_reach; try exact flat_reach. Qed.
(** The range derived for the price by subscription 4 contains the prices it is true of (C20_range_safe). *)
Example C20_float_case :
  reach_in Splits price_ds price_t [] price_log /\ event_ok price_ds (price_ev (half 7) None)
  /\ In (mkE 4 [] (XAnd (price CGe (f_of_Z 2)) (price CLe (half 9)))) price_log
  /\ sem [] (price_ev (half 7) None) (XAnd (price CGe (f_of_Z 2)) (price CLe (half 9))) = true
  /\ decl (c_domains (bt_cfg price_t)) "price" = Some (0%N, mkD "price" (BFloat (f_of_Z 0) (f_of_Z 20)) false)
  /\ map (fun s => get_variable_bound 0 (BFloat (f_of_Z 0) (f_of_Z 20)) (s_expr s))
       (filter (fun s => (s_id s =? 4)%Z) (subs_cnode (bt_root price_t))) = [Ok (BFloat (f_of_Z 2) (half 9))]
  /\ clear_of (c_domains (bt_cfg price_t)) 0 (half 7) (XAnd (price CGe (f_of_Z 2)) (price CLe (half 9))).
Proof.
  facts; try exact price_reach.
  all: try match goal with |- In _ _ => vm_compute; tauto end.
  repeat (apply Forall_cons; [intros n k d [= <- <-] _; apply apart_b_ok; vm_compute; reflexivity|]). apply Forall_nil.
Qed.

(** ** C21 *)
(** A float range whose ends are multiples of 2^-10 and whose width is a whole number is split in two of the same kind.
    They share an end, so nothing is lost, except when the width is 1: then only the two ends remain. *)
Theorem C21_float : forall lo hi, coarse lo -> coarse hi -> units lo < units hi -> whole_width lo hi ->
  exists m m', split_value_bound (BFloat lo hi) = Ok (BFloat lo m, BFloat m' hi)
    /\ coarse m /\ coarse m' /\ whole_width lo m /\ whole_width m' hi
    /\ units lo <= units m < units hi /\ units lo < units m' <= units hi
    /\ (units m = units m' \/ units hi - units lo = 2 ^ 1074 /\ units m = units lo /\ units m' = units hi).
Proof. exact FloatOrd.float_halves. Qed.
Print Assumptions C21_float.
Example C21_float_case :
  split_value_bound (BFloat (f_of_Z 0) (f_of_Z 5)) = Ok (BFloat (f_of_Z 0) (f_of_Z 3), BFloat (f_of_Z 3) (f_of_Z 5))
  /\ split_value_bound (BFloat (f_of_Z 0) (f_of_Z 2)) = Ok (BFloat (f_of_Z 0) (f_of_Z 1), BFloat (f_of_Z 1) (f_of_Z 2)).
Proof. split; vm_compute; reflexivity. Qed.
