(** Event objects built with the functions of betree.h. *)
From Coq Require Import ZArith NArith String Bool List Lia Permutation.
From Verif Require Import Base Float Value Ast Config Assign Bound Special Match Tree PredMap Source Api EventObj.
From Verif Require Import Spec TreeSpec Hist ObjSpec ListProofs ExtProofs ObjProofs Check Cases PropsSearch.
Import ListNotations.
Local Open Scope Z_scope.
Local Open Scope string_scope.

(** ** C45 *)

(** An object is searched as the list of its variables. *)
Theorem C45_same_as_event : forall (G : Geo) t ev r,
  bind (search_object t ev r) (fun x => Ok (fst x)) = betree_search t (vars ev) r
  /\ bind (exists_object t ev) (fun x => Ok (fst x)) = betree_exists t (vars ev).
Proof.
  intros G t ev r. unfold search_object, betree_search, exists_object, betree_exists, make_env.
  rewrite fill_object_env. destruct (fill_object _ _ _) as [[e p]| | |]; cbn [bind]; try (split; reflexivity).
  split.
  - destruct (negb _); [reflexivity|]. destruct (search_with_preds _ _ _ _ _ _); reflexivity.
  - destruct (exists_with_preds _ _ _ _ _); reflexivity.
Qed.
Print Assumptions C45_same_as_event.

(** Setting variables at different places gives an object with these variables, whatever the places. *)
Theorem C45_built : forall t l,
  NoDup (map fst l) -> Forall (fun p => (fst p < N.of_nat (List.length (c_domains (bt_cfg t))))%N) l ->
  exists ev, set_all (make_event t) l = Ok ev
    /\ Permutation (vars ev) (map (fun p => (fst (snd p), Some (snd (snd p)))) l).
Proof.
  intros t l ND F. destruct (set_all_vars l (make_event t) ND) as (ev & E & P).
  - rewrite Forall_forall in *. intros p H. apply nthN_repeat. now apply F.
  - exists ev. split; [exact E|]. unfold make_event in P. now rewrite vars_empty, app_nil_r in P.
Qed.
Print Assumptions C45_built.

(** Searching with an object finds the subscriptions that are true of its variables. *)
Theorem C45_search_exact : forall (G : Geo) m ds t pend log ev,
  reach_in m ds t pend log -> few_preds t -> event_ok ds (vars ev) -> complete ds (vars ev) -> fair m t (vars ev) log ->
  exists r ev', search_object t ev make_report = Ok (true, r, ev') /\ Permutation (r_subs r) (hits (vars ev) log).
Proof.
  intros G m ds t pend log ev R F O C FA. destruct (C01_search_exact G m ds t pend log (vars ev) R F O C FA) as (r & E & P).
  destruct (C45_same_as_event G t ev make_report) as [S _]. rewrite E in S.
  destruct (search_object t ev make_report) as [[[b r'] ev']| | |]; try discriminate. cbn in S. injection S as -> ->. eauto.
Qed.
Print Assumptions C45_search_exact.

(** A second search with the same object in the same tree answers the same, for any tree and object. *)
Theorem C45_second_search : forall (G : Geo) t ev r b r1 ev',
  search_object t ev r = Ok (b, r1, ev') -> search_object t ev' r = Ok (b, r1, ev').
Proof.
  intros G t ev r b r1 ev' H. pose proof (search_object_fill _ _ _ _ _ _ H) as [p F].
  rewrite <- H. unfold search_object.
  rewrite (fill_object_again _ (bt_cfg t) eq_refl _ _ _ _ _ F); [reflexivity|].
  intros n l _ v. apply num_strs_same.
Qed.
Print Assumptions C45_second_search.

(** An object can be searched again and again while any calls change the tree: every answer is that of
    a fresh object, if none of its string lists has two strings unknown to the tree of the first search. *)
Theorem C45_reuse : forall (G : Geo) t ev t' ev',
  session t ev t' ev' -> one_unknown (bt_cfg t) ev ->
  (forall r, search_object t' ev' r = search_object t' ev r) /\ exists_object t' ev' = exists_object t' ev.
Proof.
  intros G t ev t' ev' S O.
  pose proof (session_fill t ev t' ev' S O t' (g_same _)) as F.
  split; [intros r; unfold search_object|unfold exists_object]; now rewrite F.
Qed.
Print Assumptions C45_reuse.

(** The declarations can be read back, whatever calls were made. *)
Theorem C45_definitions : forall ds cap minpart maxsplit t i,
  grown (make_tree cap minpart maxsplit ds) t ->
  get_variable_definition t i =
  match nthN ds i with Some d => Ok (d_attr d, btype (d_bound d)) | None => UB end.
Proof.
  intros ds cap minpart maxsplit t i H. apply grown_ext in H. apply ext_doms in H. cbn in H.
  unfold get_variable_definition. revert H i. generalize (c_domains (bt_cfg t)).
  induction ds as [|d ds IH]; intros [|d' l] E i; try discriminate; [reflexivity|].
  cbn in E. injection E as Ea Et Eu El. cbn [nthN]. destruct (i =? 0)%N; [now rewrite Ea, Et|]. now apply IH.
Qed.
Print Assumptions C45_definitions.

(** An event built in the object interface: strings, lists, segments and caps set one by one. *)
Definition built_object : result evobj :=
  bind (add_slot (make_slots 2) 1 (new_string "a")) (fun sl =>
  bind (add_slot sl 0 (new_string "zz")) (fun sl =>
  bind (make_string_list_variable "sl" sl) (fun sl =>
  bind (add_integer (make_integer_list 3) 1 5) (fun il =>
  bind (add_slot (make_slots 1) 0 (make_segment 3 90000000)) (fun sg =>
  bind (make_segments_variable "segments_with_timestamp" sg) (fun sg =>
  bind (add_slot (make_slots 1) 0 (make_frequency_cap "flight" 20 "ns" true 0 9)) (fun fc =>
  bind (make_frequency_caps_variable "frequency_caps" fc) (fun fc =>
  set_all (make_event case_t)
    [(3%N, sl); (0%N, make_integer_list_variable "il" il); (7%N, sg); (8%N, fc); (1%N, make_integer_variable "I" 9);
     (2%N, make_string_variable "s" "hello"); (11%N, make_integer_variable "now" 100)])))))))).
Definition case_object : evobj := Eval vm_compute in match built_object with Ok ev => ev | _ => [] end.

Definition case_grown : betree := Eval vm_compute in
  match betree_insert_with_constants case_t 77 [] (XAtom (AList LOneOf "sl" (SStrs ["new"; "zz"]))) with Ok (_, t) => t | _ => case_t end.
Definition case_used : evobj := Eval vm_compute in
  match search_object case_t case_object make_report with Ok (_, _, ev) => ev | _ => [] end.
Definition ids_of_object (x : result (bool * report * evobj)) : list Z := answer (bind x (fun x => Ok (fst x))).

Lemma case_session : session case_t case_object case_grown case_used.
Proof.
  eapply s_grow; [eapply (s_search _ _ case_t case_object make_report); [apply s_start|vm_compute; reflexivity]|].
  eapply (g_insert _ case_t case_grown 77 [] (build (XAtom (AList LOneOf "sl" (SStrs ["new"; "zz"])))) true); [apply g_same|].
  vm_compute. reflexivity.
Qed.
Example C45_case :
  built_object = Ok case_object
  /\ event_ok case_ds (vars case_object) /\ complete case_ds (vars case_object)
  /\ one_unknown (bt_cfg case_t) case_object
  /\ session case_t case_object case_grown case_used /\ case_used <> case_object
  /\ hits (vars case_object) case_log = [4; 6; 7; 9; 13; 16; 12]
  /\ same_ids (ids_of_object (search_object case_t case_object make_report)) [4; 6; 7; 9; 13; 16; 12] = true
  /\ same_ids (ids_of_object (search_object case_grown case_used make_report)) [4; 6; 7; 9; 13; 16; 12; 77] = true
  /\ get_variable_definition case_grown 6 = Ok ("sl", TStrList).
Proof.
  split; [vm_compute; reflexivity|]. split; [fact|]. split; [fact|]. split.
  { intros n l s s' H Hs Hs' I I'. cbn in H.
    repeat (destruct H as [H|H]; [try discriminate; injection H as <- <-|]); [|destruct H].
    cbn in Hs, Hs'. destruct Hs as [<-|[<-|[]]], Hs' as [<-|[<-|[]]]; try reflexivity; vm_compute in I, I'; discriminate. }
  split; [exact case_session|]. split; [vm_compute; discriminate|]. facts.
Qed.
