(** Properties of the memory of events and searches. *)
From Coq Require Import ZArith NArith Ascii String Bool List Lia Permutation.
From Verif Require Import Base Float Value Ast Config Assign Bound Special Match Tree PredMap Source Api EventObj ObjSpec BaseProofs.
From Verif Require Import Lexer LexSpec Flex FlexTables FlexProofs EventGrammar Bison BisonTables BisonEvent.
From Verif Require Import Ledger HeapExpr HeapSpec HeapEvent HeapEventSpec PermTac LedgerProofs HeapProofs HeapParse HeapEventProofs HeapEventRules HeapEventText HeapFill HeapSearch Cases.
Import ListNotations.
Local Open Scope Z_scope.
Local Open Scope string_scope.
Local Open Scope list_scope.

(** C61: reading an event uses memory as it should, for every text and every state of the memory.  If the text is accepted,
    what is allocated afterwards is what was before and the blocks of the event, each of them once.  If it is refused and a
    string was read (the tokens up to the one that does not fit), blocks are left behind that nothing points to. *)
Theorem C61_read text m l : all_chars (fun c => negb (Ascii.eqb c zero)) text = true -> holds m l ->
  exists o m', h_event_parse text m = Ok (o, m') /\
    match o with
    | Some e => (exists vs, event_parse_c text = Ok (Some vs) /\ er_event e = map Some vs) /\ holds m' (bl_event e ++ l)
    | None => event_parse_c text = Ok None /\
        exists lost read rest, holds m' (lost ++ l) /\ elex text = read ++ rest /\
          (forall s, zzparse (elex text) = Ok Rejected -> In (JStr s) (read ++ firstn 1 rest) -> lost <> [])
    end.
Proof.
  intros N H. destruct (h_event_parse_ok text (elex text) m l (e_lex_ok _ N) H) as (o & m' & E & Q).
  exists o, m'. split; [exact E|]. destruct o as [e|]; [exact Q|]. destruct Q as (P & lost & read & rest & L & H' & V). split; [exact P|].
  exists lost, read, rest. split; [exact H'|]. split; [exact L|]. intros s Rj I. apply V; [exact Rj|]. apply Exists_exists. exists (JStr s). now split.
Qed.
Print Assumptions C61_read.
(** Releasing an event gives all of it back, filled or not, with or without empty slots. *)
Theorem C61_release e m l : holds m (bl_event e ++ l) -> exists m', h_free_event e m = Ok (tt, m') /\ holds m' l.
Proof.
  intros H.
  destruct (free_event_ok e m (bl_event e ++ l) l (fun _ m' => holds m' l) H ltac:(reflexivity) ltac:(intros m' H'; exact H')) as ([] & m' & E & Q).
  now exists m'.
Qed.
Print Assumptions C61_release.

Section WithGeo.
Context {G : Geo}.

(** A search with a text ends as it does without memory, however that is, and never uses or releases a block wrongly.  The
    event, the environment, the candidates and the bits of the memory are released; the report keeps its array.  An event
    that lacks a variable costs one block, the environment. *)
Theorem C61_search t text r m l : holds m (bl_report r ++ l) -> report_ok r ->
  match (do ev <- text_event text; betree_search t ev (hp_report r))%res with
  | Ok (b, r1) => exists r' m', h_search t text r m = Ok ((b, r'), m') /\ hp_report r' = r1 /\ report_ok r' /\
      if b then holds m' (bl_report r' ++ l) else exists a, holds m' (a :: bl_report r' ++ l)
  | Abort => h_search t text r m = Abort
  | UB => h_search t text r m = UB
  | Fuel => h_search t text r m = Fuel
  end.
Proof.
  intros H Ro. pose proof (search_text_sim t text r m l H Ro) as S. unfold sim in S.
  destruct (bind (text_event text) _) as [[b r1]| | |]; try exact S.
  destruct S as ([b' r'] & m' & E & Eb & Er & Rr & lost & Kl & H'). cbn [fst snd] in *. subst b'. exists r', m'.
  split; [exact E|]. split; [exact Er|]. split; [exact Rr|]. destruct b; cbn [kept_env] in Kl; [now subst lost|].
  destruct Kl as (a & ->). now exists a.
Qed.
Theorem C61_exists t text m l : holds m l ->
  match (do ev <- text_event text; betree_exists t ev)%res with
  | Ok b => exists m', h_exists t text m = Ok (b, m') /\ holds m' l
  | Abort => h_exists t text m = Abort
  | UB => h_exists t text m = UB
  | Fuel => h_exists t text m = Fuel
  end.
Proof.
  intros H. pose proof (exists_text_sim t text m l H) as S. unfold sim in S.
  destruct (bind (text_event text) _) as [b| | |]; try exact S.
  destruct S as (b' & m' & E & -> & H'). now exists m'.
Qed.
(** The same with an event object, which stays with its changed contents; strings that became duplicates were released. *)
Theorem C61_search_event t e r m l : holds m (bl_event e ++ bl_report r ++ l) -> report_ok r ->
  match search_object t (er_event e) (hp_report r) with
  | Ok (b, r1, ev1) => exists r' e' m', h_search_event t e r m = Ok ((b, r', e'), m') /\
      hp_report r' = r1 /\ er_event e' = ev1 /\ report_ok r' /\
      if b then holds m' (bl_event e' ++ bl_report r' ++ l) else exists a, holds m' (a :: bl_event e' ++ bl_report r' ++ l)
  | Abort => h_search_event t e r m = Abort
  | UB => h_search_event t e r m = UB
  | Fuel => h_search_event t e r m = Fuel
  end.
Proof.
  intros H Ro. pose proof (search_event_sim t e r m l H Ro) as S. unfold sim in S.
  destruct (search_object t (er_event e) (hp_report r)) as [[[b r1] ev1]| | |]; try exact S.
  destruct S as ([[b' r'] e'] & m' & E & -> & Er & Ee & Rr & lost & Kl & H'). exists r', e', m'.
  split; [exact E|]. split; [exact Er|]. split; [exact Ee|]. split; [exact Rr|]. destruct b; cbn [kept_env] in Kl; [now subst lost|].
  destruct Kl as (a & ->). now exists a.
Qed.
Theorem C61_exists_event t e m l : holds m (bl_event e ++ l) ->
  match exists_object t (er_event e) with
  | Ok (b, ev1) => exists e' m', h_exists_event t e m = Ok ((b, e'), m') /\ er_event e' = ev1 /\ holds m' (bl_event e' ++ l)
  | Abort => h_exists_event t e m = Abort
  | UB => h_exists_event t e m = UB
  | Fuel => h_exists_event t e m = Fuel
  end.
Proof.
  intros H. pose proof (exists_event_sim t e m l H) as S. unfold sim in S.
  destruct (exists_object t (er_event e)) as [[b ev1]| | |]; try exact S.
  destruct S as ([b' e'] & m' & E & Eb & Ee & H'). cbn [fst snd] in *. subst b'. now exists e', m'.
Qed.

(** Reports. *)
Theorem C61_report m l : holds m l ->
  (exists r m', h_make_report m = Ok (r, m') /\ hp_report r = make_report /\ report_ok r /\ holds m' (bl_report r ++ l)) /\
  (forall r m1 l1, holds m1 (bl_report r ++ l1) -> exists m', h_free_report r m1 = Ok (tt, m') /\ holds m' l1).
Proof.
  intros H. split.
  - assert (W : wp h_make_report m (fun r m' => hp_report r = make_report /\ report_ok r /\ holds m' (bl_report r ++ l))).
    { unfold h_make_report. repeat lstep. split; [reflexivity|]. split; [split; [cbn; lia|now cbn]|]. exact H0. }
    destruct W as (r & m' & E & Q). now exists r, m'.
  - intros r m1 l1 H1.
    assert (W : wp (h_free_report r) m1 (fun _ m' => holds m' l1)).
    { unfold h_free_report, bl_report in *. cbn [app] in H1. repeat lstep. assumption. }
    destruct W as ([] & m' & E & Q). now exists m'.
Qed.

(** Any number of searches, each with its own report that is released afterwards: what is left behind is one block for every
    event that was refused, and nothing else. *)
Fixpoint answers (t : betree) (texts : list string) : result (list (bool * report)) :=
  (match texts with
   | [] => Ok []
   | s :: rest => do ev <- text_event s; do x <- betree_search t ev make_report; do l <- answers t rest; Ok (x :: l)
   end)%res.
Theorem C61_session t texts : forall m l, holds m l ->
  match answers t texts with
  | Ok xs => exists lost m', h_session t texts m = Ok (xs, m') /\ holds m' (lost ++ l) /\
      List.length lost = List.length (filter (fun x => negb (fst x)) xs)
  | Abort => h_session t texts m = Abort
  | UB => h_session t texts m = UB
  | Fuel => h_session t texts m = Fuel
  end.
Proof.
  induction texts as [|s texts IH]; intros m l H; cbn [answers h_session].
  - exists [], m. now split.
  - destruct (proj1 (C61_report m l H)) as (r & m1 & E1 & Er & Ro & H1).
    pose proof (C61_search t s r m1 l H1 Ro) as S. rewrite Er in S.
    destruct (text_event s) as [ev| | |]; cbn [bind] in *; try (unfold then_; rewrite E1; cbn [bind]; rewrite S; reflexivity).
    destruct (betree_search t ev make_report) as [[b r1]| | |]; cbn [bind] in *; try (unfold then_; rewrite E1; cbn [bind]; rewrite S; reflexivity).
    destruct S as (r' & m2 & E2 & Er' & Ro' & H2).
    assert (X : exists lost, holds m2 (bl_report r' ++ lost ++ l) /\ List.length lost = if negb b then 1%nat else 0%nat).
    { destruct b; [exists []; now split|]. destruct H2 as (a & H2). exists [a]. split; [eapply holds_perm; [exact H2|perm]|reflexivity]. }
    destruct X as (lost & H3 & Len). destruct (proj2 (C61_report m l H) r' m2 (lost ++ l) H3) as (m3 & E3 & H4).
    specialize (IH m3 (lost ++ l) H4).
    destruct (answers t texts) as [xs| | |]; cbn [bind];
      try (unfold then_; rewrite E1; cbn [bind]; rewrite E2; cbn [bind]; rewrite E3; cbn [bind]; rewrite IH; reflexivity).
    destruct IH as (lost' & m4 & E4 & H5 & Len'). exists (lost' ++ lost), m4.
    unfold then_. rewrite E1. cbn [bind]. rewrite E2. cbn [bind]. rewrite E3. cbn [bind]. rewrite E4. cbn [bind]. rewrite Er'.
    split; [reflexivity|]. split; [now rewrite <- app_assoc|]. rewrite app_length, Len', Len. cbn [filter fst]. destruct b; cbn [negb List.length]; lia.
Qed.

(** Event objects made by the calls of betree.h. *)
Theorem C61_make t name text v i x e m l :
  (holds m l -> exists e' m', h_make_object t m = Ok (e', m') /\ er_event e' = make_event t /\ holds m' (bl_event e' ++ l)) /\
  (holds m (bl_value v ++ l) -> exists x' m', h_make_variable name v m = Ok (x', m') /\ er_variable x' = (name, er_value v) /\ holds m' (bl_variable x' ++ l)) /\
  (holds m l -> exists x' m', h_make_string_variable name text m = Ok (x', m') /\ er_variable x' = make_string_variable name text /\
     holds m' (bl_variable x' ++ l)) /\
  (* the variable that was in the slot is lost *)
  (holds m (bl_event e ++ bl_slot x ++ l) ->
     match set_variable (er_event e) i (option_map er_variable x) with
     | Ok ev => exists e' m' old, h_set_variable e i x m = Ok (e', m') /\ er_event e' = ev /\ nthN (he_vars e) i = Some old /\
         holds m' (bl_event e' ++ bl_slot old ++ l)
     | Abort => h_set_variable e i x m = Abort
     | UB => h_set_variable e i x m = UB
     | Fuel => h_set_variable e i x m = Fuel
     end).
Proof.
  split; [|split; [|split]].
  - intros H. assert (W : wp (h_make_object t) m (fun e' m' => er_event e' = make_event t /\ holds m' (bl_event e' ++ l))).
    { unfold h_make_object. repeat lstep. unfold er_event, make_event, bl_event. cbn [he_at he_arr he_vars].
      split; [clear; induction (List.length _); cbn; congruence|].
      assert (E : flat_map bl_slot (repeat None (List.length (c_domains (bt_cfg t)))) = []) by (clear; induction (List.length _); cbn; congruence).
      rewrite E. rewrite app_nil_r. eapply holds_perm; [eassumption|]. destruct (repeat _ _); cbn [bl_arr]; [rewrite (opt_at_some _ N0)|]; perm. }
    destruct W as (e' & m' & E & Q). now exists e', m'.
  - intros H. assert (W : wp (h_make_variable name v) m (fun x' m' => er_variable x' = (name, er_value v) /\ holds m' (bl_variable x' ++ l))).
    { unfold h_make_variable. repeat lstep. split; [reflexivity|]. unfold bl_variable. cbn. eassumption. }
    destruct W as (e' & m' & E & Q). now exists e', m'.
  - intros H. assert (W : wp (h_make_string_variable name text) m (fun x' m' => er_variable x' = make_string_variable name text /\ holds m' (bl_variable x' ++ l))).
    { unfold h_make_string_variable, h_make_variable. repeat lstep. split; [reflexivity|]. unfold bl_variable. cbn. eassumption. }
    destruct W as (e' & m' & E & Q). now exists e', m'.
  - intros H. unfold set_variable, h_set_variable, er_event. rewrite map_length. unfold bl_event in H. cbn [app] in H.
    assert (L : is_live m (he_at e) = true) by (eapply holds_live; [exact H|now left]).
    destruct (N.ltb_spec i (N.of_nat (List.length (he_vars e)))) as [B|B].
    2: { unfold then_, use. rewrite L. reflexivity. }
    assert (P : forall (vs : list (option hvariable)) i, (i < N.of_nat (List.length vs))%N -> exists old, nthN vs i = Some old /\
      Permutation (flat_map bl_slot (updN vs i x) ++ bl_slot old) (bl_slot x ++ flat_map bl_slot vs) /\ map (option_map er_variable) (updN vs i x) = updN (map (option_map er_variable) vs) i (option_map er_variable x)).
    { clear. induction vs as [|y vs IH]; intros i B; [cbn in B; lia|]. cbn [nthN updN map]. destruct (N.eqb_spec i 0) as [->|Ni].
      - exists y. split; [reflexivity|]. split; [cbn [flat_map]; perm|reflexivity].
      - destruct (IH (N.pred i)) as (old & E & Pm & Em); [cbn [List.length] in B; lia|]. exists old. split; [exact E|]. split; [|cbn [map]; congruence].
        cbn [flat_map]. rewrite <- app_assoc, Pm. perm. }
    destruct (P (he_vars e) i B) as (old & Eo & Pm & Em).
    assert (La : is_live m (he_arr e) = true).
    { eapply holds_live; [exact H|]. right. apply in_or_app. left. apply in_or_app. left. apply bl_arr_in. intros E0. rewrite E0 in B. cbn in B. lia. }
    exists (mkHE (he_at e) (he_arr e) (updN (he_vars e) i x)), m, old. split; [unfold then_, use; rewrite L; cbn [bind]; rewrite La; reflexivity|].
    cbn [he_at he_arr he_vars]. split; [exact Em|]. split; [exact Eo|]. unfold bl_event. cbn [he_at he_arr he_vars app].
    rewrite (bl_arr_len (updN (he_vars e) i x) (he_vars e)) by apply length_updN.
    eapply holds_perm; [exact H|]. apply perm_skip. rewrite <- !app_assoc. apply Permutation_app_head.
    rewrite (app_assoc (flat_map _ _) (bl_slot old)), Pm. perm.
Qed.
End WithGeo.
Print Assumptions C61_search.
Print Assumptions C61_exists.
Print Assumptions C61_search_event.
Print Assumptions C61_exists_event.
Print Assumptions C61_report.
Print Assumptions C61_session.
Print Assumptions C61_make.

Definition case_text := "{""b"": true, ""i"": 9, ""now"": 100, ""sl"": [""p"", ""q"", ""r"", ""q""], ""s"": null}".
Definition live_after {A} (r : result (A * ledger)) : option (A * list Z) := match r with Ok (a, m) => Some (a, l_live m) | _ => None end.
Example C61_case :
  (* the event, its array, four variables and their names, the list, its array and four strings remain of 31 blocks *)
  (exists e, h_event_parse case_text (mkLedger 1 []) = Ok (Some e, mkLedger 32 [30; 29; 28; 27; 26; 23; 20; 17; 16; 12; 11; 8; 7; 4; 3; 2]) /\
     bl_event e = [4; 30; 2; 3; 7; 8; 11; 12; 28; 29; 17; 27; 16; 20; 23; 26] /\
     h_free_event e (mkLedger 32 [30; 29; 28; 27; 26; 23; 20; 17; 16; 12; 11; 8; 7; 4; 3; 2]) = Ok (tt, mkLedger 32 []) /\
     (* released twice *)
     h_free_event e (mkLedger 32 []) = UB) /\
  (* of a text that is refused, seven blocks are lost *)
  live_after (h_event_parse "{""b"": true, ""i"": [1" (mkLedger 1 [])) = Some (None, [8; 7; 6; 5; 4; 3; 2]) /\
  (* the report and its array remain of 44 blocks *)
  (exists r, h_search case_t case_text (mkHR 1 0 make_report) (mkLedger 2 [1]) = Ok (true, r, mkLedger 45 [44; 1]) /\
     r_subs (hp_report r) = [6; 4] /\ bl_report r = [1; 44]) /\
  (* two of the four events are refused *)
  (exists xs, live_after (h_session case_t [case_text; "{}"; "{""b"": false}"; case_text] (mkLedger 1 [])) = Some (xs, [55; 47]) /\
     map fst xs = [true; false; false; true]) /\
  live_after (h_exists case_t case_text (mkLedger 1 [])) = Some (true, []).
Proof.
  split; [eexists; split; [vm_compute; reflexivity|]; repeat split|].
  split; [vm_compute; reflexivity|].
  split; [eexists; split; [vm_compute; reflexivity|]; now split|].
  split; [eexists; split; [vm_compute; reflexivity|]; reflexivity|].
  vm_compute; reflexivity.
Qed.
(** The strings that are unknown become the same; three of four are released.  A variable that is replaced is lost. *)
Example C61_object_case :
  (exists e, h_event_parse case_text (mkLedger 1 []) = Ok (Some e, mkLedger 32 [30; 29; 28; 27; 26; 23; 20; 17; 16; 12; 11; 8; 7; 4; 3; 2]) /\
     exists r e', live_after (h_search_event case_t e (mkHR 32 0 make_report) (mkLedger 33 [32; 30; 29; 28; 27; 26; 23; 20; 17; 16; 12; 11; 8; 7; 4; 3; 2])) =
       Some (true, r, e', [44; 32; 30; 29; 28; 27; 17; 16; 12; 11; 8; 7; 4; 3; 2]) /\
       nth 3 (er_event e') None = Some ("sl", VStrList [mkS "p" INVALID_STR])) /\
  (exists e x e', h_make_object case_t (mkLedger 1 []) = Ok (e, mkLedger 3 [2; 1]) /\
     h_make_string_variable "s" "x" (mkLedger 3 [2; 1]) = Ok (x, mkLedger 6 [5; 4; 3; 2; 1]) /\
     h_set_variable e 2 (Some x) (mkLedger 6 [5; 4; 3; 2; 1]) = Ok (e', mkLedger 6 [5; 4; 3; 2; 1]) /\
     h_free_event e' (mkLedger 6 [5; 4; 3; 2; 1]) = Ok (tt, mkLedger 6 []) /\
     exists e2, h_set_variable e' 2 None (mkLedger 6 [5; 4; 3; 2; 1]) = Ok (e2, mkLedger 6 [5; 4; 3; 2; 1]) /\
       h_free_event e2 (mkLedger 6 [5; 4; 3; 2; 1]) = Ok (tt, mkLedger 6 [5; 4; 3])).
Proof.
  split.
  - eexists. split; [vm_compute; reflexivity|]. eexists _, _. split; [vm_compute; reflexivity|]. reflexivity.
  - eexists _, _, _. split; [vm_compute; reflexivity|]. split; [vm_compute; reflexivity|]. split; [vm_compute; reflexivity|].
    split; [vm_compute; reflexivity|]. eexists. split; vm_compute; reflexivity.
Qed.
