(** Valid programs that build event objects, constants and reports end, with the right answers, and give their memory back. *)
From Coq Require Import ZArith NArith Ascii String Bool List Permutation Lia ZifyBool ZifyNat ZifyN.
From Verif Require Import Base Float FloatSpec Value Ast Config Assign Special Match Bound Tree PredMap Source Api EventObj Spec TreeSpec Hist Accept
  Lexer LexSpec Grammar EventText EventGrammar TextApi TextHist TextLink
  Linked LinkedSpec LinkedApi LinkedHeap LinkedRun LinkedFrame BisonTables Machine MachineSpec PropsLinked PropsMachine Check Cases PropsSearch PropsText.
From Verif Require Import Ledger HeapExpr HeapSpec HeapConf HeapConfSpec HeapWorld HeapWorldSpec LedgerProofs HeapWorldProofs PropsHeapWorld.
From Verif Require Import BaseProofs ResProofs HistProofs ObjSpec ObjProofs SplitProofs ProgramSpec ProgramProofs PropsProgram.
From Verif Require Import ObjProgram HeapObj HeapObjSpec PropsHeapObj ObjProgramSpec ObjProgramProofs.
Import ListNotations.
Local Open Scope Z_scope.
Local Open Scope string_scope.
Local Open Scope list_scope.

Section Run.
  Context {G : Geo}.
  Lemma x_snoc n l : forall s rs s1 k a s2, x_run n s l = Ok (rs, s1) -> x_call n s1 k = Ok (a, s2) -> x_run n s (l ++ [k]) = Ok (rs ++ [a], s2).
  Proof.
    induction l as [|k0 l IH]; intros s rs s1 k a s2 R K; cbn [x_run app] in *.
    - injection R as <- <-. rewrite K. reflexivity.
    - destruct (x_call n s k0) as [(a0, s3)| | |]; cbn [bind] in *; try discriminate.
      destruct (x_run n s3 l) as [(r0, s4)| | |] eqn:R1; cbn [bind] in *; try discriminate. injection R as <- <-. rewrite (IH _ _ _ _ _ _ R1 K). reflexivity.
  Qed.
  Lemma x_roomy_snoc n l : forall s rs s1 k a s2, x_run n s l = Ok (rs, s1) -> x_call n s1 k = Ok (a, s2) ->
    x_roomy_run n s l = true -> HeapConfSpec.roomy (p_cfg (fst s2)) = true -> x_roomy_run n s (l ++ [k]) = true.
  Proof.
    induction l as [|k0 l IH]; intros s rs s1 k a s2 R K H1 H2; cbn [x_run x_roomy_run app] in *.
    - injection R as <- <-. rewrite K. rewrite andb_true_r in H1. now rewrite H1, H2.
    - apply andb_prop in H1. destruct H1 as (H0 & H1). rewrite H0.
      destruct (x_call n s k0) as [(a0, s3)| | |]; cbn [bind] in *; try discriminate.
      destruct (x_run n s3 l) as [(r0, s4)| | |] eqn:R1; cbn [bind] in *; try discriminate. injection R as <- <-. cbn. eapply IH; eauto.
  Qed.
  Lemma x_clean_snoc n l : forall s rs s1 k a s2, x_run n s l = Ok (rs, s1) -> x_call n s1 k = Ok (a, s2) ->
    x_clean_run n s l = true -> x_clean n s1 k = true -> x_clean_run n s (l ++ [k]) = true.
  Proof.
    induction l as [|k0 l IH]; intros s rs s1 k a s2 R K H1 H2; cbn [x_run x_clean_run app] in *.
    - injection R as <- <-. now rewrite K, H2.
    - apply andb_prop in H1. destruct H1 as (H0 & H1). rewrite H0.
      destruct (x_call n s k0) as [(a0, s3)| | |]; cbn [bind] in *; try discriminate.
      destruct (x_run n s3 l) as [(r0, s4)| | |] eqn:R1; cbn [bind] in *; try discriminate. injection R as <- <-. cbn. eapply IH; eauto.
  Qed.
  Lemma search_object n q ev ev' r b r' : Forall2 (slot_like (p_cfg q)) ev ev' -> p_query n q (vars ev) r = Ok (b, r') ->
    exists ev2 p, fill_object (p_cfg q) ev (repeat None (List.length (c_domains (p_cfg q)))) = Ok (ev2, p) /\
      p_search_object n q ev' r = Ok (b, r', ev2).
  Proof.
    intros L E. unfold p_query, make_env in E. unfold p_search_object. rewrite (fill_like _ _ _ _ L). rewrite fill_object_env in E.
    destruct (fill_object (p_cfg q) ev _) as [(ev2, p)| | |]; cbn [bind] in *; try discriminate. exists ev2, p. split; [reflexivity|].
    destruct (validate_variables _ p); cbn [negb] in *; [|congruence].
    destruct (p_match n _ p _ _) as [l| | |]; cbn [bind] in *; try discriminate.
    destruct (get_subs _ l) as [su| | |]; cbn [bind] in *; try discriminate.
    destruct (search_loop p _ _ su _ r) as [r2| | |]; cbn [bind] in *; try discriminate. congruence.
  Qed.
  Lemma exists_object n q ev ev' b : Forall2 (slot_like (p_cfg q)) ev ev' -> p_exists n q (vars ev) = Ok b ->
    exists ev2 p, fill_object (p_cfg q) ev (repeat None (List.length (c_domains (p_cfg q)))) = Ok (ev2, p) /\
      p_exists_object n q ev' = Ok (b, ev2).
  Proof.
    intros L E. unfold p_exists, make_env in E. unfold p_exists_object. rewrite (fill_like _ _ _ _ L). rewrite fill_object_env in E.
    destruct (fill_object (p_cfg q) ev _) as [(ev2, p)| | |]; cbn [bind] in *; try discriminate. exists ev2, p. split; [reflexivity|].
    destruct (p_match n _ p _ _) as [l| | |]; cbn [bind] in *; try discriminate.
    destruct (get_subs _ l) as [su| | |]; cbn [bind] in *; try discriminate.
    rewrite E. reflexivity.
  Qed.

  Section Params.
    Variables (W : vocabulary) (cap minpart maxsplit : Z) (ds0 : list domain).
    Hypothesis CAP : to_uint 8 cap <> 0.
    Hypothesis MS : 0 <= maxsplit < SIZE_MAX - 1.

    (** The reports in use hold what was answered. *)
    Definition shown (rs : list reply) (u : list (nat * nat)) (real : list item) : Prop :=
      forall h i, last_use u h = Some i -> (h < List.length real)%nat /\ forall r, nth_error real h = Some (IReport r) -> in_report rs (Some i) r.
    Lemma shown_then rs u real a real' : shown rs u real -> (List.length real <= List.length real')%nat ->
      (forall i r, (i < List.length real)%nat -> nth_error real' i = Some (IReport r) -> nth_error real i = Some (IReport r)) -> shown (rs ++ [a]) u real'.
    Proof.
      intros S LE K h i L. destruct (S h i L) as (LT & H). split; [lia|]. intros r E. destruct (H r (K _ _ LT E)) as (b & B). exists b.
      rewrite nth_error_app1; [exact B|]. apply nth_error_Some. congruence.
    Qed.
    Lemma shown_used rs u real b r h real' : shown rs u real -> List.length real' = List.length real -> nth_error real' h = Some (IReport r) ->
      (forall i r', i <> h -> nth_error real' i = Some (IReport r') -> nth_error real i = Some (IReport r')) ->
      shown (rs ++ [RReport b r]) ((h, List.length rs) :: u) real'.
    Proof.
      intros S LE H K h' i L. cbn [last_use] in L. destruct (Nat.eqb_spec h' h) as [->|NE].
      - injection L as <-. split; [apply nth_error_Some; congruence|]. intros r' E. exists b. rewrite nth_error_app2, Nat.sub_diag by lia. cbn. congruence.
      - destruct (S h' i L) as (LT & F). split; [lia|]. intros r' E. destruct (F r' (K _ _ NE E)) as (b' & B). exists b'.
        rewrite nth_error_app1; [exact B|]. apply nth_error_Some. congruence.
    Qed.
    Lemma unused u h : last_use u h = None -> ~ In h (map fst u).
    Proof.
      induction u as [|(h', i) u IH]; cbn; intros E; [now intros []|]. destruct (Nat.eqb_spec h h') as [->|NE]; [discriminate|]. intros [K|K]; [congruence|now apply IH].
    Qed.
    Lemma report_there rs c its real u o h r : like c its real (map fst u) o -> shown rs u real -> nth_error its h = Some (IReport r) ->
      exists r', nth_error real h = Some (IReport r') /\ in_report rs (last_use u h) r'.
    Proof.
      intros L S E. destruct (like_report _ _ _ _ _ _ _ L E) as (r' & E' & F). exists r'. split; [exact E'|].
      destruct (last_use u h) as [i|] eqn:K; [exact (proj2 (S h i K) r' E')|]. exact (F (unused _ _ K)).
    Qed.
    (** The machine after a valid program: its tree is that of a program of calls on the tree only. *)
    Record xat (l : list xcall) (A : list answer) (c : bool) (v : xview)
      (tl : list tcall) (At : list (reply -> Prop)) (ct : bool) (rt : list reply) (t : betree) (ms : made) (q0 q : pstate) (real : list item) (rs : list reply) : Prop := {
      xs_sound : sound W cap minpart maxsplit ds0 tl At ct (xv_tree v) rt t ms;
      xs_made : p_make_tree cap minpart maxsplit ds0 = Ok q0;
      xs_exact : exact (mkV t (map fst ms)) q;
      xs_like : like (bt_cfg t) (xv_items v) real (map fst (xv_used v)) (xv_stale v);
      xs_shown : shown rs (xv_used v) real;
      xs_count : List.length rs = List.length l;
      xs_ans : answered A rs;
      xs_run : exists N, forall n, (N <= n)%nat ->
        m_run n q0 tl = Ok (rt, q) /\ x_run n (q0, []) l = Ok (rs, (q, real)) /\ x_roomy_run n (q0, []) l = true /\
        (c = true -> x_clean_run n (q0, []) l = true) }.
    Definition xsound l A c v : Prop := exists tl At ct rt t ms q0 q real rs, xat l A c v tl At ct rt t ms q0 q real rs.

    Lemma exact_cfg t ms q : exact (mkV t ms) q -> p_cfg q = bt_cfg t.
    Proof. now intros (T & (E & _) & _). Qed.
    Lemma sound_reach tl At ct p rt t ms : sound W cap minpart maxsplit ds0 tl At ct p rt t ms -> exists pend, reach_in WholeSplits (pv_ds p) t pend (pv_log p).
    Proof. intros SO. destruct (supported_ran _ _ _ _ _ _ _ _ _ _ _ (so_sup _ _ _ _ _ _ _ _ _ _ _ _ SO)) as (TR & _). apply treach_reach in TR. eexists. exact TR. Qed.
    Lemma sound_roomy tl At ct p rt t ms : sound W cap minpart maxsplit ds0 tl At ct p rt t ms -> HeapConfSpec.roomy (bt_cfg t) = true.
    Proof. intros SO. destruct (sound_reach _ _ _ _ _ _ _ SO) as (pend & TR). eapply tidy_roomy; [apply SO|exact TR|apply SO]. Qed.
    Lemma sound_length tl At ct p rt t ms : sound W cap minpart maxsplit ds0 tl At ct p rt t ms ->
      List.length (c_domains (bt_cfg t)) = List.length (pv_ds p).
    Proof.
      intros SO. pose proof (td_wordy _ _ _ _ _ (so_tidy _ _ _ _ _ _ _ _ _ _ _ _ SO)) as [F _ _]. symmetry. exact (ObjProgramProofs.Forall2_length _ _ _ F).
    Qed.

    (** One more call. *)
    Lemma xat_then l A c v tl At ct rt t ms q0 q real rs k a (P : answer) c' v' tl' At' ct' rt' t' ms' q' real' :
      xat l A c v tl At ct rt t ms q0 q real rs ->
      sound W cap minpart maxsplit ds0 tl' At' ct' (xv_tree v') rt' t' ms' -> exact (mkV t' (map fst ms')) q' ->
      like (bt_cfg t') (xv_items v') real' (map fst (xv_used v')) (xv_stale v') -> shown (rs ++ [a]) (xv_used v') real' -> P rs a ->
      (exists N, forall n, (N <= n)%nat -> m_run n q0 tl' = Ok (rt', q') /\ x_call n (q, real) k = Ok (a, (q', real')) /\ (c' = true -> x_clean n (q, real) k = true)) ->
      xsound (l ++ [k]) (A ++ [P]) (c && c') v'.
    Proof.
      intros [SO MK EX LK SH CO AN (N & RN)] SO' EX' LK' SH' PA (N' & RN'). exists tl', At', ct', rt', t', ms', q0, q', real', (rs ++ [a]). split; auto.
      - rewrite !app_length. cbn. lia.
      - now apply one_more.
      - exists (N + N')%nat. intros n LE. destruct (RN n ltac:(lia)) as (R1 & R2 & R3 & R4). destruct (RN' n ltac:(lia)) as (K1 & K2 & K3).
        split; [exact K1|]. split; [exact (x_snoc _ _ _ _ _ _ _ _ R2 K2)|]. split.
        + eapply x_roomy_snoc; eauto. cbn [fst]. rewrite (exact_cfg _ _ _ EX'). eapply sound_roomy; eauto.
        + intros C. apply andb_prop in C. destruct C as (C1 & C2). eapply x_clean_snoc; eauto.
    Qed.

    (** A call on the tree. *)
    Lemma tree_call l A c v tl At ct rt t ms q0 q real rs k (P : reply -> Prop) c' p' :
      xat l A c v tl At ct rt t ms q0 q real rs -> step W (xv_tree v) k P c' p' ->
      exists a t' ms' q', sound W cap minpart maxsplit ds0 (tl ++ [k]) (At ++ [P]) (ct && c') p' (rt ++ [a]) t' ms' /\ P a /\ more (bt_cfg t) (bt_cfg t') /\
        exact (mkV t' (map fst ms')) q' /\
        exists N, forall n, (N <= n)%nat -> m_run n q0 (tl ++ [k]) = Ok (rt ++ [a], q') /\ m_call n q k = Ok (a, q') /\ (c' = true -> clean_call n q k = true).
    Proof.
      intros [SO MK EX LK SH CN AN (N & RN)] ST. destruct (step_sound W cap minpart maxsplit ds0 CAP _ _ _ _ _ _ _ _ _ _ _ SO ST) as (a & t' & ms' & SO' & PA & MO & CL).
      destruct (supported_ran _ _ _ _ _ _ _ _ _ _ _ (so_sup _ _ _ _ _ _ _ _ _ _ _ _ SO')) as (_ & q1 & q' & M1 & (N1 & R1) & X1).
      assert (q1 = q0) as -> by congruence. exists a, t', ms', q'. repeat (split; [assumption|]). exists (N + N1)%nat. intros n LE.
      destruct (RN n ltac:(lia)) as (R2 & _). specialize (R1 n ltac:(lia)). cbv beta in R1. split; [exact R1|].
      destruct (m_snoc_inv _ _ _ _ _ _ _ R1 _ R2) as (a' & C).
      assert (a' = a) as ->.
      { pose proof (m_snoc _ _ _ _ _ _ _ _ R2 C) as E. rewrite R1 in E. injection E as E. apply app_inj_tail in E. destruct E as (_ & E). now rewrite E. }
      split; [exact C|]. intros C'. eapply CL; eauto. now apply exact_cfg in EX.
    Qed.

    (** A search with an object. *)
    Lemma query_runs t ms q ev b r : exact (mkV t ms) q -> betree_search t ev make_report = Ok (b, r) ->
      exists N, forall n, (N <= n)%nat -> p_query n q ev make_report = Ok (b, r).
    Proof.
      intros EX E. destruct (exact_call _ _ (CSearch ev) (RReport b r) (mkV t ms) EX eq_refl) as (q' & (N & R) & _).
      { cbn [v_call LinkedApi.v_tree]. rewrite E. reflexivity. }
      exists N. intros n LE. specialize (R n LE). cbn [p_call] in R. destruct (p_query n q ev make_report) as [(b', r')| | |]; cbn [bind] in R; try discriminate. congruence.
    Qed.
    Lemma exists_runs t ms q ev b : exact (mkV t ms) q -> betree_exists t ev = Ok b -> exists N, forall n, (N <= n)%nat -> p_exists n q ev = Ok b.
    Proof.
      intros EX E. destruct (exact_call _ _ (CExists ev) (RBool b) (mkV t ms) EX eq_refl) as (q' & (N & R) & _).
      { cbn [v_call LinkedApi.v_tree]. rewrite E. reflexivity. }
      exists N. intros n LE. specialize (R n LE). cbn [p_call] in R. destruct (p_exists n q ev) as [b'| | |]; cbn [bind] in R; try discriminate. congruence.
    Qed.
    Lemma like_after c log ds pend t its real u o e ev ev' ev2 p0 p o' : c = bt_cfg t -> reach_in WholeSplits ds t pend log ->
      like c its real u o -> nth_error its e = Some (IEvent ev) -> nth_error real e = Some (IEvent ev') -> ~ In e o ->
      fill_object c ev p0 = Ok (ev2, p) -> stale_after log ev e o o' -> like c its (put real e (IEvent ev2)) u o'.
    Proof.
      intros -> TR L E1 E2 N F ST. rewrite <- (put_same _ _ _ E1).
      assert (L' : like (bt_cfg t) its real u o') by (apply like_weaken with (u := u) (o := o); [exact L|now intros|]; intros x I; destruct ST as [->|(-> & _)]; [now right|exact I]).
      apply like_put; [exact L'|exact (filled_occupied _ _ _ _ _ F)|discriminate|]. intros a b A B NI. injection A as <-. injection B as <-.
      destruct ST as [->|(-> & O)]; [destruct NI; now left|]. eapply filled_like; [exact F|]. eapply new_unknown; eauto.
    Qed.

    Lemma searched rs u real e ev ev2 h r b r2 : shown rs u real -> nth_error real e = Some (IEvent ev) -> nth_error real h = Some (IReport r) ->
      shown (rs ++ [RReport b r2]) ((h, List.length rs) :: u) (put (put real e (IEvent ev2)) h (IReport r2)).
    Proof.
      intros S E H. apply shown_used with (real := real); [exact S|now rewrite !put_len| |].
      - rewrite nth_put, Nat.eqb_refl, nth_put. destruct (Nat.eqb_spec h e) as [->|]; [congruence|]. now rewrite H.
      - intros i r' NE K. rewrite nth_put in K. destruct (Nat.eqb_spec i h); [contradiction|]. rewrite nth_put in K.
        destruct (Nat.eqb_spec i e) as [->|]; [rewrite E in K; discriminate|exact K].
    Qed.
    Lemma xstep_sound l A c v k P c' v' : xsound l A c v -> xstep W (List.length l) v k P c' v' -> xsound (l ++ [k]) (A ++ [P]) (c && c') v'.
    Proof.
      intros (tl & At & ct & rt & t & ms & q0 & q & real & rs & X) ST. pose proof X as [SO MK EX LK SH CN AN (N & RN)].
      pose proof (exact_cfg _ _ _ EX) as EC. destruct (sound_reach _ _ _ _ _ _ _ SO) as (pend & TR).
      destruct ST as [p its u o k P c' p' ST|p its u o k its' OC|p its u o id hs s cs P c' p' CS ST|p its u o id hs s cs P c' p' CS ST
        |p its u o s h r P c' p' HR ST|ds m log nn its u o e h ev r o' HE NE HR EO CO NP SA|ds m log nn its u o e h ev r o' HE NE HR EO CO SA
        |ds m log nn its u o e ev o' HE NE EO CO NP SA]; cbn [xv_tree xv_items xv_used xv_stale pv_ds pv_log pv_nodes] in *.
      - destruct (tree_call _ _ _ _ _ _ _ _ _ _ _ _ _ _ _ _ _ _ X ST) as (a & t' & ms' & q' & SO' & PA & MO & EX' & N' & RN').
        eapply xat_then with (real' := real); eauto; [cbn; eapply like_more; eauto|cbn; now apply shown_then with (real := real)|]. exists N'. intros n LE. destruct (RN' n LE) as (R1 & R2 & R3).
        split; [exact R1|]. split; [|exact R3]. cbn [x_call]. rewrite R2. reflexivity.
      - apply does_call in OC. rewrite <- (sound_length _ _ _ _ _ _ _ SO), <- EC in OC. destruct (o_call_like _ _ _ _ _ _ _ _ LK OC) as (real' & E & LK' & CL).
        eapply xat_then with (a := RNone); eauto; [cbn; apply call_does, does_reports in E; destruct E; now apply shown_then with (real := real)|reflexivity|]. exists N. intros n LE. destruct (RN n LE) as (R1 & _). split; [exact R1|]. cbn [x_call x_clean snd]. rewrite E. split; [reflexivity|].
        now rewrite CL.
      - destruct (tree_call _ _ _ _ _ _ _ _ _ _ _ _ _ _ _ _ _ _ X ST) as (a & t' & ms' & q' & SO' & PA & MO & EX' & N' & RN').
        eapply xat_then with (real' := real); eauto; [cbn; eapply like_more; eauto|cbn; now apply shown_then with (real := real)|]. exists N'. intros n LE. destruct (RN' n LE) as (R1 & R2 & R3).
        split; [exact R1|]. cbn [x_call x_clean snd fst]. rewrite (consts_like _ _ _ _ _ LK _ _ (proj1 (constants_consts _ _ _) CS)). cbn [bind]. rewrite R2. split; [reflexivity|exact R3].
      - destruct (tree_call _ _ _ _ _ _ _ _ _ _ _ _ _ _ _ _ _ _ X ST) as (a & t' & ms' & q' & SO' & PA & MO & EX' & N' & RN').
        eapply xat_then with (real' := real); eauto; [cbn; eapply like_more; eauto|cbn; now apply shown_then with (real := real)|]. exists N'. intros n LE. destruct (RN' n LE) as (R1 & R2 & R3).
        split; [exact R1|]. cbn [x_call x_clean snd fst]. rewrite (consts_like _ _ _ _ _ LK _ _ (proj1 (constants_consts _ _ _) CS)). cbn [bind]. rewrite R2. split; [reflexivity|exact R3].
      - destruct (tree_call _ _ _ _ _ _ _ _ _ _ _ _ _ _ _ _ _ _ X ST) as (a & t' & ms' & q' & SO' & PA & MO & EX' & N' & RN').
        destruct (report_there _ _ _ _ _ _ _ _ LK SH HR) as (r' & HR' & IR).
        assert (K : exists b r1, a = RReport b r1 /\ q' = q /\
          forall n, (N' <= n)%nat -> x_call n (q, real) (XSearch s h) = Ok (RReport b (appended r' r1), (q, put real h (IReport (appended r' r1))))).
        { destruct (RN' N' (le_n _)) as (_ & R & _). cbn [m_call] in R. destruct (event_parse_c s) as [[evt|]| | |] eqn:EV; cbn [bind] in R; try discriminate.
          cbn [p_call] in R. destruct (p_query N' q _ make_report) as [(b, r1)| | |]; cbn [bind] in R; try discriminate. injection R as <- <-. exists b, r1.
          split; [reflexivity|]. split; [reflexivity|]. intros n LE. destruct (RN' n LE) as (_ & R & _). cbn [m_call] in R. rewrite EV in R. cbn [bind p_call] in R.
          cbn [x_call]. unfold report_at, item_at. rewrite HR'. cbn [bind]. rewrite EV. cbn [bind].
          destruct (p_query n q _ make_report) as [(b', r2)| | |] eqn:Q; cbn [bind] in *; try discriminate. injection R as -> ->.
          rewrite (query_added _ _ _ _ _ r' Q). reflexivity. }
        destruct K as (b & r1 & -> & -> & K).
        eapply xat_then with (a := RReport b (appended r' r1)) (real' := put real h (IReport (appended r' r1))); eauto; cbn [xv_items xv_used xv_stale].
        + eapply like_more; [exact MO|]. rewrite <- (put_same _ _ _ HR).
          apply like_put; [apply like_weaken with (u := map fst u) (o := o); [exact LK|now right|now intros]|exact Logic.I|intros r2 _ NI; destruct NI; now left|discriminate].
        + rewrite <- CN. apply shown_used with (real := real); [exact SH|apply put_len|rewrite nth_put, Nat.eqb_refl, HR'; reflexivity|].
          intros i r2 NE E. rewrite nth_put in E. destruct (Nat.eqb_spec i h); [contradiction|exact E].
        + exists r', b, r1. auto.
        + exists N'. intros n LE. destruct (RN' n LE) as (R1 & R2 & R3). split; [exact R1|]. split; [exact (K n LE)|]. intros C. specialize (R3 C).
          cbn [x_clean]. rewrite (K n LE). cbn [clean_call] in R3. now rewrite R2 in R3.
      - pose proof SO as [SU MD VO TD _ _]. cbn [pv_ds pv_log pv_nodes] in *. destruct (like_event _ _ _ _ _ _ _ LK HE) as (ev' & HE' & _ & SL). specialize (SL NE).
        destruct (report_there _ _ _ _ _ _ _ _ LK SH HR) as (r' & HR' & IR). rewrite <- EC in SL.
        destruct (search_good W cap ds t _ log nn TR TD (vars ev) NP EO CO) as (r1 & E & FD).
        destruct (query_runs _ _ _ _ _ _ EX E) as (N1 & Q). pose proof (fun n L => query_added _ _ _ _ _ r' (Q n L)) as QA. clear Q.
        destruct (search_object _ _ _ _ _ _ _ SL (QA N1 (le_n _))) as (ev2 & p & FO & _).
        eapply xat_then with (a := RReport true (appended r' r1)) (real' := put (put real e (IEvent ev2)) h (IReport (appended r' r1))); eauto; cbn [xv_items xv_used xv_stale].
        + rewrite <- (put_same _ _ _ HR).
          assert (LK1 : like (bt_cfg t) its (put real e (IEvent ev2)) (map fst u) o') by (eapply like_after; eauto; rewrite <- EC; exact FO).
          apply like_put; [apply like_weaken with (u := map fst u) (o := o'); [exact LK1|now right|now intros]|exact Logic.I|intros r2 _ NI; destruct NI; now left|discriminate].
        + rewrite <- CN. eapply searched; eauto.
        + exists r', true, r1. auto.
        + exists (N + N1)%nat. intros n LE. destruct (RN n ltac:(lia)) as (R1 & _). split; [exact R1|].
          assert (K : x_call n (q, real) (XSearchEvent e h) = Ok (RReport true (appended r' r1), (q, put (put real e (IEvent ev2)) h (IReport (appended r' r1))))).
          { cbn [x_call]. unfold event_at, report_at, item_at. rewrite HE', HR'. cbn [bind].
            destruct (search_object _ _ _ _ _ _ _ SL (QA n ltac:(lia))) as (ev3 & p3 & FO3 & ->). rewrite FO in FO3. injection FO3 as <- <-. reflexivity. }
          split; [exact K|]. intros _. cbn [x_clean]. now rewrite K.
      - pose proof SO as [SU MD VO TD _ _]. cbn [pv_ds pv_log pv_nodes] in *. destruct (like_event _ _ _ _ _ _ _ LK HE) as (ev' & HE' & _ & SL). specialize (SL NE).
        destruct (report_there _ _ _ _ _ _ _ _ LK SH HR) as (r' & HR' & IR). rewrite <- EC in SL.
        assert (E : betree_search t (vars ev) make_report = Ok (false, make_report)) by (eapply split_refuses; eauto; apply whole_reach; exact TR).
        destruct (query_runs _ _ _ _ _ _ EX E) as (N1 & Q). pose proof (fun n L => query_added _ _ _ _ _ r' (Q n L)) as QA. clear Q.
        destruct (search_object _ _ _ _ _ _ _ SL (QA N1 (le_n _))) as (ev2 & p & FO & _).
        eapply xat_then with (a := RReport false (appended r' make_report)) (real' := put (put real e (IEvent ev2)) h (IReport (appended r' make_report))); eauto; cbn [xv_items xv_used xv_stale].
        + rewrite <- (put_same _ _ _ HR).
          assert (LK1 : like (bt_cfg t) its (put real e (IEvent ev2)) (map fst u) o') by (eapply like_after; eauto; rewrite <- EC; exact FO).
          apply like_put; [apply like_weaken with (u := map fst u) (o := o'); [exact LK1|now right|now intros]|exact Logic.I|intros r2 _ NI; destruct NI; now left|discriminate].
        + rewrite <- CN. eapply searched; eauto.
        + exists r', false, make_report. auto.
        + exists (N + N1)%nat. intros n LE. destruct (RN n ltac:(lia)) as (R1 & _). split; [exact R1|].
          split; [|discriminate]. cbn [x_call]. unfold event_at, report_at, item_at. rewrite HE', HR'. cbn [bind].
          destruct (search_object _ _ _ _ _ _ _ SL (QA n ltac:(lia))) as (ev3 & p3 & FO3 & ->). rewrite FO in FO3. injection FO3 as <- <-. reflexivity.
      - pose proof SO as [SU MD VO TD _ _]. cbn [pv_ds pv_log pv_nodes] in *. destruct (like_event _ _ _ _ _ _ _ LK HE) as (ev' & HE' & _ & SL). specialize (SL NE).
        rewrite <- EC in SL. destruct (exists_good W cap ds t _ log nn TR TD (vars ev) NP EO CO) as (b & E & FD).
        destruct (exists_runs _ _ _ _ _ EX E) as (N1 & Q).
        destruct (exists_object _ _ _ _ _ SL (Q N1 (le_n _))) as (ev2 & p & FO & _).
        eapply xat_then with (a := RBool b) (real' := put real e (IEvent ev2)); eauto; cbn [xv_items xv_used xv_stale].
        + eapply like_after; eauto. rewrite <- EC. exact FO.
        + apply shown_then with (real := real); [exact SH|now rewrite put_len|]. intros i r2 _ E2. rewrite nth_put in E2. destruct (Nat.eqb_spec i e) as [->|]; [rewrite HE' in E2; discriminate|exact E2].
        + exists (N + N1)%nat. intros n LE. destruct (RN n ltac:(lia)) as (R1 & _). split; [exact R1|].
          split; [|reflexivity]. cbn [x_call]. unfold event_at, item_at. rewrite HE'. cbn [bind].
          destruct (exists_object _ _ _ _ _ SL (Q n ltac:(lia))) as (ev3 & p3 & FO3 & ->). rewrite FO in FO3. injection FO3 as <- <-. reflexivity.
    Qed.

    Lemma xprogram_sound l A c v : xprogram W ds0 l A c v -> xsound l A c v.
    Proof.
      induction 1 as [VO|l A c v k a c' v' PR IH ST]; [|exact (xstep_sound _ _ _ _ _ _ _ _ IH ST)].
      destruct (program_sound W cap minpart maxsplit ds0 CAP MS [] [] true _ (p_start W ds0 VO)) as (rs & t & ms & SO).
      destruct (supported_ran _ _ _ _ _ _ _ _ _ _ _ (so_sup _ _ _ _ _ _ _ _ _ _ _ _ SO)) as (_ & q0 & q & M & (N & R) & EX).
      pose proof (R N (le_n _)) as R0. cbn in R0. injection R0 as <- <-.
      exists [], [], true, [], t, ms, q0, q0, [], []. split; auto; cbn.
      - split; [constructor| |]; intros; destruct h || destruct e; discriminate.
      - intros h i E. discriminate E.
      - constructor.
      - exists N. intros n LE. split; [reflexivity|]. split; [reflexivity|]. split; [|reflexivity].
        rewrite (exact_cfg _ _ _ EX), (sound_roomy _ _ _ _ _ _ _ SO). reflexivity.
    Qed.
  End Params.
End Run.

(** A call on objects does what it should, and is undefined behaviour otherwise. *)
Theorem C66_objects nv its k : (forall its', o_call nv its k = Ok its' <-> does nv its k its') /\ ((forall its', ~ does nv its k its') -> o_call nv its k = UB).
Proof.
  split; [split; [apply call_does|apply does_call]|]. intros N.
  assert (K : forall its', o_call nv its k <> Ok its') by (intros its' E; apply (N its'); now apply call_does).
  destruct (o_call_ends nv its k) as [(its' & E)|E]; [now destruct (K its')|exact E].
Qed.
Print Assumptions C66_objects.

Section WithGeo.
Context {G : Geo}.
(** Every call of a valid program ends, with an answer as it should be. *)
Theorem C66_answers W cap minpart maxsplit ds0 l A c v :
  xprogram W ds0 l A c v -> cap mod 256 <> 0 -> 0 <= maxsplit < SIZE_MAX - 1 ->
  exists q0 s rs fuel, p_make_tree cap minpart maxsplit ds0 = Ok q0 /\ answered A rs /\
    forall n, (fuel <= n)%nat -> x_run n (q0, []) l = Ok (rs, s).
Proof.
  intros PR CAP MS. destruct (xprogram_sound W cap minpart maxsplit ds0 CAP MS l A c v PR) as (tl & At & ct & rt & t & ms & q0 & q & real & rs & [SO MK EX LK SH CN AN (N & RN)]).
  exists q0, (q, real), rs, N. split; [exact MK|]. split; [exact AN|]. intros n LE. apply (RN n LE).
Qed.
(** Its memory: nothing is used after its release, nothing is released twice; after betree_free and the release of what the
    caller still has, what is left are the subscriptions that were made and not inserted, and nothing else if no call loses
    memory. *)
Theorem C66_memory W cap minpart maxsplit ds0 l A c v :
  xprogram W ds0 l A c v -> cap mod 256 <> 0 -> 0 <= maxsplit < SIZE_MAX - 1 ->
  exists rs fuel, answered A rs /\ forall n, (fuel <= n)%nat -> forall m r, HeapSpec.holds m r ->
    exists w0 m0 x m1 h us m2 m3 lost,
      w_make cap minpart maxsplit ds0 m = Ok (w0, m0) /\ hx_run n (w0, []) l m0 = Ok ((rs, x), m1) /\
      w_free n (fst x) m1 = Ok ((h, us), m2) /\ release (snd x) m2 = Ok (tt, m3) /\
      HeapSpec.holds m3 (bl_subs us ++ lost ++ r) /\ (c = true -> lost = []) /\
      List.length us = List.length (filter (fun x => negb (fst x)) (pv_made (xv_tree v))).
Proof.
  intros PR CAP MS. destruct (xprogram_sound W cap minpart maxsplit ds0 CAP MS l A c v PR) as (tl & At & ct & rt & t & ms & q0 & q & real & rs & [SO MK EX LK SH CN AN (N & RN)]).
  destruct (C58_free _ _ _ _ _ _ _ _ _ _ _ (so_sup _ _ _ _ _ _ _ _ _ _ _ _ SO)) as (q1 & q2 & h & fuel & E0 & E1 & P).
  assert (q1 = q0) as -> by congruence.
  exists rs, (N + fuel)%nat. split; [exact AN|]. intros n LE m r H. destruct (RN n ltac:(lia)) as (R1 & R2 & R3 & R4). destruct (E1 n ltac:(lia)) as (F1 & F2).
  rewrite R1 in F1. injection F1 as <-.
  destruct (C65_program cap minpart maxsplit ds0 n l rs q0 (q, real) h m r E0 R2 F2 R3 H) as (w0 & m0 & x & m1 & us & m2 & m3 & lost & X0 & _ & _ & X1 & _ & _ & X2 & PD & _ & X3 & H3 & L).
  exists w0, m0, x, m1, h, us, m2, m3, lost. repeat (split; [assumption|]). split; [auto|].
  exact (proj1 (left_made ms us h (pv_made (xv_tree v)) (so_made _ _ _ _ _ _ _ _ _ _ _ _ SO) P PD)).
Qed.
End WithGeo.
Print Assumptions C66_answers.
Print Assumptions C66_memory.

(** Calls on objects one after the other. *)
Fixpoint o_calls (nv : nat) (its : list item) (ks : list ocall) : option (list item) :=
  match ks with
  | [] => Some its
  | k :: t => if o_clean its k then match o_call nv its k with Ok its => o_calls nv its t | _ => None end else None
  end.
Lemma objects_then {G : Geo} W ds0 p u o ks : forall l A c its its', xprogram W ds0 l A c (mkXV p its u o) -> o_calls (List.length (pv_ds p)) its ks = Some its' ->
  xprogram W ds0 (l ++ map XObj ks) (A ++ map (fun _ => alone (eq RNone)) ks) c (mkXV p its' u o).
Proof.
  induction ks as [|k ks IH]; intros l A c its its' P E; cbn [o_calls map] in *; [injection E as <-; now rewrite !app_nil_r|].
  destruct (o_clean its k) eqn:C; [|discriminate]. destruct (o_call _ its k) as [its1| | |] eqn:O; try discriminate.
  eapply x_then in P; [|eapply v_object; apply call_does; exact O]. rewrite C, andb_true_r in P. specialize (IH _ _ _ _ _ P E). now rewrite <- !app_assoc in IH.
Qed.

(** A program with the object of C65: it is searched, a string of it becomes known, it is searched again, with the
    same report; the report and the object are released. *)
Definition xp_words : vocabulary :=
  mkVoc (fun y => if String.eqb y "sl" then ["b"; "q"; "zz"] else if String.eqb y "frequency_caps" then ["ns"] else []) (fun _ => []).
Definition xp_objects : list ocall :=
  flat_map (fun k => match k with XObj k => [k] | _ => [] end) (xc_build ++ map XObj [OSetVar 13 6 1; OSetVar 13 3 3; OSetVar 13 9 6; OSetVar 13 7 9; OSetVar 13 1 10; OSetVar 13 2 11; OSetVar 13 8 12] ++ xc_consts)
  ++ [OReport; OReport].
Definition xp_e1 := mkE 1 [] (XOr (XAtom (AEq QEq "i" (SInt 7))) (XAtom (AList LOneOf "sl" (SStrs ["q"; "b"])))).
Definition xp_e2 := mkE 2 [("campaign_id", VInt 20); ("flight_id", VInt 20); ("advertiser_id", VInt 1)] (XAtom (AFreq "flight" "ns" 10 100)).
Definition xp_e5 := mkE 5 [] (XAtom (AList LOneOf "sl" (SStrs ["zz"]))).
Definition xp_use1 : list xcall :=
  [] ++ [XInsert 2 [14%nat; 15%nat; 16%nat] "within_frequency_cap('flight',""ns"", 10 ,100)"] ++ [XInsert 1 [] "i=7 or sl one of ('q', 'b')"]
  ++ [XSearchEvent 13 17] ++ [XInsert 5 [] "sl one of ('zz')"] ++ [XExistsEvent 13] ++ [XSearch case_event_text 18] ++ [XSearchEvent 13 17].
Definition xp_all := map XObj xp_objects ++ xp_use1 ++ map XObj [OFree 17; OFree 13; OFree 14].
Definition xp_object : evobj := Eval vm_compute in
  match o_calls 12 [] xp_objects with Some its => match nth_error its 13 with Some (IEvent e) => e | _ => [] end | None => [] end.
Definition xp_items : list item := Eval vm_compute in match o_calls 12 [] xp_objects with Some its => its | None => [] end.
Definition xp_left : list item := Eval vm_compute in match o_calls 12 xp_items [OFree 17; OFree 13; OFree 14] with Some its => its | None => [] end.
Definition xp_count : nat := Eval vm_compute in List.length xp_objects.
Definition xp_uses : list (nat * nat) := [(17, xp_count + 6); (18, xp_count + 5); (17, xp_count + 2)]%nat.
Definition xp_as : list answer :=
  map (fun _ => alone (eq RNone)) xp_objects ++
  [alone (eq (RBool true)); alone (eq (RBool true)); added_to None (found case_ds [xp_e2; xp_e1] (vars xp_object)); alone (eq (RBool true));
   alone (exists_answer case_ds [xp_e2; xp_e1; xp_e5] (vars xp_object)); added_to None (found case_ds [xp_e2; xp_e1; xp_e5] case_event);
   added_to (Some (xp_count + 2)%nat) (found case_ds [xp_e2; xp_e1; xp_e5] (vars xp_object))] ++ map (fun _ => alone (eq RNone)) [OFree 17; OFree 13; OFree 14].
Lemma xp_vars : variables_ok xp_words case_ds.
Proof.
  split; [vm_compute; discriminate|]. unfold case_ds.
  repeat (apply Forall_cons; [|]); try apply Forall_nil; (split; [reflexivity|]); (split; [vm_compute; discriminate|]); cbn [d_bound].
  all: try (split; reflexivity).
  all: try (left; vm_compute; reflexivity).
  all: try exact I.
  all: try (unfold tame, SIZE_MAX, INT64_MIN, INT64_MAX in *; intuition lia).
  all: try (split; [first [left; reflexivity|right; left; reflexivity|right; right; reflexivity]|split; [reflexivity|split; [discriminate|reflexivity]]]).
Qed.
Lemma xp_new log : In "b" (log_words log "sl") -> one_new log xp_object.
Proof.
  intros K n l s s' I Is Is' U U'. unfold xp_object in I. cbn in I. repeat (destruct I as [I|I]; [discriminate I||injection I as <- <-|]); try contradiction.
  cbn in Is, Is'. repeat (destruct Is as [<-|Is]; [|]); repeat (destruct Is' as [<-|Is']; [|]); try contradiction; try reflexivity; cbn [sv_string] in *; contradiction.
Qed.
Ltac then_x S id hs s x := eapply x_then in S; [|apply (v_insert xp_words _ _ _ _ _ id hs s (e_cs x)); [apply constants_consts; reflexivity|apply (k_insert xp_words _ _ _ _ _ _ _ (e_src x)); [readable|read|fact|speak|no_twice|given|new_id]]].
Lemma xp_1 : xprogram xp_words case_ds xp_all xp_as true (mkXV (mkPV case_ds [] [xp_e2; xp_e1; xp_e5] 5) xp_left xp_uses []).
Proof.
  pose proof (x_begin xp_words case_ds xp_vars) as P.
  pose proof (objects_then _ _ _ _ _ xp_objects _ _ _ _ xp_items P ltac:(vm_compute; reflexivity)) as Q. clear P. rename Q into P.
  then_x P 2 [14%nat; 15%nat; 16%nat] "within_frequency_cap('flight',""ns"", 10 ,100)" xp_e2.
  then_x P 1 ([] : list nat) "i=7 or sl one of ('q', 'b')" xp_e1.
  eapply x_then in P; [|eapply (v_search_event xp_words _ _ _ _ _ _ _ _ 13 17 xp_object); [reflexivity|intros []|reflexivity|fact|fact|vm_compute; discriminate|
    right; split; [reflexivity|apply xp_new; vm_compute; tauto]]].
  then_x P 5 ([] : list nat) "sl one of ('zz')" xp_e5.
  eapply x_then in P; [|eapply (v_exists_event xp_words _ _ _ _ _ _ _ _ 13 xp_object); [reflexivity|intros []|fact|fact|vm_compute; discriminate|
    right; split; [reflexivity|apply xp_new; vm_compute; tauto]]].
  eapply x_then in P; [|eapply (v_search xp_words _ _ _ _ _ case_event_text 18); [reflexivity|
    apply (k_search xp_words _ _ _ _ case_event_text case_event); [vm_compute; reflexivity|event|fact|fact|vm_compute; discriminate]]].
  eapply x_then in P; [|eapply (v_search_event xp_words _ _ _ _ _ _ _ _ 13 17 xp_object); [reflexivity|intros []|reflexivity|fact|fact|vm_compute; discriminate|
    right; split; [reflexivity|apply xp_new; vm_compute; tauto]]].
  pose proof (objects_then _ _ _ _ _ [OFree 17; OFree 13; OFree 14] _ _ _ _ xp_left P ltac:(vm_compute; reflexivity)) as Q. exact Q.
Qed.
Ltac fair_x := apply Forall_forall; intros e I; repeat (destruct I as [<-|I];
  [split; [apply short_ok_b_ok; vm_compute; reflexivity|split; [apply range_ok_b_ok; vm_compute; reflexivity|apply clear_b_ok; vm_compute; reflexivity]]|]); destruct I.
Example C66_case :
  xprogram xp_words case_ds xp_all xp_as true (mkXV (mkPV case_ds [] [xp_e2; xp_e1; xp_e5] 5) xp_left xp_uses []) /\
  Forall (fair_in case_ds (vars xp_object)) [xp_e2; xp_e1; xp_e5] /\
  hits (vars xp_object) [xp_e2; xp_e1] = [2; 1] /\ hits (vars xp_object) [xp_e2; xp_e1; xp_e5] = [2; 1; 5] /\
  x_answers xp_all = [(true, []); (true, []); (true, [2; 1]); (true, []); (true, []); (true, [2]); (true, [2; 1; 2; 1; 5])] /\
  x_counts xp_all = Some [29; 77; 7; 0]%nat.
Proof.
  split; [exact xp_1|]. split; [fair_x|]. repeat split; vm_compute; reflexivity.
Qed.
