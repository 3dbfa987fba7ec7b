(** The generated parsers with memory do what they do without it, and what they leave allocated is on their stack. *)
From Coq Require Import ZArith NArith String Bool List Lia Permutation.
From Verif Require Import Base Flex Bison BisonProofs Ledger HeapExpr HeapSpec PermTac LedgerProofs.
Import ListNotations.
Local Open Scope Z_scope.
Local Open Scope list_scope.

Lemma edge_ok P nstates sos preds q x q' : edge P nstates sos preds q x q' = true ->
  0 <= q' < Z.of_nat nstates /\ stos sos q' = x /\ In q (nthz preds q' []) /\ q' <> 0 /\ q' <> p_final P.
Proof.
  unfold edge. intros H. rewrite !andb_true_iff in H. destruct H as (((((H1 & H2) & H3) & H4) & H5) & H6).
  apply has_in in H4. split; [lia|]. split; [lia|]. split; [exact H4|]. lia.
Qed.

Section Parser.
Context {K V R V' R' : Type}.
Variables (P : ptables) (code : K -> Z).
Variables (yylval : K -> V) (garbage : V) (act : Z -> list V -> result (V * option R)).
Variables (scan : K -> cmd V') (garbage' : V') (act' : Z -> list V' -> cmd (V' * option R')).
Hypothesis sym_ok : forall t, at_ (p_translate P) (code t) = Ok (sym P code t) /\ 1 <= sym P code t < p_ntokens P.
Variables (nstates : nat) (sos : list Z) (preds : list (list Z)) (rhs : list (list Z)) (weights : list Z) (prog qprog C : Z).
Hypothesis checked : sound_check P nstates sos preds rhs weights prog qprog C = true.
Variable Spec : Z -> list K -> V -> Prop.
Variable Goal : list K -> R -> Prop.
Notation stos := (stos sos).
Notation right := (right rhs).
Notation edge := (edge P nstates sos preds).
Notation stk := (stk P nstates sos preds Spec).
Hypothesis spec_token : forall t, Spec (sym P code t) [t] (yylval t).
Hypothesis spec_rule : forall k x w vs, at_ (p_r1 P) k = Ok x -> specs Spec (right k) w vs -> 2 <= k ->
  exists v o, act k vs = Ok (v, o) /\ Spec x w v /\ (x = prog -> exists r, o = Some r /\ Goal w r).

(** The value with pointers is like the value without, and has these blocks. *)
Variables (like : V' -> V -> Prop) (likeR : R' -> R -> Prop) (own : V' -> list Z) (ownR : R' -> list Z).
(** Tokens and values that are followed: a value made of one that is followed is followed. *)
Variables (heavy : K -> Prop) (hv : V' -> Prop) (hvR : R' -> Prop).
Hypothesis garbage_ok : like garbage' garbage /\ own garbage' = [].
Hypothesis scan_ok : forall t m l, holds m l ->
  wp (scan t) m (fun v m' => (like v (yylval t) /\ (heavy t -> hv v)) /\ holds m' (own v ++ l)).
Hypothesis act_ok : forall k x w vs vs' m l, at_ (p_r1 P) k = Ok x -> specs Spec (right k) w vs -> 2 <= k ->
  Forall2 like vs' vs -> holds m (flat_map own vs' ++ l) ->
  wp (act' k vs') m (fun vo m' => exists v o, act k vs = Ok (v, o) /\ like (fst vo) v /\
    if x =? prog then exists r r', o = Some r /\ snd vo = Some r' /\ likeR r' r /\
      (Exists hv vs' -> hvR r') /\ holds m' (ownR r' ++ l)
    else o = None /\ snd vo = None /\ (Exists hv vs' -> hv (fst vo)) /\ holds m' (own (fst vo) ++ l)).
Hypothesis no_prog : forall k x, at_ (p_r1 P) k = Ok x -> 2 <= k -> ~ In prog (right k).
Hypothesis prog_only : forall q, 0 <= q < Z.of_nat nstates -> stos q = prog -> q = qprog.
Hypothesis prog_end : forall t, 0 <= t < p_ntokens P ->
  move_of P qprog (Ok t) = Ok Error \/ t = 0 /\ move_of P qprog (Ok t) = Ok (Shift (p_final P)).
Hypothesis prog_low : forall q, 0 <= q < p_ntokens P -> q <> prog.
Hypothesis err_reads : forall q p, 0 <= q < Z.of_nat nstates -> at_ (p_pact P) q = Ok p -> p = p_ninf P -> at_ (p_defact P) q <> Ok 0.

(** An entry for the start symbol holds a copy of the pointer in *root. *)
Definition own_entry (e : Z * V') : list Z := if stos (fst e) =? prog then [] else own (snd e).
Definition own_stack (st : list (Z * V')) : list Z := flat_map own_entry st.
Definition own_opt (o : option V') : list Z := match o with Some v => own v | None => [] end.
Definition own_root (o : option R') : list Z := match o with Some r => ownR r | None => [] end.
Definition hv_entry (e : Z * V') : Prop := stos (fst e) <> prog /\ hv (snd e).
Definition hv_opt (o : option V') : Prop := match o with Some v => hv v | None => False end.
Definition hv_root (o : option R') : Prop := match o with Some r => hvR r | None => False end.
Definition like_entry (e' : Z * V') (e : Z * V) : Prop := fst e' = fst e /\ like (snd e') (snd e).

(** The tokens that were read when the parser stops before ts: a token is refused after it is read. *)
Definition fetched (ts : list K) (o : outcome (R := R')) : list K := match o with Rejected => firstn 1 ts | _ => [] end.
(** The values on the stack are those of the model without memory. *)
Record same (st' : list (Z * V')) (la : option V') (r' : option R') (st : list (Z * V)) (ts : list K) (r : option R) (w : list K) : Prop := {
  s_stk : stk st w;
  s_stack : Forall2 like_entry st' st;
  s_la : match la with Some v => exists t ts0, ts = t :: ts0 /\ like v (yylval t) /\ (heavy t -> hv v) | None => True end;
  s_root : match r', r with None, None => True | Some a, Some b => likeR a b | _, _ => False end;
  s_top : r' <> None <-> exists v st0, st = (qprog, v) :: st0;
  s_bot : List.last st' (0, garbage') = (0, garbage');
  s_heavy : Exists heavy w -> Exists hv_entry st' \/ hv_root r' }.

Lemma like_pop n : forall st' st acc' acc vs st1, Forall2 like_entry st' st -> Forall2 like acc' acc ->
  pop n st acc = Ok (vs, st1) ->
  exists vs' st1', pop n st' acc' = Ok (vs', st1') /\ Forall2 like vs' vs /\ Forall2 like_entry st1' st1.
Proof.
  clear - n. induction n as [|n IH]; intros st' st acc' acc vs st1 S A E; cbn [pop] in *.
  - injection E as <- <-. now exists acc', st'.
  - destruct S as [|e' e st' st (Q & L) S]; [discriminate E|]. destruct e as [q v], e' as [q' v']. cbn in *.
    apply IH with (st' := st') (acc' := v' :: acc') in E; [exact E|exact S|now constructor].
Qed.
(** The popped entries are owned. *)
Lemma own_pop rs : forall st' st fr os w q v st0 acc', Forall2 like_entry st' st -> st = (q, v) :: st0 -> stk st w -> In q fr ->
  back sos preds rs fr = Some os -> ~ In prog rs ->
  forall vs' st1', pop (List.length rs) st' acc' = Ok (vs', st1') ->
  exists us, vs' = us ++ acc' /\ Permutation (own_stack st') (flat_map own us ++ own_stack st1') /\
    (Exists hv_entry st' -> Exists hv us \/ Exists hv_entry st1').
Proof.
  induction rs as [|y rs IH]; intros st' st fr os w q v st0 acc' S -> T I B N vs' st1' E.
  - cbn in E. injection E as <- <-. exists []. split; [reflexivity|]. split; [reflexivity|]. now right.
  - cbn [back] in B. destruct (forallb _ fr) eqn:F; [|discriminate B].
    rewrite forallb_forall in F. specialize (F q I). rewrite andb_true_iff, negb_true_iff in F. destruct F as (F1 & F2).
    apply Z.eqb_eq in F1. apply Z.eqb_neq in F2.
    inversion T as [v0 Ev Ew|p pv st1 w1 q' v' w' S1 E1 X]; subst; [easy|].
    pose proof E1 as E1'. apply edge_ok in E1'. destruct E1' as (_ & _ & Ip & _).
    inversion S as [|e' e st2' st2 (Q & L) S2]; subst. destruct e' as [q' v'']. cbn in Q. subst q'.
    cbn [List.length pop] in E. cbn [In] in N.
    destruct (IH st2' ((p, pv) :: st1) (flat_map (fun q => nthz preds q []) fr) os w1 p pv st1 (v'' :: acc') S2 eq_refl S1
      ltac:(apply in_flat_map; exists q; easy) B ltac:(intros J; apply N; now right) vs' st1' E) as (us & -> & Pm & Hs).
    exists (us ++ [v'']). split; [now rewrite <- app_assoc|]. split; [|
      intros Y; apply Exists_cons in Y; destruct Y as [(_ & Xv)|Xs]; [left; apply Exists_app; right; constructor; exact Xv|];
      destruct (Hs Xs) as [Y|Y]; [left; apply Exists_app; now left|now right]].
    rewrite flat_map_app. cbn [flat_map].
    unfold own_stack at 1. cbn [flat_map]. fold (own_stack st2'). rewrite Pm. unfold own_entry at 1. cbn [fst snd].
    rewrite (proj2 (Z.eqb_neq _ prog)); [rewrite app_nil_r; perm|]. intros J. apply N. now left.
Qed.
Lemma stk_low q v st w : stk ((q, v) :: st) w -> 0 <= q < Z.of_nat nstates /\ q <> p_final P.
Proof. apply (stk_top P act nstates sos preds rhs weights prog qprog C checked Spec Goal spec_rule). Qed.

(** One round. *)
Definition leaks (lb : left_behind (K := K)) : list Z := own_stack (lb_stack lb) ++ own_opt (lb_la lb) ++ own_root (lb_root lb).
Definition kept (lb : left_behind (K := K)) : Prop := Exists hv_entry (lb_stack lb) \/ hv_opt (lb_la lb) \/ hv_root (lb_root lb).
(** The stack the parser stops with; the state on top reads a token before it refuses. *)
Definition stuck (lb : left_behind (K := K) (V := V') (R := R')) : Prop :=
  exists st w, stk st w /\ Forall2 like_entry (lb_stack lb) st /\ List.last (lb_stack lb) (0, garbage') = (0, garbage') /\
    (forall v, lb_la lb = Some v -> exists t, like v (yylval t)) /\
    (lb_out lb = Rejected -> forall q v st0, st = (q, v) :: st0 -> at_ (p_pact P) q <> Ok (p_ninf P)).
Lemma step_like st' la r' st ts r w m l : same st' la r' st ts r w -> holds m (own_stack st' ++ own_opt la ++ own_root r' ++ l) ->
  wp (h_step P code scan garbage' act' st' la ts r') m (fun x m' =>
    match x with
    | inl lb => (exists o, step P code yylval garbage act st ts r = Ok (inl o) /\
          (lb_out lb = Rejected /\ o = Rejected \/ lb_out lb = Exhausted /\ o = Exhausted)) /\
        lb_rest lb = ts /\ (Exists heavy (w ++ fetched ts (lb_out lb)) -> kept lb) /\ stuck lb /\ holds m' (leaks lb ++ l)
    | inr (st1', la1, ts1, r1') => exists st1 r1, step P code yylval garbage act st ts r = Ok (inr (st1, ts1, r1)) /\
        ((exists w1, same st1' la1 r1' st1 ts1 r1 w1 /\ w1 ++ ts1 = w ++ ts /\ holds m' (own_stack st1' ++ own_opt la1 ++ own_root r1' ++ l)) \/
         (exists a b v v1 v2 v3, r1' = Some a /\ r1 = Some b /\ likeR a b /\ ts1 = [] /\ la1 = None /\
           st1 = [(p_final P, garbage); (qprog, v); (0, v1)] /\ st1' = [(p_final P, garbage'); (qprog, v2); (0, v3)] /\
           holds m' (own_root r1' ++ l)))
    end).
Proof.
  intros [Sk Ss Sl Sr St Sb Sh] H.
  destruct st as [|[q v] st]; [inversion Sk|]. inversion Ss as [|[q0 v'] e st1' st1 (Q & Lv) Ss1]; subst. cbn in Q. subst q0.
  destruct (stk_low _ _ _ _ Sk) as (Bq & Nf).
  pose proof checked as CH. unfold sound_check in CH. rewrite !andb_true_iff in CH.
  destruct CH as (((((((((Ms & Pq) & Sq) & Np) & _) & N1) & _) & Q0) & Ws) & _).
  apply Z.leb_le in N1.
  assert (Len : List.length st1' = List.length st) by (clear - Ss1; induction Ss1; cbn; congruence).
  unfold h_step, step. cbn [List.length]. rewrite Len.
  destruct (YYMAXDEPTH <=? _).
  { lstep. split; [exists Exhausted; split; [reflexivity|now right]|]. split; [reflexivity|]. unfold leaks. cbn [lb_stack lb_la lb_root].
    split; [|split; [|eapply holds_perm; [exact H|perm]]].
    - intros X. apply Exists_app in X. destruct X as [X|X]; [|inversion X].
      unfold kept. cbn [lb_stack lb_la lb_root]. destruct (Sh X); [now left|now right; right].
    - exists ((q, v) :: st), w. split; [exact Sk|]. split; [exact Ss|]. split; [exact Sb|]. split; [cbn [lb_la]; intros u ->; destruct Sl as (t0 & _ & _ & Lu & _); now exists t0|]. cbn [lb_out]. discriminate. }
  rewrite (proj2 (Z.eqb_neq _ _) Nf).
  assert (L : exists t, lookahead P code ts = Ok t /\ 0 <= t < p_ntokens P /\ (t = 0 <-> ts = []) /\
              (forall a ts', ts = a :: ts' -> t = sym P code a)).
  { unfold lookahead. destruct ts as [|a ts'].
    - exists 0. split; [reflexivity|]. split; [lia|split; [easy|intros a ts' E; discriminate E]].
    - destruct (sym_ok a) as (E & B). exists (sym P code a). split; [exact E|]. split; [lia|].
      split; [split; [lia|intros E'; discriminate E']|]. intros b ts'' E'. injection E' as -> ->. reflexivity. }
  destruct L as (t & EL & Bt & T0 & Ts). rewrite EL.
  rewrite forallb_forall in Ms. specialize (Ms q (in_range _ _ Bq)).
  rewrite (proj2 (Z.eqb_neq _ _) Nf) in Ms. cbn [orb] in Ms.
  rewrite forallb_forall in Ms. specialize (Ms t ltac:(apply in_range; lia)).
  unfold move_ok in Ms. destruct (move_of P q (Ok t)) as [mv| | |] eqn:M; try discriminate Ms.
  (* the token is read *)
  assert (Er : mv = Error -> at_ (p_pact P) q <> Ok (p_ninf P)).
  { intros -> Ep. unfold move_of in M. rewrite Ep in M. cbn [bind] in M. rewrite Z.eqb_refl in M. unfold yydefault in M.
    pose proof (err_reads q _ Bq Ep eq_refl) as D.
    destruct (at_ (p_defact P) q) as [k| | |]; try discriminate M. cbn [bind] in M. destruct (Z.eqb_spec k 0) as [K0|K0].
    - apply D. now rewrite K0.
    - discriminate M. }
  assert (Fe : wp (fetch P scan q la ts) m (fun la1 m1 =>
    (match la1 with Some v => exists t ts0, ts = t :: ts0 /\ like v (yylval t) /\ (heavy t -> hv v) | None => True end) /\
    ((exists q', mv = Shift q') \/ mv = Error -> ts <> [] -> la1 <> None) /\
    holds m1 (own_stack ((q, v') :: st1') ++ own_opt la1 ++ own_root r' ++ l))).
  { unfold fetch. lstep.
    assert (exists p, at_ (p_pact P) q = Ok p /\ (p = p_ninf P -> exists k, mv = Reduce k)) as (p & Ep & Np').
    { unfold move_of in M. destruct (at_ (p_pact P) q) as [p| | |] eqn:Ep; try discriminate M. exists p. split; [reflexivity|].
      intros E. cbn [bind] in M. rewrite (proj2 (Z.eqb_eq _ _) E) in M. unfold yydefault in M. pose proof (err_reads q p Bq Ep E) as D.
      destruct (at_ (p_defact P) q) as [k| | |]; try discriminate M. cbn [bind] in M. destruct (Z.eqb_spec k 0) as [K0|K0].
      - exfalso. apply D. now rewrite K0.
      - exists k. congruence. }
    eapply wp_fail; [exact Ep|]. destruct (Z.eqb_spec p (p_ninf P)) as [E|E].
    { lstep. split; [exact Sl|]. split; [|exact H]. destruct (Np' E) as (k & ->). intros [(q' & E')|E']; discriminate E'. }
    destruct la as [u|].
    { lstep. split; [exact Sl|]. split; [|exact H]. easy. }
    destruct ts as [|a ts].
    { lstep. split; [exact I|]. split; [|exact H]. easy. }
    lstep. eapply wp_mono; [exact (scan_ok a m _ H)|]. intros u m1 ((Lu & Hu) & H1). lstep.
    split; [exists a, ts; split; [reflexivity|now split]|]. split; [easy|]. cbn [own_opt] in *. eapply holds_perm; [exact H1|perm]. }
  lstep. eapply wp_mono; [exact Fe|]. clear Fe H Sl. intros la1 m1 (Sl & Sf & H).
  lstep. eapply wp_fail; [reflexivity|]. cbn [bind].
  destruct mv as [q'|k|].
  - destruct (t =? 0) eqn:Et.
    + (* the end *)
      apply Z.eqb_eq in Et. rewrite andb_true_iff in Ms. destruct Ms as (M1 & M2).
      apply Z.eqb_eq in M1, M2. subst q' q. pose proof (proj1 T0 Et) as ->. lstep.
      eexists _, _. split; [reflexivity|]. right.
      assert (Rn : r' <> None) by (apply St; now exists v, st).
      destruct r' as [a|]; [|easy]. destruct r as [b|]; [|contradiction].
      assert (B0 : exists v1, st = [(0, v1)]).
      { inversion Sk as [v0 Ev Ew|p pv st2 w1 q' v0 w' S1 E1 X]; subst.
        - discriminate Q0.
        - apply edge_ok in E1. destruct E1 as (_ & _ & Ip & _). rewrite forallb_forall in Pq. specialize (Pq p Ip).
          apply Z.eqb_eq in Pq. subst p. inversion S1 as [v1 Ev Ew1|a1 b1 c1 d1 e1 f1 g1 H1 H2 H3]; subst; [now exists pv|].
          exfalso. apply edge_ok in H2. now apply H2. }
      destruct B0 as (v1 & ->). inversion Ss1 as [|[z v3] e st2' st2 (Qz & Lz) Ss2]; subst. inversion Ss2; subst. cbn in Qz. subst z.
      exists a, b, v, v1, v', v3. split; [reflexivity|]. split; [reflexivity|]. split; [exact Sr|]. split; [reflexivity|].
      split; [reflexivity|]. split; [reflexivity|]. split; [reflexivity|].
      assert (la1 = None) as -> by (destruct la1 as [u|]; [destruct Sl as (? & ? & E & _); discriminate E|reflexivity]).
      cbn [List.last] in Sb. injection Sb as ->. eapply holds_perm; [exact H|].
      unfold own_stack, own_entry. cbn [flat_map fst snd]. rewrite (proj2 garbage_ok), Sq.
      destruct (stos 0 =? prog); cbn [app own_opt]; perm.
    + (* a token is shifted *)
      apply Z.eqb_neq in Et. destruct ts as [|a ts]; [exfalso; apply Et, T0; reflexivity|].
      pose proof (Ts _ _ eq_refl) as ->. pose proof Ms as Me. apply edge_ok in Me. destruct Me as (_ & Es & _).
      destruct la1 as [u|]; [|exfalso; now apply (Sf (or_introl (ex_intro _ q' eq_refl)))]. destruct Sl as (a' & ts0 & E & Lu & Hu). injection E as <- <-.
      assert (Npr : stos q' <> prog) by (rewrite Es; apply prog_low; destruct (sym_ok a); lia).
      assert (Nqp : q <> qprog).
      { intros ->. destruct (prog_end _ Bt) as [E|(E & E')]; [rewrite E in M; discriminate M|now rewrite E in Et]. }
      assert (Rn : r' = None).
      { destruct r' as [a'|]; [|reflexivity]. exfalso. destruct (proj1 St ltac:(discriminate)) as (v0 & st0 & E). injection E as E _ _. now apply Nqp. }
      lstep. eexists _, _. split; [reflexivity|]. left. exists (w ++ [a]). split; [|split; [now rewrite <- app_assoc|]].
      * constructor.
        -- apply stk1; [exact Sk|rewrite Es; exact Ms|rewrite Es; apply spec_token].
        -- constructor; [split; [reflexivity|exact Lu]|exact Ss].
        -- exact I.
        -- exact Sr.
        -- subst r'. split; [easy|]. intros (v0 & st0 & E). injection E as E _ _. exfalso. subst q'. apply Npr. now apply Z.eqb_eq.
        -- exact Sb.
        -- intros X. apply Exists_app in X. destruct X as [X|X].
           ++ destruct (Sh X) as [Y|Y]; [left; now right|now right].
           ++ inversion X as [? ? Ht|? ? Ht]; [|inversion Ht]; subst. left. left. split; [exact Npr|exact (Hu Ht)].
      * eapply holds_perm; [exact H|]. unfold own_stack. cbn [flat_map own_opt]. unfold own_entry at 3. cbn [fst snd].
        rewrite (proj2 (Z.eqb_neq _ _) Npr). perm.
  - (* a rule is reduced *)
    unfold reduce_ok in Ms. destruct (at_ (p_r2 P) k) as [n| | |] eqn:E2; try discriminate Ms.
    destruct (at_ (p_r1 P) k) as [x| | |] eqn:E1; try discriminate Ms.
    destruct (back sos preds (rev (right k)) [q]) as [os|] eqn:B; [|discriminate Ms].
    rewrite !andb_true_iff in Ms. destruct Ms as (((Mn & Mw) & Mk) & Mo). apply Nat.eqb_eq in Mn. apply Z.leb_le in Mk.
    pose proof (pop_back P act nstates sos preds rhs weights prog qprog C checked Spec Goal spec_rule _ [q] _ _ _ _ _ _ eq_refl Sk (or_introl eq_refl) B []) as
      (p & v1 & st2 & vs & w1 & ws & Ep & S' & Ip & Sp & Ew & _).
    rewrite rev_involutive in Sp. rewrite rev_length in Ep. rewrite app_nil_r in Ep.
    destruct (like_pop _ ((q, v') :: st1') ((q, v) :: st) [] [] vs _ Ss ltac:(constructor) Ep) as (vs' & st2' & Ep' & Lvs & Lst).
    pose proof (no_prog k x E1 Mk) as Nr.
    destruct (own_pop (rev (right k)) _ _ [q] _ _ _ _ _ [] Ss eq_refl Sk (or_introl eq_refl) B ltac:(rewrite <- in_rev; exact Nr) vs' st2'
      ltac:(rewrite rev_length; exact Ep')) as (us & Eu & Pm & Hs). rewrite app_nil_r in Eu. subst us.
    rewrite forallb_forall in Mo. specialize (Mo p Ip).
    destruct (goto_of P p x) as [q'| | |] eqn:Eg; try discriminate Mo.
    pose proof Mo as Me. apply edge_ok in Me. destruct Me as (Bq' & Es & Ipq & _).
    destruct (spec_rule k x ws vs E1 Sp ltac:(lia)) as (u0 & o0 & Ea0 & Xu & _).
    assert (Nqp : q <> qprog).
    { intros ->. destruct (prog_end _ Bt) as [E|(_ & E)]; rewrite E in M; discriminate M. }
    assert (Rn : r' = None).
    { destruct r' as [a'|]; [|reflexivity]. exfalso. destruct (proj1 St ltac:(discriminate)) as (v0 & st0 & E). injection E as E _ _. now apply Nqp. }
    subst r'. destruct r as [b|]; [contradiction|].
    assert (Bt2 : List.last st2' (0, garbage') = (0, garbage')).
    { assert (Sp2 : forall n st acc vs st1, pop (V := V') n st acc = Ok (vs, st1) -> exists l, st = l ++ st1).
      { clear. induction n as [|n IH]; intros st acc vs st1 E; cbn [pop] in E.
        - injection E as <- <-. now exists [].
        - destruct st as [|[q v] st]; [discriminate E|]. destruct (IH _ _ _ _ E) as (l & ->). now exists ((q, v) :: l). }
      destruct (Sp2 _ _ _ _ _ Ep') as (l0 & El). rewrite El in Sb.
      inversion Lst as [|e1 e2 s1 s2 Le Ls]; subst. 
      clear - Sb. revert Sb. generalize (e1 :: s1) as s, (0, garbage') as d. intros s d.
      destruct s as [|e s]; [easy|]. intros Sb. rewrite <- Sb at 2. clear Sb.
      induction l0 as [|e0 l0 IH]; [reflexivity|]. cbn [app]. rewrite IH. cbn [List.last].
      destruct (l0 ++ e :: s) eqn:E; [destruct l0; discriminate E|reflexivity]. }
    unfold h_reduce. unfold reduce. rewrite E2. cbn [bind]. rewrite Mn, Ep. cbn [bind]. rewrite Ea0. cbn [bind]. rewrite E1. cbn [bind].
    rewrite Eg. cbn [bind].
    lstep. lstep. eapply wp_fail; [first [exact E2|reflexivity]|]. lstep. eapply wp_fail; [first [exact Ep'|rewrite Mn; exact Ep']|]. cbv beta iota.  lstep.
    eapply wp_mono; [apply (act_ok k x ws vs vs' m1 (own_stack st2' ++ own_opt la1 ++ l) E1 Sp Mk Lvs);
      eapply holds_perm; [exact H|rewrite Pm; cbn [own_root]; perm]|].
    intros [u o'] m2 (u1 & o1 & Ea & Lu & Hp). cbn [fst snd] in *. rewrite Ea0 in Ea. injection Ea as <- <-.
    lstep. eapply wp_fail; [first [exact E1|reflexivity]|].
    destruct st2' as [|[p' v2] s1]; [inversion Lst|].
    assert (p' = p) as -> by (clear - Lst; inversion Lst as [|? ? ? ? (Qp & _) _]; exact Qp).
    lstep. eapply wp_fail; [first [exact Eg|reflexivity]|]. lstep. lstep.
    eexists _, _. split; [reflexivity|]. left. exists (w1 ++ ws). split; [|split; [congruence|]].
    + constructor.
      * apply stk1; [exact S'|rewrite Es; exact Mo|rewrite Es; exact Xu].
      * constructor; [split; [reflexivity|exact Lu]|exact Lst].
      * exact Sl.
      * destruct (x =? prog); [destruct Hp as (r & r' & -> & -> & Lr & _); exact Lr|]. destruct Hp as (-> & -> & _). exact I.
      * destruct (Z.eqb_spec x prog) as [Ex|Nx].
        -- destruct Hp as (r & r' & -> & -> & Lr & _). split; [|discriminate]. intros _. exists u0, ((p, v1) :: st2).
           f_equal. f_equal. apply prog_only; [exact Bq'|congruence].
        -- destruct Hp as (-> & -> & _). split; [easy|]. intros (v0 & st0 & E). injection E as E _ _. exfalso. apply Nx. rewrite <- Es, E.
           now apply Z.eqb_eq.
      * exact Bt2.
      * intros X. rewrite Ew in X. destruct (Sh X) as [Y|Y]; [|contradiction].
        destruct (Hs Y) as [Z0|Z0]; [|left; now right].
        destruct (Z.eqb_spec x prog) as [Ex|Nx].
        -- destruct Hp as (r & r' & -> & -> & _ & Hn & _). right. exact (Hn Z0).
        -- destruct Hp as (-> & -> & Hn & _). left. left. split; [cbn [fst]; congruence|exact (Hn Z0)].
    + unfold own_stack at 1. cbn [flat_map]. unfold own_entry at 1. cbn [fst snd]. rewrite Es. fold (own_stack ((p, v2) :: s1)).
      destruct (x =? prog).
      * destruct Hp as (r & r' & -> & -> & _ & _ & H2). cbn [app own_root]. eapply holds_perm; [exact H2|].
        change (own_entry (p, v2) ++ flat_map own_entry s1) with (own_stack ((p, v2) :: s1)). perm.
      * destruct Hp as (-> & -> & _ & H2). cbn [app own_root]. eapply holds_perm; [exact H2|].
        change (own_entry (p, v2) ++ flat_map own_entry s1) with (own_stack ((p, v2) :: s1)). perm.
  - (* an error *)
    lstep. split; [exists Rejected; split; [reflexivity|now left]|]. split; [reflexivity|]. unfold leaks. cbn [lb_stack lb_la lb_root].
    split; [|split; [|eapply holds_perm; [exact H|perm]]].
    + unfold kept. cbn [lb_stack lb_la lb_root]. intros X. apply Exists_app in X. destruct X as [X|X].
      * destruct (Sh X) as [Y|Y]; [now left|now right; right].
      * unfold fetched in X. cbn [lb_out] in X. destruct ts as [|a0 ts]; [inversion X|]. cbn [firstn] in X.
        destruct la1 as [u|]; [|exfalso; now apply (Sf (or_intror eq_refl))]. destruct Sl as (t0 & ts0 & E & _ & Hu). injection E as <- <-.
        inversion X as [? ? Ht|? ? Ht]; [|inversion Ht]; subst. right. left. exact (Hu Ht).
    + exists ((q, v) :: st), w. split; [exact Sk|]. split; [exact Ss|]. split; [exact Sb|]. split; [cbn [lb_la]; intros u ->; destruct Sl as (t0 & _ & _ & Lu & _); now exists t0|]. intros _ q1 v1 st1 E. injection E as <- _ _. now apply Er.
Qed.

(** The whole run. *)
Lemma run_like n : forall st' la r' st ts r w m l o, same st' la r' st ts r w ->
  holds m (own_stack st' ++ own_opt la ++ own_root r' ++ l) -> run P code yylval garbage act n st ts r = Ok o ->
  wp (h_run P code scan garbage' act' n st' la ts r') m (fun lb m' =>
    (exists a b, o = Accepted (Some b) /\ lb_out lb = Accepted (Some a) /\ likeR a b /\ holds m' (ownR a ++ l)) \/
    ((lb_out lb = Rejected /\ o = Rejected \/ lb_out lb = Exhausted /\ o = Exhausted) /\
      (exists w1, w1 ++ lb_rest lb = w ++ ts /\ (Exists heavy (w1 ++ fetched (lb_rest lb) (lb_out lb)) -> kept lb)) /\ stuck lb /\
      holds m' (leaks lb ++ l))).
Proof.
  induction n as [|n IH]; intros st' la r' st ts r w m l o S H E; [discriminate E|].
  cbn [run h_run] in *. lstep. eapply wp_mono; [exact (step_like _ _ _ _ _ _ _ _ _ S H)|].
  intros [lb|[[[st1' la1] ts1] r1']] m' X; cbv beta iota in X |- *.
  - lstep. right. destruct X as ((o' & Es & Eo) & Er & Hv & Hst & H'). rewrite Es in E. cbn [bind] in E. injection E as <-.
    split; [exact Eo|]. rewrite Er. split; [exists w; split; [reflexivity|exact Hv]|]. split; [exact Hst|exact H'].
  - destruct X as (st1 & r1 & Es & X). rewrite Es in E. cbn [bind] in E.
    destruct X as [(w1 & S1 & Ew & H1)|(a & b & v & v1 & v2 & v3 & -> & -> & L & -> & -> & -> & -> & H1)].
    + eapply wp_mono; [exact (IH _ _ _ _ _ _ _ _ _ _ S1 H1 E)|]. intros lb m2 [X|X]; [left; exact X|right].
      now rewrite Ew in X.
    + destruct n as [|n]; [discriminate E|]. cbn [run h_run] in *. unfold step in E. unfold h_step. cbn [List.length] in *.
      destruct (YYMAXDEPTH <=? Z.of_nat 3) eqn:Y; [discriminate Y|]. rewrite Z.eqb_refl in *. cbn [bind] in E. injection E as <-.
      lstep. lstep. lstep. left. exists a, b. easy.
Qed.
Lemma parse_like n ts o m l : holds m l -> yyparse P code yylval garbage act n ts = Ok o ->
  wp (h_yyparse P code scan garbage' act' n ts) m (fun lb m' =>
    (exists a b, o = Accepted (Some b) /\ lb_out lb = Accepted (Some a) /\ likeR a b /\ holds m' (ownR a ++ l)) \/
    ((lb_out lb = Rejected /\ o = Rejected \/ lb_out lb = Exhausted /\ o = Exhausted) /\
      (exists read, ts = read ++ lb_rest lb /\ (Exists heavy (read ++ fetched (lb_rest lb) (lb_out lb)) -> kept lb)) /\ stuck lb /\
      holds m' (leaks lb ++ l))).
Proof.
  intros H E. assert (Q0 : qprog <> 0).
  { pose proof checked as CH. unfold sound_check in CH. rewrite !andb_true_iff in CH.
    destruct CH as (((((((((Ms & Pq) & Sq) & Np) & _) & N1) & _) & Q0) & Ws) & _). lia. }
  eapply wp_mono; [apply (run_like n [(0, garbage')] None None [(0, garbage)] ts None [] m l o); [| |exact E]|].
  2: { unfold own_stack, own_entry. cbn [flat_map fst snd own_opt own_root]. rewrite (proj2 garbage_ok).
       destruct (stos 0 =? prog); exact H. }
  - constructor.
    + apply stk0.
    + constructor; [|constructor]. split; [reflexivity|]. apply garbage_ok.
    + exact I.
    + exact I.
    + split; [easy|]. intros (v & st0 & X). injection X as X _ _. congruence.
    + reflexivity.
    + intros X. inversion X.
  - intros lb m' [X|(X1 & (w & Ew & X2) & X3)]; [left; exact X|right]. split; [exact X1|]. split; [|exact X3].
    exists w. split; [symmetry; exact Ew|exact X2].
Qed.
End Parser.
