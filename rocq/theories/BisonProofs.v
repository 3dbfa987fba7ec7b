(** Proofs about the generated parsers: what they accept the grammar derives, what the grammar derives they accept, they end
    and stay defined.  The tables are checked by computation against the data of [BisonData]. *)
From Coq Require Import ZArith NArith String Bool List Lia ZifyBool ZifyNat.
From Verif Require Import Base Flex Bison.
Import ListNotations.
Local Open Scope Z_scope.
Local Open Scope res_scope.

Definition nthz {A} (l : list A) (i : Z) (d : A) : A := nth (Z.to_nat i) l d.
Definition has (l : list Z) (x : Z) : bool := existsb (Z.eqb x) l.
Lemma has_in l x : has l x = true <-> In x l.
Proof.
  unfold has. rewrite existsb_exists. split.
  - intros (y & I & E). apply Z.eqb_eq in E. now subst.
  - intros I. exists x. split; [easy|apply Z.eqb_refl].
Qed.
Definition range (n : nat) : list Z := map Z.of_nat (seq 0 n).
Lemma in_range n z : 0 <= z < Z.of_nat n -> In z (range n).
Proof.
  intros B. apply in_map_iff. exists (Z.to_nat z). split; [lia|]. apply in_seq. lia.
Qed.
Fixpoint sumz (l : list Z) : Z := match l with [] => 0 | x :: l' => x + sumz l' end.
Lemma sumz_app a b : sumz (a ++ b) = sumz a + sumz b.
Proof. induction a; cbn; lia. Qed.

Section Parser.
Context {K V R : Type}.
Variables (P : ptables) (code : K -> Z) (yylval : K -> V) (garbage : V).
Variable act : Z -> list V -> result (V * option R).
Notation move_of := (move_of P).
Notation goto_of := (goto_of P).
Notation lookahead := (lookahead P code).
Notation step := (step P code yylval garbage act).
Notation run := (run P code yylval garbage act).
Notation stack := (@stack V).

Definition sym (t : K) : Z := match at_ (p_translate P) (code t) with Ok x => x | _ => -1 end.
Hypothesis sym_ok : forall t, at_ (p_translate P) (code t) = Ok (sym t) /\ 1 <= sym t < p_ntokens P.

(** ** Runs *)
Lemma run_more n o : forall st ts r, run n st ts r = Ok o -> forall m, run (n + m) st ts r = Ok o.
Proof.
  induction n as [|n IH]; intros st ts r H m; [discriminate H|].
  cbn [Bison.run plus] in *. destruct (step st ts r) as [x| | |]; try discriminate H. cbn [bind] in *.
  destruct x as [o'|[[st' ts'] r']]; [easy|]. now apply IH.
Qed.
Lemma run_same n m o o' st ts r : run n st ts r = Ok o -> run m st ts r = Ok o' -> o = o'.
Proof.
  intros H H'. apply (run_more _ _ _ _ _) with (m := m) in H. apply (run_more _ _ _ _ _) with (m := n) in H'.
  rewrite Nat.add_comm in H'. congruence.
Qed.

(** ** Soundness *)
Variables (nstates : nat) (sos : list Z) (preds : list (list Z)) (rhs : list (list Z)) (weights : list Z) (prog qprog : Z).
Definition stos (q : Z) : Z := nthz sos q 0.
Definition wt (x : Z) : Z := nthz weights x 0.
Definition right (k : Z) : list Z := nthz rhs k [].

Definition edge (q x q' : Z) : bool :=
  (0 <=? q') && (q' <? Z.of_nat nstates) && (stos q' =? x) && has (nthz preds q' []) q && negb (q' =? 0)
  && negb (q' =? p_final P).
Fixpoint back (ss : list Z) (fr : list Z) : option (list Z) :=
  match ss with
  | [] => Some fr
  | y :: ss' =>
      if forallb (fun q => (stos q =? y) && negb (q =? 0)) fr then back ss' (flat_map (fun q => nthz preds q []) fr) else None
  end.
Definition reduce_ok (q k : Z) : bool :=
  match at_ (p_r2 P) k, at_ (p_r1 P) k, back (rev (right k)) [q] with
  | Ok n, Ok x, Some os =>
      (Z.to_nat n =? List.length (right k))%nat && (wt x <? sumz (map wt (right k))) && (2 <=? k)
      && forallb (fun p => match goto_of p x with Ok q' => edge p x q' | _ => false end) os
  | _, _, _ => false
  end.
Definition move_ok (q t : Z) : bool :=
  match move_of q (Ok t) with
  | Ok Error => true
  | Ok (Shift q') => if t =? 0 then (q =? qprog) && (q' =? p_final P) else edge q t q'
  | Ok (Reduce k) => reduce_ok q k
  | _ => false
  end.
Variable C : Z.
Definition sound_check : bool :=
  forallb (fun q => (q =? p_final P) || forallb (move_ok q) (range (Z.to_nat (p_ntokens P)))) (range nstates)
  && forallb (fun p => p =? 0) (nthz preds qprog []) && (stos qprog =? prog) && (p_ntokens P <=? prog) && (1 <=? Z.of_nat nstates) && (1 <=? p_ntokens P)
  && negb (p_final P =? 0) && negb (qprog =? 0)
  && forallb (fun t => (wt t <? C) && (0 <=? wt t)) (range (Z.to_nat (p_ntokens P))) && forallb (fun w => 0 <=? w) weights.
Hypothesis checked : sound_check = true.

(** What each symbol stands for: tokens and a value. *)
Variable Spec : Z -> list K -> V -> Prop.
Variable Goal : list K -> R -> Prop.
Inductive specs : list Z -> list K -> list V -> Prop :=
| specs_nil : specs [] [] []
| specs_cons x w v ss ws vs : Spec x w v -> specs ss ws vs -> specs (x :: ss) (w ++ ws) (v :: vs).
Hypothesis spec_token : forall t, Spec (sym t) [t] (yylval t).
Hypothesis spec_rule : forall k x w vs, at_ (p_r1 P) k = Ok x -> specs (right k) w vs -> 2 <= k ->
  exists v o, act k vs = Ok (v, o) /\ Spec x w v /\ (x = prog -> exists r, o = Some r /\ Goal w r).

Lemma specs_snoc ss w vs x w' v : specs ss w vs -> Spec x w' v -> specs (ss ++ [x]) (w ++ w') (vs ++ [v]).
Proof.
  intros H X. induction H as [|y u b ss ws vs Y H IH]; cbn [app].
  - replace w' with (w' ++ [])%list by apply app_nil_r. constructor; [easy|constructor].
  - rewrite <- app_assoc. now constructor.
Qed.

Inductive stk : stack -> list K -> Prop :=
| stk0 v : stk [(0, v)] []
| stk1 q v st w q' v' w' : stk ((q, v) :: st) w -> edge q (stos q') q' = true -> Spec (stos q') w' v' ->
    stk ((q', v') :: (q, v) :: st) (w ++ w').
Definition size (st : stack) : Z := sumz (map (fun e => wt (stos (fst e))) st).

Lemma edge_parts q x q' : edge q x q' = true ->
  0 <= q' < Z.of_nat nstates /\ stos q' = x /\ In q (nthz preds q' []) /\ q' <> 0 /\ q' <> p_final P.
Proof.
  unfold edge. intros H. rewrite !andb_true_iff in H. destruct H as (((((H1 & H2) & H3) & H4) & H5) & H6).
  apply has_in in H4. split; [lia|]. split; [lia|]. split; [exact H4|]. lia.
Qed.

(** The entries a reduction pops. *)
Lemma pop_back rs : forall fr os st w q v st0, st = (q, v) :: st0 -> stk st w -> In q fr -> back rs fr = Some os ->
  forall acc, exists p v' st' vs w1 ws,
    pop (List.length rs) st acc = Ok ((vs ++ acc)%list, (p, v') :: st') /\ stk ((p, v') :: st') w1 /\ In p os /\
    specs (rev rs) ws vs /\ (w1 ++ ws)%list = w /\ size st = size ((p, v') :: st') + sumz (map wt rs).
Proof.
  induction rs as [|y rs IH]; intros fr os st w q v st0 -> S I B acc; cbn [back] in B.
  - injection B as <-. exists q, v, st0, [], w, []. cbn [pop List.length app].
    split; [reflexivity|]. split; [easy|]. split; [easy|]. split; [constructor|]. split; [apply app_nil_r|]. cbn. lia.
  - destruct (forallb _ fr) eqn:F; [|discriminate B].
    rewrite forallb_forall in F. specialize (F q I). rewrite andb_true_iff, negb_true_iff in F. destruct F as (F1 & F2).
    apply Z.eqb_eq in F1. apply Z.eqb_neq in F2.
    inversion S as [v0 Ev Ew|p pv st1 w1 q' v' w' S1 E X]; subst; [easy|].
    destruct (edge_parts _ _ _ E) as (_ & _ & Ip & _).
    cbn [List.length pop].
    destruct (IH (flat_map (fun q => nthz preds q []) fr) os ((p, pv) :: st1) w1 p pv st1 eq_refl S1
                ltac:(apply in_flat_map; exists q; easy) B (v :: acc))
      as (a & va & st' & vs & u1 & us & E1 & E2 & E3 & E4 & E5 & E6).
    exists a, va, st', (vs ++ [v])%list, u1, (us ++ w')%list. rewrite <- app_assoc. cbn [app].
    split; [exact E1|]. split; [easy|]. split; [easy|]. cbn [rev].
    split; [now apply specs_snoc|]. split; [rewrite app_assoc; congruence|].
    unfold size in *. cbn [map sumz fst] in *. lia.
Qed.

Definition done (st : stack) (r : option R) (w : list K) : Prop :=
  forall q v st', st = (q, v) :: st' -> q = qprog -> exists r0, r = Some r0 /\ Goal w r0.

Lemma wt_pos x : 0 <= wt x.
Proof.
  pose proof checked as CH. unfold sound_check in CH. rewrite !andb_true_iff in CH. destruct CH as (_ & H).
  unfold wt, nthz. destruct (nth_in_or_default (Z.to_nat x) weights 0) as [I| ->]; [|lia].
  rewrite forallb_forall in H. specialize (H _ I). lia.
Qed.
Lemma size_pos st : 0 <= size st.
Proof.
  unfold size. induction st as [|e st IH]; [easy|]. cbn [map sumz]. pose proof (wt_pos (stos (fst e))). lia.
Qed.
Lemma stk_top q v st w : stk ((q, v) :: st) w -> 0 <= q < Z.of_nat nstates /\ q <> p_final P.
Proof.
  pose proof checked as CH. unfold sound_check in CH. rewrite !andb_true_iff in CH.
  destruct CH as (((((((((_ & _) & _) & _) & N) & _) & F) & _) & _) & _). rewrite negb_true_iff in F.
  intros S. inversion S; subst; [lia|].
    match goal with H : edge _ _ _ = true |- _ => apply edge_parts in H end. lia.
Qed.

Lemma step_sound q v st ts r w : stk ((q, v) :: st) w -> done ((q, v) :: st) r w ->
  step ((q, v) :: st) ts r = Ok (inl Exhausted) \/ step ((q, v) :: st) ts r = Ok (inl Rejected) \/
  (exists q' v' st' ts' r' w', step ((q, v) :: st) ts r = Ok (inr ((q', v') :: st', ts', r')) /\
     stk ((q', v') :: st') w' /\ done ((q', v') :: st') r' w' /\ (w' ++ ts')%list = (w ++ ts)%list /\
     C * Z.of_nat (List.length ts') + size ((q', v') :: st') < C * Z.of_nat (List.length ts) + size ((q, v) :: st)) \/
  (exists r0, step ((q, v) :: st) ts r = Ok (inr ((p_final P, garbage) :: (q, v) :: st, [], Some r0)) /\ ts = [] /\ Goal w r0).
Proof.
  intros S D. destruct (stk_top _ _ _ _ S) as (Bq & Nf).
  pose proof checked as CH. unfold sound_check in CH. rewrite !andb_true_iff in CH.
  destruct CH as (((((((((Ms & Pq) & Sq) & Np) & _) & N1) & _) & Q0) & Ws) & _).
  apply Z.leb_le in N1.
  unfold Bison.step. destruct (YYMAXDEPTH <=? _); [now left|].
  rewrite (proj2 (Z.eqb_neq _ _) Nf).
  assert (L : exists t, lookahead ts = Ok t /\ 0 <= t < p_ntokens P /\ (t = 0 <-> ts = []) /\
              (forall a ts', ts = a :: ts' -> t = sym a)).
  { unfold Bison.lookahead. destruct ts as [|a ts'].
    - exists 0. split; [reflexivity|]. split; [lia|split; [easy|intros a ts' E; discriminate E]].
    - destruct (sym_ok a) as (E & B). exists (sym a). split; [exact E|]. split; [lia|].
      split; [split; [lia|intros E'; discriminate E']|]. intros b ts'' E'. injection E' as -> ->. reflexivity. }
  destruct L as (t & EL & Bt & T0 & Ts). rewrite EL.
  rewrite forallb_forall in Ms. specialize (Ms q (in_range _ _ Bq)).
  rewrite (proj2 (Z.eqb_neq _ _) Nf) in Ms. cbn [orb] in Ms.
  rewrite forallb_forall in Ms. specialize (Ms t ltac:(apply in_range; lia)).
  unfold move_ok in Ms. destruct (move_of q (Ok t)) as [m| | |] eqn:M; try discriminate Ms. cbn [bind].
  destruct m as [q'|k|]; [| |right; now left].
  - destruct (t =? 0) eqn:Et.
    + right; right; right. apply Z.eqb_eq in Et. rewrite andb_true_iff in Ms. destruct Ms as (M1 & M2).
      apply Z.eqb_eq in M1, M2. subst q'. rewrite (proj1 T0 Et).
      destruct (D _ _ _ eq_refl M1) as (r0 & -> & G). exists r0. easy.
    + right; right; left. apply Z.eqb_neq in Et. destruct ts as [|a ts']; [exfalso; apply Et, T0; reflexivity|].
      pose proof (Ts _ _ eq_refl) as ->. destruct (edge_parts _ _ _ Ms) as (_ & Es & _).
      exists q', (yylval a), ((q, v) :: st), ts', r, (w ++ [a])%list.
      split; [reflexivity|].
      split; [apply stk1; [exact S|rewrite Es; exact Ms|rewrite Es; apply spec_token]|].
      split.
      * intros q0 v0 st0 E Eq. injection E as Eq0 _ _. rewrite Eq in Eq0. subst q'. exfalso.
        apply Z.eqb_eq in Sq. destruct (sym_ok a) as (_ & Ba). lia.
      * split; [rewrite <- app_assoc; reflexivity|].
        unfold size. cbn [map sumz fst List.length]. rewrite Es.
        rewrite forallb_forall in Ws. specialize (Ws (sym a) ltac:(apply in_range; lia)). nia.
  - unfold reduce_ok in Ms. destruct (at_ (p_r2 P) k) as [n| | |] eqn:E2; try discriminate Ms.
    destruct (at_ (p_r1 P) k) as [x| | |] eqn:E1; try discriminate Ms.
    destruct (back (rev (right k)) [q]) as [os|] eqn:B; [|discriminate Ms].
    rewrite !andb_true_iff in Ms. destruct Ms as (((Mn & Mw) & Mk) & Mo).
    destruct (pop_back _ [q] _ _ _ _ _ _ eq_refl S (or_introl eq_refl) B []) as
      (p & v' & st' & vs & w1 & ws & Ep & S' & Ip & Sp & Ew & Ez).
    rewrite rev_involutive in Sp. rewrite rev_length in Ep. apply Nat.eqb_eq in Mn. rewrite app_nil_r in Ep.
    destruct (spec_rule k x ws vs E1 Sp ltac:(lia)) as (u & o & Ea & Xu & Go).
    rewrite forallb_forall in Mo. specialize (Mo p Ip).
    destruct (goto_of p x) as [q'| | |] eqn:Eg; try discriminate Mo.
    destruct (edge_parts _ _ _ Mo) as (_ & Es & Ipq & _).
    right; right; left.
    exists q', u, ((p, v') :: st'), ts, (match o with Some r' => Some r' | None => r end), (w1 ++ ws)%list.
    unfold reduce. rewrite E2. cbn [bind]. rewrite Mn, Ep. cbn [bind]. rewrite Ea. cbn [bind]. rewrite E1. cbn [bind].
    rewrite Eg. cbn [bind].
    split; [reflexivity|]. split; [apply stk1; [exact S'|rewrite Es; exact Mo|rewrite Es; exact Xu]|].
    split.
    + intros q0 v0 st0 E Eq. injection E as Eq0 _ _. rewrite Eq in Eq0. subst q'. apply Z.eqb_eq in Sq. rewrite Sq in Es.
      destruct (Go (eq_sym Es)) as (r0 & -> & G). exists r0. split; [reflexivity|].
      rewrite forallb_forall in Pq. specialize (Pq p Ipq). apply Z.eqb_eq in Pq. subst p.
      inversion S' as [v1 Ev Ew1|a b c d e f g H1 H2 H3]; subst; [exact G|].
      exfalso. destruct (edge_parts _ _ _ H2) as (_ & _ & _ & Z0 & _). now apply Z0.
    + split; [congruence|]. rewrite map_rev in Ez. rewrite Ez.
      assert (sumz_rev : forall l, sumz (rev l) = sumz l).
      { induction l as [|y l IH]; [reflexivity|]. cbn [rev]. rewrite sumz_app, IH. cbn. lia. }
      rewrite sumz_rev. unfold size. cbn [map sumz fst]. rewrite Es. lia.
Qed.

(** Every run ends, stays defined, and accepts only what the goal allows. *)
Lemma run_sound n : forall q v st ts r w, stk ((q, v) :: st) w -> done ((q, v) :: st) r w ->
  C * Z.of_nat (List.length ts) + size ((q, v) :: st) + 2 <= Z.of_nat n ->
  exists o, run n ((q, v) :: st) ts r = Ok o /\
    (forall r', o = Accepted r' -> exists r0, r' = Some r0 /\ Goal (w ++ ts) r0).
Proof.
  induction n as [|n IH]; intros q v st ts r w S D B.
  - exfalso. pose proof (size_pos ((q, v) :: st)).
    assert (0 <= C).
    { pose proof checked as CH. unfold sound_check in CH. rewrite !andb_true_iff in CH.
      destruct CH as (((((((((_ & _) & _) & _) & _) & N1) & _) & _) & Ws) & _).
      rewrite forallb_forall in Ws. specialize (Ws 0 ltac:(apply in_range; lia)). lia. }
    nia.
  - cbn [Bison.run].
    destruct (step_sound q v st ts r w S D) as [E|[E|[(q' & v' & st' & ts' & r' & w' & E & S' & D' & Ew & M)|(r0 & E & -> & G)]]];
      rewrite E; cbn [bind].
    + exists Exhausted. split; [reflexivity|]. intros r' E'. discriminate E'.
    + exists Rejected. split; [reflexivity|]. intros r' E'. discriminate E'.
    + destruct (IH q' v' st' ts' r' w' S' D' ltac:(lia)) as (o & Eo & A). exists o. split; [exact Eo|].
      rewrite <- Ew. exact A.
    + destruct n as [|n].
      { exfalso. pose proof (size_pos ((q, v) :: st)). cbn [List.length] in B. lia. }
      cbn [Bison.run]. unfold Bison.step. destruct (YYMAXDEPTH <=? _); cbn [bind].
      * exists Exhausted. split; [reflexivity|]. intros r' E'. discriminate E'.
      * rewrite Z.eqb_refl. cbn [bind]. exists (Accepted (Some r0)). split; [reflexivity|].
        intros r' E'. injection E' as <-. exists r0. rewrite app_nil_r. easy.
Qed.

Theorem parse_sound n ts : C * Z.of_nat (List.length ts) + wt (stos 0) + 2 <= Z.of_nat n ->
  exists o, yyparse P code yylval garbage act n ts = Ok o /\
    (forall r, o = Accepted r -> exists r0, r = Some r0 /\ Goal ts r0).
Proof.
  intros B. unfold yyparse. apply (run_sound n 0 garbage [] ts None []).
  - constructor.
  - intros q v st E Eq. injection E as <- <- <-. exfalso.
    pose proof checked as CH. unfold sound_check in CH. rewrite !andb_true_iff in CH.
    destruct CH as (((((((((_ & _) & _) & _) & _) & _) & _) & Q0) & _) & _). rewrite <- Eq in Q0. discriminate Q0.
  - unfold size. cbn [map sumz fst]. lia.
Qed.

(** ** Completeness *)
Variables (prods : list (Z * list Z * Z)) (firsts : list (list Z)) (expects : list (list (Z * list Z))) (real : Z -> Z).
Definition first (x : Z) : list Z := if x <? p_ntokens P then [x] else nthz firsts x [].
Definition nxt (q y : Z) : option Z :=
  if y <? p_ntokens P then match move_of q (Ok y) with Ok (Shift q') => Some q' | _ => None end
  else match goto_of q (real y) with Ok q' => Some q' | _ => None end.
(** State q expects the symbol x before the token la. *)
Definition expected (q x la : Z) : bool :=
  (x <? p_ntokens P) || (0 <=? q) && existsb (fun e => (fst e =? x) && has (snd e) la) (nthz expects q []).
Fixpoint walk (q : Z) (ss : list Z) (la : Z) : option Z :=
  match ss with
  | [] => if q =? p_final P then None else Some q
  | y :: ss' =>
      if negb (q =? p_final P) && forallb (expected q y) (match ss' with [] => [la] | y' :: _ => first y' end)
      then match nxt q y with Some q' => walk q' ss' la | None => None end else None
  end.
Definition prod_ok (q x la : Z) (p : Z * list Z * Z) : bool :=
  let '(y, ss, k) := p in
  negb (y =? x) ||
  match walk q ss la with
  | Some q' =>
      if k <? 0 then match ss with [z] => real z =? real x | _ => false end && (p_ntokens P <=? hd 0 ss)
      else match move_of q' (Ok la), at_ (p_r2 P) k, at_ (p_r1 P) k, goto_of q (real x) with
           | Ok (Reduce k'), Ok n, Ok z, Ok _ => (k' =? k) && (Z.to_nat n =? List.length ss)%nat && (z =? real x)
           | _, _, _, _ => false
           end
  | None => false
  end.
Definition complete_check : bool :=
  forallb (fun q => forallb (fun e => forallb (fun la => forallb (prod_ok q (fst e) la) prods) (snd e)) (nthz expects q []))
    (range (List.length expects))
  && forallb (fun p => let '(x, ss, k) := p in
       (p_ntokens P <=? x) &&
       match ss with [] => false | y :: _ => forallb (has (first x)) (first y) end) prods.
Hypothesis complete_checked : complete_check = true.

(** A derivation with its values; n bounds the entries it needs on the stack. *)
Inductive cd : Z -> list K -> V -> nat -> Prop :=
| cd_token t n : (1 <= n)%nat -> cd (sym t) [t] (yylval t) n
| cd_rule x ss k w vs v o n : In (x, ss, k) prods -> 0 <= k -> cds ss w vs n -> act k vs = Ok (v, o) -> cd x w v n
| cd_unit x y w v n : In (x, [y], -1) prods -> cd y w v n -> cd x w v n
with cds : list Z -> list K -> list V -> nat -> Prop :=
| cds_nil n : cds [] [] [] n
| cds_cons y w v ss ws vs n : cd y w v (S n) -> cds ss ws vs n -> cds (y :: ss) (w ++ ws) (v :: vs) (S n).

Scheme cd_ind2 := Induction for cd Sort Prop with cds_ind2 := Induction for cds Sort Prop.
Combined Scheme cd_both from cd_ind2, cds_ind2.

(** From one state to another, or to the end of the stack if n more entries do not fit. *)
Definition conf : Type := stack * list K * option R.
Definition run_conf (n : nat) (c : conf) := let '(st, ts, r) := c in run n st ts r.
Definition goes (n : nat) (c c' : conf) : Prop :=
  (exists m, forall i, run_conf (m + i) c = run_conf i c') \/
  ((exists m, run_conf m c = Ok Exhausted) /\ YYMAXDEPTH <= Z.of_nat (List.length (fst (fst c)) + n)).
Lemma goes_refl n c : goes n c c.
Proof. left. now exists 0%nat. Qed.
Lemma goes_trans n n' c c' c'' : goes n c c' -> goes n' c' c'' ->
  (List.length (fst (fst c')) + n' <= List.length (fst (fst c)) + n)%nat -> goes n c c''.
Proof.
  intros [(m & H)|H] G L; [|now right]. destruct G as [(m' & H')|((m' & H') & D)].
  - left. exists (m + m')%nat. intros i. rewrite <- Nat.add_assoc, H. apply H'.
  - right. split; [|lia]. exists (m + m')%nat. now rewrite H.
Qed.
Lemma goes_step st ts r c' n : (Z.of_nat (List.length st) < YYMAXDEPTH -> step st ts r = Ok (inr c')) -> st <> [] ->
  goes n (st, ts, r) c'.
Proof.
  intros H N. destruct (YYMAXDEPTH <=? Z.of_nat (List.length st)) eqn:E.
  - right. split; [|cbn [fst]; lia]. exists 1%nat. cbn [run_conf Bison.run]. unfold Bison.step.
    destruct st as [|(q, v) st]; [easy|]. rewrite E. reflexivity.
  - left. exists 1%nat. intros i. cbn [run_conf plus Bison.run]. rewrite H by lia. cbn [bind].
    destruct c' as ((st', ts'), r'). reflexivity.
Qed.

Lemma first_ok : (forall x w v n, cd x w v n -> exists t w', w = t :: w' /\ In (sym t) (first x)).
Proof.
  pose proof complete_checked as CH. unfold complete_check in CH. rewrite andb_true_iff in CH. destruct CH as (_ & F).
  rewrite forallb_forall in F.
  enough ((forall x w v n, cd x w v n -> exists t w', w = t :: w' /\ In (sym t) (first x)) /\
          (forall ss w vs n, cds ss w vs n -> forall y ss', ss = y :: ss' -> exists t w', w = t :: w' /\ In (sym t) (first y)))
    by easy.
  apply cd_both.
  - intros t n _. exists t, []. split; [reflexivity|]. unfold first. destruct (sym_ok t) as (_ & B).
    destruct (sym t <? p_ntokens P) eqn:E; [now left|lia].
  - intros x ss k w vs v o n I Hk _ IH _. specialize (F _ I). cbn in F.
    rewrite andb_true_iff in F. destruct F as (_ & F). destruct ss as [|y ss]; [discriminate F|].
    destruct (IH y ss eq_refl) as (t & w' & -> & J). exists t, w'. split; [reflexivity|].
    rewrite forallb_forall in F. now apply has_in, F.
  - intros x y w v n I _ (t & w' & -> & J). exists t, w'. split; [reflexivity|].
    specialize (F _ I). cbn in F. rewrite andb_true_iff in F. destruct F as (_ & F).
    rewrite forallb_forall in F. now apply has_in, F.
  - intros n y ss' E. discriminate E.
  - intros y w v ss ws vs n _ (t & w' & -> & J) _ _ y' ss' E. injection E as <- <-.
    exists t, (w' ++ ws)%list. easy.
Qed.

Lemma cd_mono_both :
  (forall x w v n, cd x w v n -> forall m, (n <= m)%nat -> cd x w v m) /\
  (forall ss w vs n, cds ss w vs n -> forall m, (n <= m)%nat -> cds ss w vs m).
Proof using P code yylval act prods.
  apply cd_both.
  - intros t n H m L. constructor. clear - H L. lia.
  - intros x ss k w vs v o n I B D IH E m L. eapply cd_rule; eauto.
  - intros x y w v n I D IH m L. eapply cd_unit; eauto.
  - intros n m L. constructor.
  - intros y w v ss ws vs n D IH Ds IHs [|m] L; [clear - L; lia|]. constructor; [apply IH|apply IHs]; clear - L; lia.
Qed.
Lemma cd_mono x w v n m : cd x w v n -> (n <= m)%nat -> cd x w v m.
Proof using P code yylval act prods. intros H L. exact (proj1 cd_mono_both _ _ _ _ H m L). Qed.

(** The states after the symbols of a right side. *)
Fixpoint push (q : Z) (ss : list Z) (vs : list V) (st : stack) : stack :=
  match ss, vs with
  | y :: ss', v :: vs' => match nxt q y with Some q' => push q' ss' vs' ((q', v) :: st) | None => st end
  | _, _ => st
  end.
Lemma walk_top ss : forall q la q' v st vs, walk q ss la = Some q' -> List.length vs = List.length ss ->
  exists v', hd (0, garbage) (push q ss vs ((q, v) :: st)) = (q', v') /\ q' <> p_final P /\
    pop (List.length ss) (push q ss vs ((q, v) :: st)) [] = Ok (vs, (q, v) :: st).
Proof.
  enough (G : forall q la q' st vs, walk q ss la = Some q' -> List.length vs = List.length ss ->
     forall v, exists v', hd (0, garbage) (push q ss vs ((q, v) :: st)) = (q', v') /\ q' <> p_final P /\
       forall acc k, pop (List.length ss + k) (push q ss vs ((q, v) :: st)) acc = pop k ((q, v) :: st) (vs ++ acc)).
  { intros q la q' v st vs W L. destruct (G q la q' st vs W L v) as (v' & H1 & H2 & H3). exists v'.
    split; [easy|]. split; [easy|]. specialize (H3 [] 0%nat). rewrite Nat.add_0_r, app_nil_r in H3. exact H3. }
  induction ss as [|y ss IH]; intros q la q' st vs W L v.
  - destruct vs; [|discriminate L]. cbn [walk] in W. destruct (q =? p_final P) eqn:E; [discriminate W|].
    injection W as <-. exists v. split; [reflexivity|]. split; [lia|]. reflexivity.
  - destruct vs as [|u vs]; [discriminate L|]. cbn [walk] in W. destruct (_ && _); [|discriminate W].
    destruct (nxt q y) as [q1|] eqn:N; [|discriminate W]. injection L as L.
    destruct (IH q1 la q' ((q, v) :: st) vs W L u) as (v' & H1 & H2 & H3).
    exists v'. cbn [push]. rewrite N. split; [exact H1|]. split; [exact H2|]. intros acc k.
    cbn [List.length plus]. rewrite <- Nat.add_succ_r, H3. reflexivity.
Qed.
Lemma cds_length ss w vs n : cds ss w vs n -> List.length vs = List.length ss.
Proof. induction 1; cbn; congruence. Qed.

Lemma cds_size ss w vs n : cds ss w vs n -> (List.length ss <= n)%nat.
Proof. induction 1; cbn; lia. Qed.
Lemma push_length ss : forall q la vs st, List.length vs = List.length ss -> walk q ss la <> None ->
  List.length (push q ss vs st) = (List.length ss + List.length st)%nat.
Proof.
  induction ss as [|y ss IH]; intros q la vs st L W; destruct vs as [|v vs]; try discriminate L; [reflexivity|].
  cbn [push walk] in *. destruct (_ && _); [|easy]. destruct (nxt q y) as [q'|]; [|easy]. injection L as L.
  rewrite (IH q' la) by easy. cbn [List.length]. lia.
Qed.
Lemma prods_lhs p : In p prods -> p_ntokens P <= fst (fst p).
Proof.
  pose proof complete_checked as CH. unfold complete_check in CH. rewrite andb_true_iff in CH. destruct CH as (_ & F).
  rewrite forallb_forall in F. intros I. specialize (F _ I). destruct p as ((x, ss), k). cbn [fst] in *.
  rewrite andb_true_iff in F. lia.
Qed.

Lemma expected_token q x la : x < p_ntokens P -> expected q x la = true.
Proof. intros H. unfold expected. destruct (x <? p_ntokens P) eqn:E; [reflexivity|lia]. Qed.

Lemma nxt_goto q x : p_ntokens P <= x -> nxt q x = match goto_of q (real x) with Ok q' => Some q' | _ => None end.
Proof. intros H. unfold nxt. destruct (x <? p_ntokens P) eqn:E; [lia|reflexivity]. Qed.

Lemma prods_ok q x la p : expected q x la = true -> p_ntokens P <= x -> In p prods -> prod_ok q x la p = true.
Proof.
  intros E B I. pose proof complete_checked as CH. unfold complete_check in CH. rewrite andb_true_iff in CH.
  destruct CH as (CH & _). unfold expected in E. rewrite orb_true_iff, andb_true_iff in E.
  destruct E as [E|(Q & E)]; [lia|].
  apply existsb_exists in E. destruct E as ((x', las) & J & E). cbn [fst snd] in E. rewrite andb_true_iff in E.
  destruct E as (E1 & E2). apply Z.eqb_eq in E1. subst x'. apply has_in in E2.
  assert (Iq : In q (range (List.length expects))).
  { apply in_range. unfold nthz in J.
    destruct (Nat.ltb (Z.to_nat q) (List.length expects)) eqn:L; [lia|].
    rewrite nth_overflow in J by lia. contradiction. }
  rewrite forallb_forall in CH. specialize (CH q Iq).
  rewrite forallb_forall in CH. specialize (CH _ J). cbn [fst snd] in CH.
  rewrite forallb_forall in CH. specialize (CH _ E2). rewrite forallb_forall in CH. exact (CH _ I).
Qed.

(** A derived symbol is read and its value put on the stack. *)
Lemma complete_both :
  (forall x w v n, cd x w v n -> forall q v0 st ts r la, lookahead ts = Ok la -> expected q x la = true -> q <> p_final P ->
     (x < p_ntokens P -> exists q', nxt q x = Some q') ->
     exists q' r', nxt q x = Some q' /\ goes n ((q, v0) :: st, w ++ ts, r)%list ((q', v) :: (q, v0) :: st, ts, r')) /\
  (forall ss w vs n, cds ss w vs n -> forall q v0 st ts r la q', lookahead ts = Ok la -> walk q ss la = Some q' ->
     exists r', goes n ((q, v0) :: st, w ++ ts, r)%list (push q ss vs ((q, v0) :: st), ts, r')).
Proof.
  apply cd_both.
  - intros t n N q v0 st ts r la L _ Nf H. destruct (sym_ok t) as (Es & Bs).
    destruct (H ltac:(lia)) as (q' & E). exists q', r. split; [exact E|].
    apply goes_step; [|easy]. intros Len. unfold Bison.step. rewrite (proj2 (Z.leb_gt _ _) Len).
    rewrite (proj2 (Z.eqb_neq _ _) Nf). cbn [app]. cbn [Bison.lookahead]. rewrite Es.
    unfold nxt in E. destruct (sym t <? p_ntokens P) eqn:Et; [|lia].
    destruct (move_of q (Ok (sym t))) as [m| | |]; try discriminate E. destruct m as [q1|k|]; try discriminate E.
    injection E as ->. reflexivity.
  - intros x ss k w vs v o n I Hk D IH Ea q v0 st ts r la L X Nf _.
    assert (Bx : p_ntokens P <= x) by exact (prods_lhs _ I).
    pose proof (prods_ok _ _ _ _ X Bx I) as PO. unfold prod_ok in PO. rewrite Z.eqb_refl in PO. cbn [negb orb] in PO.
    destruct (walk q ss la) as [q1|] eqn:W; [|discriminate PO].
    destruct (k <? 0) eqn:Ek; [lia|].
    destruct (move_of q1 (Ok la)) as [m| | |] eqn:M; try discriminate PO.
    destruct m as [|k'|]; try discriminate PO.
    destruct (at_ (p_r2 P) k) as [n2| | |] eqn:E2; try discriminate PO.
    destruct (at_ (p_r1 P) k) as [z| | |] eqn:E1; try discriminate PO.
    destruct (goto_of q (real x)) as [q'| | |] eqn:Eg; try discriminate PO.
    rewrite !andb_true_iff in PO. destruct PO as ((Ek' & En) & Ez).
    apply Z.eqb_eq in Ek', Ez. apply Nat.eqb_eq in En. subst k' z.
    destruct (IH q v0 st ts r la q1 L W) as (r1 & G).
    pose proof (cds_length _ _ _ _ D) as Lv.
    destruct (walk_top ss q la q1 v0 st vs W Lv) as (v1 & T & Nq & Pp).
    exists q', (match o with Some r' => Some r' | None => r1 end). split.
    { rewrite nxt_goto by exact Bx. rewrite Eg. reflexivity. }
    eapply goes_trans with (n' := 0%nat); [exact G| |cbn [fst]; rewrite (push_length ss q la); [pose proof (cds_size _ _ _ _ D); cbn [List.length]; lia|exact Lv|congruence]].
    destruct (push q ss vs ((q, v0) :: st)) as [|(q2, v2) st2] eqn:Epush.
    { destruct ss as [|y ss]; cbn in Pp; discriminate Pp. }
    cbn [hd] in T. injection T as -> ->.
    apply goes_step; [|easy]. intros Len. unfold Bison.step. rewrite (proj2 (Z.leb_gt _ _) Len).
    rewrite (proj2 (Z.eqb_neq _ _) Nq). rewrite L, M. cbn [bind]. unfold reduce. rewrite E2. cbn [bind].
    rewrite En, Pp. cbn [bind]. rewrite Ea. cbn [bind]. rewrite E1. cbn [bind]. rewrite Eg. reflexivity.
  - intros x y w v n I D IH q v0 st ts r la L X Nf _.
    assert (Bx : p_ntokens P <= x) by exact (prods_lhs _ I).
    pose proof (prods_ok _ _ _ _ X Bx I) as PO. unfold prod_ok in PO. rewrite Z.eqb_refl in PO. cbn [negb orb] in PO.
    cbn [walk hd Z.ltb Z.compare] in PO.
    destruct (negb (q =? p_final P) && forallb (expected q y) [la]) eqn:F; [|discriminate PO].
    rewrite andb_true_iff in F. destruct F as (_ & F). cbn [forallb] in F. rewrite andb_true_r in F.
    destruct (nxt q y) as [q1|] eqn:N; [|discriminate PO].
    destruct (q1 =? p_final P); [discriminate PO|]. rewrite andb_true_iff in PO. destruct PO as (Er & By).
    destruct (IH q v0 st ts r la L F Nf ltac:(lia)) as (q' & r' & E & G). exists q', r'. split; [|exact G].
    rewrite nxt_goto in * by lia. apply Z.eqb_eq in Er. now rewrite <- Er.
  - intros n q v0 st ts r la q' L W. exists r. cbn [push app]. apply goes_refl.
  - intros y w v ss ws vs n D IH Ds IHs q v0 st ts r la q' L W. cbn [walk] in W.
    destruct (negb (q =? p_final P) && _) eqn:F; [|discriminate W]. rewrite andb_true_iff in F. destruct F as (Nf & F).
    destruct (nxt q y) as [q1|] eqn:N; [|discriminate W].
    assert (exists la', lookahead (ws ++ ts) = Ok la' /\ expected q y la' = true) as (la' & L' & X').
    { rewrite forallb_forall in F. destruct ss as [|y' ss].
      - inversion Ds; subst. exists la. split; [exact L|]. apply F. now left.
      - inversion Ds; subst. match goal with H : cd y' _ _ _ |- _ => destruct (first_ok _ _ _ _ H) as (t & u & -> & J) end.
        exists (sym t). split; [cbn [app Bison.lookahead]; apply sym_ok|]. now apply F. }
    destruct (IH q v0 st (ws ++ ts)%list r la' L' X' ltac:(lia) ltac:(now exists q1)) as (q2 & r1 & E & G).
    rewrite E in N. injection N as ->.
    destruct (IHs q1 v ((q, v0) :: st) ts r1 la q' L W) as (r2 & G2). exists r2.
    cbn [push]. rewrite E. rewrite <- app_assoc.
    eapply goes_trans; [exact G|exact G2|cbn [fst List.length]; lia].
Qed.

(** The start symbol: the value its action stores is the result. *)
Theorem parse_complete ss k w vs v r0 n q1 :
  In (prog, ss, k) prods -> 0 <= k -> cds ss w vs n -> act k vs = Ok (v, Some r0) -> real prog = prog ->
  expected 0 prog 0 = true -> (2 <= n)%nat ->
  goto_of 0 prog = Ok q1 -> q1 <> p_final P -> move_of q1 (Ok 0) = Ok (Shift (p_final P)) ->
  exists m, yyparse P code yylval garbage act m w = Ok (Accepted (Some r0)) \/
    (yyparse P code yylval garbage act m w = Ok Exhausted /\ YYMAXDEPTH <= Z.of_nat (1 + n)).
Proof.
  intros I Hk D Ea Ep X N Eg Nq M.
  assert (Bx : p_ntokens P <= prog) by exact (prods_lhs _ I).
  pose proof (prods_ok _ _ _ _ X Bx I) as PO. unfold prod_ok in PO. rewrite Z.eqb_refl in PO. cbn [negb orb] in PO.
  destruct (walk 0 ss 0) as [q'|] eqn:W; [|discriminate PO].
  destruct (k <? 0) eqn:Ek; [lia|].
  destruct (move_of q' (Ok 0)) as [m'| | |] eqn:M'; try discriminate PO.
  destruct m' as [|k'|]; try discriminate PO.
  destruct (at_ (p_r2 P) k) as [n2| | |] eqn:E2; try discriminate PO.
  destruct (at_ (p_r1 P) k) as [z| | |] eqn:E1; try discriminate PO.
  rewrite Ep, Eg in PO.
  rewrite !andb_true_iff in PO. destruct PO as ((Ek' & En) & Ez).
  apply Z.eqb_eq in Ek', Ez. apply Nat.eqb_eq in En. subst k' z.
  destruct (proj2 complete_both _ _ _ _ D 0 garbage [] [] None 0 q' eq_refl W) as (r1 & G).
  rewrite app_nil_r in G.
  pose proof (cds_length _ _ _ _ D) as Lv.
  destruct (walk_top ss 0 0 q' garbage [] vs W Lv) as (v1 & T & Nq' & Pp).
  assert (G2 : goes n ([(0, garbage)], w, None) ([(q1, v); (0, garbage)], [], Some r0)).
  { eapply goes_trans with (n' := 0%nat); [exact G| |cbn [fst]; rewrite (push_length ss 0 0); [pose proof (cds_size _ _ _ _ D); cbn [List.length]; lia|exact Lv|congruence]].
    destruct (push 0 ss vs [(0, garbage)]) as [|(q2, v2) st2] eqn:Epush.
    { destruct ss as [|y ss]; cbn in Pp; discriminate Pp. }
    cbn [hd] in T. injection T as -> ->.
    apply goes_step; [|easy]. intros Len. unfold Bison.step. rewrite (proj2 (Z.leb_gt _ _) Len).
    rewrite (proj2 (Z.eqb_neq _ _) Nq'). cbn [Bison.lookahead]. rewrite M'. cbn [bind]. unfold reduce. rewrite E2. cbn [bind].
    rewrite En, Pp. cbn [bind]. rewrite Ea. cbn [bind]. rewrite E1. cbn [bind]. rewrite Eg. reflexivity. }
  assert (A : run_conf 2 ([(q1, v); (0, garbage)], [], Some r0) = Ok (Accepted (Some r0))).
  { cbn [run_conf Bison.run]. unfold Bison.step at 1.
    change (YYMAXDEPTH <=? Z.of_nat (List.length [(q1, v); (0, garbage)])) with false. cbn [bind].
    rewrite (proj2 (Z.eqb_neq _ _) Nq). cbn [Bison.lookahead]. rewrite M. cbn [bind]. unfold Bison.step.
    change (YYMAXDEPTH <=? Z.of_nat (List.length [(p_final P, garbage); (q1, v); (0, garbage)])) with false. cbn [bind].
    rewrite Z.eqb_refl. reflexivity. }
  destruct G2 as [(m & H)|((m & H) & B)].
  - exists (m + 2)%nat. left. unfold yyparse. change (run (m + 2) [(0, garbage)] w None) with (run_conf (m + 2) ([(0, garbage)], w, None)).
    now rewrite H.
  - exists m. right. split; [exact H|]. exact B.
Qed.
End Parser.

Definition same_prod (p p' : Z * list Z * Z) : bool :=
  (fst (fst p) =? fst (fst p')) && (snd p =? snd p') && (if list_eq_dec Z.eq_dec (snd (fst p)) (snd (fst p')) then true else false).
Lemma in_prods l x ss k : existsb (same_prod (x, ss, k)) l = true -> In (x, ss, k) l.
Proof.
  intros E. apply existsb_exists in E. destruct E as (((x', ss'), k') & I & E). unfold same_prod in E. cbn [fst snd] in E.
  rewrite !andb_true_iff in E. destruct E as ((E1 & E2) & E3). apply Z.eqb_eq in E1, E2.
  destruct (list_eq_dec Z.eq_dec ss ss') as [->|]; [|discriminate E3]. now subst.
Qed.
