(** The generated scanners do what the rules say.

    The states of a table are compared with the derivatives of the rules: [explore] finds for every state what is left to
    match of each rule, [checked] verifies by computation that all transitions agree. *)
From Coq Require Import ZArith NArith Ascii String Bool List Lia.
From Coq Require Import ZifyBool ZifyNat.
From Verif Require Import Base Float Lexer LexSpec LexProofs Flex FlexTables BaseProofs.
Import ListNotations.
Local Open Scope Z_scope.

(** *** Regular expressions that can be compared *)
Inductive cls := CSpace | CDigit | CIdStart | CIdChar | CDot | CIs (c : ascii) | CBody (q : ascii).
Inductive rr := ZNone | ZEps | ZCls (c : cls) | ZCat (a b : rr) | ZAlt (a b : rr) | ZStar (a : rr).
Definition in_cls (k : cls) : ascii -> bool :=
  match k with
  | CSpace => is_space | CDigit => is_digit | CIdStart => is_id_start | CIdChar => is_id_char | CDot => is_dot
  | CIs c => Ascii.eqb c | CBody q => fun c => negb (Ascii.eqb c q) && negb (Ascii.eqb c c_bs)
  end.
Fixpoint denote (r : rr) : re :=
  match r with
  | ZNone => RNone | ZEps => REps | ZCls k => RCls (in_cls k)
  | ZCat a b => RCat (denote a) (denote b) | ZAlt a b => RAlt (denote a) (denote b) | ZStar a => RStar (denote a)
  end.
Definition cls_eqb (a b : cls) : bool :=
  match a, b with
  | CSpace, CSpace | CDigit, CDigit | CIdStart, CIdStart | CIdChar, CIdChar | CDot, CDot => true
  | CIs c, CIs d | CBody c, CBody d => Ascii.eqb c d
  | _, _ => false
  end.
Fixpoint rr_eqb (a b : rr) : bool :=
  match a, b with
  | ZNone, ZNone | ZEps, ZEps => true
  | ZCls j, ZCls k => cls_eqb j k
  | ZCat a b, ZCat c d | ZAlt a b, ZAlt c d => rr_eqb a c && rr_eqb b d
  | ZStar a, ZStar b => rr_eqb a b
  | _, _ => false
  end.
Lemma cls_eqb_eq a b : cls_eqb a b = true -> a = b.
Proof. destruct a, b; cbn [cls_eqb]; intros H; try discriminate H; try reflexivity; apply Ascii.eqb_eq in H; now subst. Qed.
Lemma rr_eqb_eq a : forall b, rr_eqb a b = true -> a = b.
Proof.
  induction a; intros []; cbn [rr_eqb]; intros H; try discriminate H; try reflexivity.
  - apply cls_eqb_eq in H. now subst.
  - apply andb_true_iff in H. destruct H as [H1 H2]. f_equal; auto.
  - apply andb_true_iff in H. destruct H as [H1 H2]. f_equal; auto.
  - f_equal. auto.
Qed.
Fixpoint znull (r : rr) : bool :=
  match r with
  | ZNone => false | ZEps => true | ZCls _ => false
  | ZCat a b => znull a && znull b | ZAlt a b => znull a || znull b | ZStar _ => true
  end.
Definition zcat (a b : rr) : rr :=
  match a, b with ZNone, _ => ZNone | _, ZNone => ZNone | ZEps, _ => b | _, _ => ZCat a b end.
Definition zalt (a b : rr) : rr :=
  match a, b with ZNone, _ => b | _, ZNone => a | _, _ => ZAlt a b end.
Fixpoint zderiv (c : ascii) (r : rr) : rr :=
  match r with
  | ZNone => ZNone | ZEps => ZNone | ZCls k => if in_cls k c then ZEps else ZNone
  | ZCat a b => if znull a then zalt (zcat (zderiv c a) b) (zderiv c b) else zcat (zderiv c a) b
  | ZAlt a b => zalt (zderiv c a) (zderiv c b)
  | ZStar a => zcat (zderiv c a) (ZStar a)
  end.
Lemma znull_ok r : znull r = nullable (denote r).
Proof. induction r; cbn; congruence. Qed.
Lemma zcat_ok a b : denote (zcat a b) = rcat (denote a) (denote b).
Proof. destruct a, b; reflexivity. Qed.
Lemma zalt_ok a b : denote (zalt a b) = ralt (denote a) (denote b).
Proof. destruct a, b; reflexivity. Qed.
Lemma zderiv_ok c r : denote (zderiv c r) = deriv c (denote r).
Proof.
  induction r; cbn [zderiv denote deriv]; try reflexivity.
  - destruct (in_cls c0 c); reflexivity.
  - rewrite <- znull_ok. destruct (znull r1); rewrite ?zalt_ok, ?zcat_ok, IHr1, ?IHr2; reflexivity.
  - now rewrite zalt_ok, IHr1, IHr2.
  - now rewrite zcat_ok, IHr.
Qed.

(** *** What is left of the rules *)
Definition vec := list rr.
Definition derivs (c : ascii) (v : vec) : vec := map (zderiv c) v.
Definition is_none (r : rr) : bool := match r with ZNone => true | _ => false end.
Definition dead (v : vec) : bool := forallb is_none v.
(** The number of the first rule that matches what was read, 0 if there is none. *)
Fixpoint first_from (i : Z) (v : vec) : Z :=
  match v with [] => 0 | r :: v' => if znull r then i else first_from (i + 1) v' end.
Definition first (v : vec) : Z := first_from 1 v.
Fixpoint vec_eqb (a b : vec) : bool :=
  match a, b with [], [] => true | x :: a, y :: b => rr_eqb x y && vec_eqb a b | _, _ => false end.
Lemma vec_eqb_eq a : forall b, vec_eqb a b = true -> a = b.
Proof. induction a as [|x a IH]; intros [|y b] H; try discriminate H; [reflexivity|]. cbn in H. apply andb_true_iff in H. destruct H as [H1 H2]. f_equal; [now apply rr_eqb_eq|auto]. Qed.

(** The longest match, of the first rule. *)
Fixpoint dscan (v : vec) (s : string) (k : nat) (l : option (Z * nat)) : option (Z * nat) :=
  let l' := if first v =? 0 then l else Some (first v, k) in
  match s with
  | EmptyString => l'
  | String c s' => if dead (derivs c v) then l' else dscan (derivs c v) s' (S k) l'
  end.

(** *** States and vectors *)
Definition state_map := list (option vec).
Definition vec_of (m : state_map) (q : Z) : option vec :=
  if q <? 0 then None else match nth_error m (Z.to_nat q) with Some (Some v) => Some v | _ => None end.
Fixpoint set_nth (m : state_map) (n : nat) (v : vec) : state_map :=
  match m, n with
  | [], _ => []
  | _ :: m', O => Some v :: m'
  | x :: m', S n' => x :: set_nth m' n' v
  end.
Definition all_chars_list : list ascii := map (fun n => ascii_of_N (N.of_nat n)) (seq 1 255).

Section Check.
Variable T : tables.
Definition goto (q : Z) (c : ascii) : result Z :=
  (do e <- at_ (t_ec T) (Z.of_N (N_of_ascii c)); next_state T chain q e)%res.
Definition leaf_state (q : Z) : result bool := (do b <- at_ (t_base T) q; Ok (b =? t_jam T))%res.

(** Found by following the transitions; nothing is proved about it, the result is checked. *)
Fixpoint explore (n : nat) (work : list Z) (m : state_map) : state_map :=
  match n, work with
  | S n', q :: work' =>
      match vec_of m q with
      | None => explore n' work' m
      | Some v =>
          let '(work'', m') :=
            fold_left (fun wm c =>
              let '(w, m) := wm in
              match goto q c with
              | Ok q' =>
                  if dead (derivs c v) then wm
                  else match vec_of m q' with
                       | Some _ => wm
                       | None => (q' :: w, set_nth m (Z.to_nat q') (derivs c v))
                       end
              | _ => wm
              end) all_chars_list (work', m) in
          explore n' work'' m'
      end
  | _, _ => m
  end.

(** The characters with their classes, the successors of a state by class. *)
Definition classes : list (ascii * result Z) := map (fun c => (c, at_ (t_ec T) (Z.of_N (N_of_ascii c)))) all_chars_list.
Definition row (q : Z) : list (result Z) := map (fun e => next_state T chain q (Z.of_nat e)) (seq 0 (List.length (t_meta T))).
Definition in_row (rw : list (result Z)) (e : result Z) : result Z :=
  match e with Ok e => if e <? 0 then UB else match nth_error rw (Z.to_nat e) with Some x => x | None => UB end | _ => UB end.
Definition stuck (q : Z) : bool := match leaf_state q, at_ (t_accept T) q with Ok true, Ok 0 => true | _, _ => false end.

(** The state q has the vector v. *)
Definition state_ok (cs : list (ascii * result Z)) (m : state_map) (q : Z) (v : vec) : bool :=
  match at_ (t_accept T) q, leaf_state q with
  | Ok a, Ok lf =>
      (a =? first v) && negb (a =? t_eob T) &&
      (if lf then negb (a =? 0) && forallb (fun ce => dead (derivs (fst ce) v)) cs
       else
         let rw := row q in
         forallb (fun ce =>
           match in_row rw (snd ce) with
           | Ok q' =>
               let v' := derivs (fst ce) v in
               if dead v' then stuck q'
               else match vec_of m q' with Some v'' => vec_eqb v'' v' | None => false end
           | _ => false
           end) cs &&
         match in_row rw (at_ (t_ec T) 0) with
         | Ok z =>
             match at_ (t_accept T) z, leaf_state z, in_row (row z) (at_ (t_ec T) 0) with
             | Ok a', Ok false, Ok j => (a' =? t_eob T) && stuck j
             | _, _, _ => false
             end
         | _ => false
         end)
  | _, _ => false
  end.
Definition checked (m : state_map) (v0 : vec) : bool :=
  (Z.of_nat (List.length v0) <? t_eob T) && (first v0 =? 0) &&
  match vec_of m 1 with Some v => vec_eqb v v0 | None => false end &&
  match leaf_state 1 with Ok b => negb b | _ => false end &&
  let cs := classes in
  forallb (fun q => match vec_of m (Z.of_nat q) with Some v => state_ok cs m (Z.of_nat q) v | None => true end) (seq 0 (List.length m)).
End Check.

(** *** The two scanners *)
Fixpoint zlit (s : string) : rr :=
  match s with EmptyString => ZEps | String c s' => ZCat (ZCls (CIs c)) (zlit s') end.
Definition zplus (r : rr) : rr := ZCat r (ZStar r).
Definition zquoted (q : ascii) : rr :=
  ZCat (ZCls (CIs q)) (ZCat (ZStar (ZAlt (ZCat (ZCls (CIs c_bs)) (ZCls CDot)) (ZCls (CBody q)))) (ZCls (CIs q))).
Definition zident : rr := ZCat (ZCls CIdStart) (ZStar (ZCls CIdChar)).
Definition zint : rr := zplus (ZCls CDigit).
Definition zflt : rr := ZCat (zplus (ZCls CDigit)) (ZCat (ZCls (CIs ".")) (ZStar (ZCls CDigit))).
Definition x_vec : vec :=
  ZCls CSpace :: map zlit
    ["within_frequency_cap"; "segment_within"; "segment_before"; "geo_within_radius"; "contains"; "starts_with"; "ends_with";
     "-"; "="; "<>"; ">"; ">="; "<"; "<="; "("; ")"; ","; "not in"; "in"; "one of"; "none of"; "all of"; "&&"; "and"; "||";
     "or"; "not"; "is not null"; "is null"; "is empty"; "true"; "false"]%string
  ++ [zquoted c_dq; zquoted c_sq; zident; zint; zflt; ZCls CDot].
Definition e_vec : vec :=
  ZCls CSpace :: map zlit ["-"; "["; "]"; "{"; "}"; ","; ":"; "true"; "false"; "null"]%string
  ++ [zquoted c_dq; zquoted c_sq; zint; zflt; ZCls CDot].
Lemma x_vec_ok : map denote x_vec = map fst expr_rules.
Proof. reflexivity. Qed.
Lemma e_vec_ok : map denote e_vec = map fst event_rules.
Proof. reflexivity. Qed.
Definition x_map : state_map := Eval vm_compute in explore x_tables 400 [1] (None :: Some x_vec :: repeat None 173).
Definition e_map : state_map := Eval vm_compute in explore e_tables 400 [1] (None :: Some e_vec :: repeat None 38).
Lemma x_checked : checked x_tables x_map x_vec = true.
Proof. vm_compute. reflexivity. Qed.
Lemma e_checked : checked e_tables e_map e_vec = true.
Proof. vm_compute. reflexivity. Qed.

(** *** The longest match *)
Fixpoint rest (u : string) (v : vec) : vec :=
  match u with EmptyString => v | String c u' => rest u' (derivs c v) end.
Lemma first_from_pos v : forall i, 0 < i -> first_from i v = 0 \/ i <= first_from i v < i + Z.of_nat (List.length v).
Proof.
  induction v as [|r v IH]; intros i Hi; cbn [first_from List.length]; [now left|].
  destruct (znull r); [right; lia|]. destruct (IH (i + 1) ltac:(lia)); [now left|right; lia].
Qed.
Lemma first_from_some v : forall i a, 0 < i -> first_from i v = a -> a <> 0 ->
  exists pre r post, v = pre ++ r :: post /\ a = i + Z.of_nat (List.length pre) /\ znull r = true /\
    forall r', In r' pre -> znull r' = false.
Proof.
  induction v as [|r v IH]; intros i a Hi H Ha; cbn [first_from] in H; [lia|].
  destruct (znull r) eqn:E.
  - exists [], r, v. cbn [app List.length]. split; [reflexivity|split; [lia|split; [exact E|]]]. intros r' [].
  - destruct (IH (i + 1) a ltac:(lia) H Ha) as (pre & r1 & post & -> & Ea & En & Hp).
    exists (r :: pre), r1, post. cbn [app List.length]. split; [reflexivity|split; [lia|split; [exact En|]]].
    intros r' [<-|Hr]; auto.
Qed.
Lemma first_from_none v : forall i, 0 < i -> first_from i v = 0 -> forall r, In r v -> znull r = false.
Proof.
  induction v as [|r v IH]; intros i Hi H r' Hr; [destruct Hr|]. cbn [first_from] in H.
  destruct (znull r) eqn:E; [lia|]. destruct Hr as [<-|Hr]; [exact E|]. apply (IH (i + 1)); auto; lia.
Qed.
Fixpoint zrest (u : string) (r : rr) : rr := match u with EmptyString => r | String c u' => zrest u' (zderiv c r) end.
Lemma rest_map u : forall v, rest u v = map (zrest u) v.
Proof.
  induction u as [|c u IH]; intros v; cbn [rest zrest]; [symmetry; apply map_id|].
  rewrite IH. unfold derivs. now rewrite map_map.
Qed.
Lemma zrest_lang u : forall r, znull (zrest u r) = true <-> lang (denote r) u.
Proof.
  induction u as [|c u IH]; intros r; cbn [zrest].
  - rewrite znull_ok. apply nullable_iff.
  - rewrite IH, zderiv_ok. apply deriv_iff.
Qed.
Lemma dead_rest v : dead v = true -> forall u, first (rest u v) = 0.
Proof.
  intros D u. rewrite rest_map. unfold first.
  assert (Z0 : forall r, In r (map (zrest u) v) -> znull r = false).
  { intros r Hr. apply in_map_iff in Hr. destruct Hr as (r0 & <- & H0).
    unfold dead in D. rewrite forallb_forall in D. specialize (D _ H0). destruct r0; try discriminate D.
    clear. induction u as [|c u IH]; [reflexivity|exact IH]. }
  revert Z0. generalize (map (zrest u) v). generalize 1. clear. intros i l; revert i.
  induction l as [|r l IH]; intros i Z0; [reflexivity|]. cbn [first_from]. rewrite (Z0 r); [|now left].
  apply IH. intros; apply Z0; now right.
Qed.
Definition longest_first (v : vec) (s : string) (k : nat) (d o : option (Z * nat)) : Prop :=
  (exists u w a, s = (u ++ w)%string /\ o = Some (a, (k + String.length u)%nat) /\ a <> 0 /\ first (rest u v) = a /\
     forall u' w', s = (u' ++ w')%string -> first (rest u' v) <> 0 -> (String.length u' <= String.length u)%nat) \/
  (o = d /\ forall u w, s = (u ++ w)%string -> first (rest u v) = 0).
Lemma dscan_spec s : forall v k d, longest_first v s k d (dscan v s k d).
Proof.
  induction s as [|c s IH]; intros v k d; cbn [dscan].
  - destruct (first v =? 0) eqn:E.
    + right. split; [reflexivity|]. intros [|x u] w Hs; [cbn [rest]; lia|discriminate Hs].
    + left. exists EmptyString, EmptyString, (first v). cbn [String.length append rest]. split; [reflexivity|].
      split; [f_equal; f_equal; lia|]. split; [lia|split; [reflexivity|]].
      intros [|x u'] w' Hs _; [cbn; lia|discriminate Hs].
  - destruct (dead (derivs c v)) eqn:D.
    + assert (N : forall x u w, String c s = String x (u ++ w) -> first (rest (String x u) v) = 0).
      { intros x u w Hs. injection Hs as <- _. cbn [rest]. apply dead_rest, D. }
      destruct (first v =? 0) eqn:E.
      * right. split; [reflexivity|]. intros [|x u] w Hs; [cbn [rest]; lia|eapply N, Hs].
      * left. exists EmptyString, (String c s), (first v). cbn [String.length append rest]. split; [reflexivity|].
        split; [f_equal; f_equal; lia|]. split; [lia|split; [reflexivity|]].
        intros [|x u'] w' Hs Hn; [cbn; lia|]. destruct Hn. eapply N, Hs.
    + specialize (IH (derivs c v) (S k) (if first v =? 0 then d else Some (first v, k))).
      destruct IH as [(u & w & a & -> & Ho & Ha & Hf & Hm)|[Ho Hn]].
      * left. exists (String c u), w, a. rewrite Ho. cbn [append String.length rest]. split; [reflexivity|].
        split; [f_equal; f_equal; lia|]. split; [exact Ha|split; [exact Hf|]].
        intros [|x u'] w' Hs Hn; [cbn; lia|]. injection Hs as <- Hs. cbn [rest] in Hn. cbn [String.length].
        specialize (Hm _ _ Hs Hn). lia.
      * rewrite Ho. destruct (first v =? 0) eqn:E.
        -- right. split; [reflexivity|]. intros [|x u] w Hs; [cbn [rest]; lia|]. injection Hs as <- Hs. cbn [rest]. eapply Hn, Hs.
        -- left. exists EmptyString, (String c s), (first v). cbn [String.length append rest]. split; [reflexivity|].
           split; [f_equal; f_equal; lia|]. split; [lia|split; [reflexivity|]].
           intros [|x u'] w' Hs Hx; [cbn; lia|]. injection Hs as <- Hs. cbn [rest] in Hx. destruct Hx. eapply Hn, Hs.
Qed.
Lemma dscan_some s : forall v k x d, dscan v s k None = Some x -> dscan v s k d = Some x.
Proof.
  induction s as [|c s IH]; intros v k x d; cbn [dscan].
  - destruct (first v =? 0); [intros H; discriminate H|exact id].
  - destruct (dead (derivs c v)); destruct (first v =? 0); try exact id; [intros H; discriminate H|apply IH].
Qed.

Section Rules.
Context {K : Type}.
Variables (rs : list (rule K)) (v : vec).
Hypothesis Ev : map denote v = map fst rs.
Hypothesis Ef : first v = 0.

Lemma first_rule u a : first (rest u v) = a -> a <> 0 ->
  exists pre r act post, rs = pre ++ (r, act) :: post /\ a = 1 + Z.of_nat (List.length pre) /\ lang r u /\
    forall r' a', In (r', a') pre -> ~ lang r' u.
Proof.
  intros H Ha. unfold first in H. destruct (first_from_some _ 1 a ltac:(lia) H Ha) as (pre & r & post & E & -> & En & Hp).
  rewrite rest_map in E. apply map_eq_app in E. destruct E as (p1 & p2 & E1 & <- & E2).
  apply map_eq_cons in E2. destruct E2 as (r1 & p3 & -> & <- & <-).
  rewrite E1 in Ev. rewrite map_app in Ev. cbn [map] in Ev. symmetry in Ev.
  apply map_eq_app in Ev. destruct Ev as (q1 & q2 & -> & E3 & E4).
  apply map_eq_cons in E4. destruct E4 as ([r2 act] & q3 & -> & E5 & E6). cbn [fst] in E5. subst r2.
  exists q1, (denote r1), act, q3. split; [reflexivity|]. split; [|split].
  - f_equal. rewrite map_length. apply (f_equal (@List.length re)) in E3. rewrite !map_length in E3. lia.
  - now apply zrest_lang.
  - intros r' a' Hin Hl. assert (Hr : In r' (map fst q1)) by (apply in_map_iff; exists (r', a'); auto).
    rewrite E3 in Hr. apply in_map_iff in Hr. destruct Hr as (z & <- & Hz). apply zrest_lang in Hl.
    rewrite Hp in Hl; [discriminate Hl|]. apply in_map_iff. eauto.
Qed.
Lemma first_none u : first (rest u v) = 0 -> forall r a, In (r, a) rs -> ~ lang r u.
Proof.
  intros H r a Hin Hl. assert (Hr : In r (map fst rs)) by (apply in_map_iff; exists (r, a); auto).
  rewrite <- Ev in Hr. apply in_map_iff in Hr. destruct Hr as (z & <- & Hz). apply zrest_lang in Hl.
  rewrite (first_from_none _ 1 ltac:(lia) H (zrest u z)) in Hl; [discriminate Hl|]. rewrite rest_map. apply in_map_iff. eauto.
Qed.
Lemma dscan_chosen s : covers rs -> s <> EmptyString ->
  exists a k act, dscan v s 0 None = Some (a, k) /\ 0 < a <= Z.of_nat (List.length rs) /\
    nth_error rs (Z.to_nat (a - 1)) = Some act /\ chosen rs (take k s) (drop k s) (snd act) /\
    (1 <= k <= String.length s)%nat.
Proof.
  intros C Hs. destruct s as [|c s]; [now destruct Hs|]. clear Hs. destruct (C c s) as (k0 & a0 & H0).
  apply select_chosen in H0. destruct H0 as [(N0 & (pre0 & r0 & post0 & E0 & L0 & _) & _) B0].
  destruct (dscan_spec (String c s) v 0 None) as [(u & w & a & Hs & Ho & Ha & Hf & Hm)|[_ Hn]].
  - destruct (first_rule _ _ Hf Ha) as (pre & r & act & post & E & Ea & L & Hp).
    exists a, (String.length u), (r, act). rewrite Ho. cbn [Nat.add]. split; [reflexivity|].
    assert (Hu : u <> EmptyString). { intros ->. cbn [rest] in Hf. congruence. }
    rewrite Hs, take_app, drop_app. split; [|split; [|split; [|]]].
    + rewrite E, app_length. cbn [List.length]. lia.
    + rewrite E, Ea. replace (Z.to_nat _) with (List.length pre) by lia.
      rewrite nth_error_app2 by lia. now rewrite Nat.sub_diag.
    + split; [exact Hu|]. split; [exists pre, r, post; auto|].
      intros r' a' u' v' Hin Hs' Hl. apply (Hm u' v'); [now rewrite Hs|].
      intros H1. eapply first_none; eauto.
    + rewrite slength_app. destruct u; [now destruct Hu|]. cbn [String.length]. lia.
  - destruct (first_none (take k0 (String c s)) (Hn _ (drop k0 (String c s)) (eq_sym (take_drop _ _))) r0 a0).
    + rewrite E0. apply in_elt.
    + exact L0.
Qed.
End Rules.

(** *** The loop on the tables *)
Definition no_nul (s : string) : bool := all_chars (fun c => negb (Ascii.eqb c zero)) s.
Lemma in_chars c : Ascii.eqb c zero = false -> In c all_chars_list.
Proof.
  intros H. unfold all_chars_list. apply in_map_iff. exists (N.to_nat (N_of_ascii c)). rewrite N2Nat.id, ascii_N_embedding.
  split; [reflexivity|]. apply in_seq. pose proof (N_ascii_bounded c).
  assert (N_of_ascii c <> 0%N). { intros E. apply (f_equal ascii_of_N) in E. rewrite ascii_N_embedding in E. subst c. discriminate H. }
  lia.
Qed.

Lemma Ok_inj_ {A} (x y : A) : Ok x = Ok y -> x = y.
Proof. congruence. Qed.
Section Loop.
Variables (T : tables) (m : state_map) (v0 : vec).
Hypothesis Ck : checked T m v0 = true.

Lemma Ck_eob : Z.of_nat (List.length v0) < t_eob T.
Proof. pose proof Ck as C. unfold checked in C. rewrite !andb_true_iff in C. lia. Qed.
Lemma Ck_first : first v0 = 0.
Proof. pose proof Ck as C. unfold checked in C. rewrite !andb_true_iff in C. lia. Qed.
Lemma Ck_start : vec_of m 1 = Some v0.
Proof.
  pose proof Ck as C. unfold checked in C. rewrite !andb_true_iff in C. destruct C as [[[_ C] _] _].
  destruct (vec_of m 1); [|discriminate C]. f_equal. now apply vec_eqb_eq.
Qed.
Lemma Ck_start_leaf : leaf_state T 1 = Ok false.
Proof.
  pose proof Ck as C. unfold checked in C. rewrite !andb_true_iff in C. destruct C as [[_ C] _].
  destruct (leaf_state T 1) as [[]| | |]; try discriminate C; reflexivity.
Qed.
Lemma Ck_state q v : vec_of m q = Some v -> state_ok T (classes T) m q v = true.
Proof.
  intros H. pose proof Ck as C. unfold checked in C. rewrite !andb_true_iff in C. destruct C as [_ C]. cbv zeta in C.
  rewrite forallb_forall in C. pose proof H as H'. unfold vec_of in H'. destruct (q <? 0) eqn:E; [discriminate H'|].
  specialize (C (Z.to_nat q)). rewrite Z2Nat.id in C by lia. rewrite H in C. apply C.
  apply in_seq. destruct (nth_error m (Z.to_nat q)) eqn:En; [|discriminate H'].
  assert (Z.to_nat q < List.length m)%nat by (apply nth_error_Some; congruence). lia.
Qed.
Lemma in_row_ok q e x : in_row (row T q) e = Ok x -> exists e', e = Ok e' /\ next_state T chain q e' = Ok x.
Proof.
  unfold in_row. destruct e as [e| | |]; intros H; try discriminate H. exists e. split; [reflexivity|].
  destruct (e <? 0) eqn:E; [discriminate H|]. unfold row in H. rewrite nth_error_map in H.
  destruct (nth_error (seq 0 _) (Z.to_nat e)) as [n|] eqn:En; [|discriminate H]. cbn [option_map] in H.
  assert (Hl : (Z.to_nat e < List.length (t_meta T))%nat).
  { rewrite <- (seq_length (List.length (t_meta T)) 0). apply nth_error_Some. congruence. }
  apply nth_error_nth with (d := O) in En. rewrite seq_nth in En by exact Hl. cbn [Nat.add] in En. subst n.
  now rewrite Z2Nat.id in H by lia.
Qed.
Lemma stuck_ok q : stuck T q = true -> leaf_state T q = Ok true /\ at_ (t_accept T) q = Ok 0.
Proof.
  unfold stuck. destruct (leaf_state T q) as [[]| | |]; intros H; try discriminate H.
  destruct (at_ (t_accept T) q) as [[]| | |]; try discriminate H. auto.
Qed.

(** What is known of a state with a vector. *)
Record state_is (q : Z) (v : vec) : Prop := {
  si_accept : at_ (t_accept T) q = Ok (first v);
  si_leaf : exists lf, leaf_state T q = Ok lf /\
    (lf = true -> first v <> 0 /\ forall c, Ascii.eqb c zero = false -> dead (derivs c v) = true) /\
    (lf = false ->
       (forall c, Ascii.eqb c zero = false -> exists e q',
          at_ (t_ec T) (Z.of_N (N_of_ascii c)) = Ok e /\ next_state T chain q e = Ok q' /\
          if dead (derivs c v) then leaf_state T q' = Ok true /\ at_ (t_accept T) q' = Ok 0
          else vec_of m q' = Some (derivs c v)) /\
       exists e z j, at_ (t_ec T) 0 = Ok e /\ next_state T chain q e = Ok z /\ at_ (t_accept T) z = Ok (t_eob T) /\
         leaf_state T z = Ok false /\ next_state T chain z e = Ok j /\ leaf_state T j = Ok true /\ at_ (t_accept T) j = Ok 0) }.
Lemma state_is_ok q v : vec_of m q = Some v -> state_is q v.
Proof.
  intros H. apply Ck_state in H. unfold state_ok in H.
  destruct (at_ (t_accept T) q) as [a| | |] eqn:Ea; try discriminate H.
  destruct (leaf_state T q) as [lf| | |] eqn:El; try discriminate H.
  rewrite !andb_true_iff in H. destruct H as [[Ha _] H]. constructor; [rewrite Ea; f_equal; lia|].
  exists lf. split; [exact El|]. split; intros ->.
  - apply andb_true_iff in H. destruct H as [H0 H]. split; [lia|]. intros c Hc. rewrite forallb_forall in H.
    apply (H (c, at_ (t_ec T) (Z.of_N (N_of_ascii c)))). unfold classes. apply in_map_iff. exists c.
    split; [reflexivity|now apply in_chars].
  - cbv zeta in H. apply andb_true_iff in H. destruct H as [H HN]. split.
    + intros c Hc. rewrite forallb_forall in H. specialize (H (c, at_ (t_ec T) (Z.of_N (N_of_ascii c)))).
      cbn [fst snd] in H.
      assert (Hin : In (c, at_ (t_ec T) (Z.of_N (N_of_ascii c))) (classes T)).
      { unfold classes. apply in_map_iff. exists c. split; [reflexivity|now apply in_chars]. }
      specialize (H Hin). destruct (in_row _ _) as [q'| | |] eqn:Er; try discriminate H.
      apply in_row_ok in Er. destruct Er as (e & Ee & En). exists e, q'. split; [exact Ee|split; [exact En|]].
      destruct (dead (derivs c v)); [now apply stuck_ok|].
      destruct (vec_of m q') as [v'|]; [|discriminate H]. f_equal. now apply vec_eqb_eq.
    + destruct (in_row (row T q) _) as [z| | |] eqn:Er; try discriminate HN.
      apply in_row_ok in Er. destruct Er as (e & Ee & En).
      destruct (at_ (t_accept T) z) as [a'| | |] eqn:Ez; try discriminate HN.
      destruct (leaf_state T z) as [[]| | |] eqn:Elz; try discriminate HN.
      destruct (in_row (row T z) _) as [j| | |] eqn:Ej; try discriminate HN.
      apply in_row_ok in Ej. destruct Ej as (e1 & Ee1 & En1). rewrite Ee in Ee1. apply Ok_inj_ in Ee1. subst e1.
      apply andb_true_iff in HN. destruct HN as [HN1 HN2]. apply stuck_ok in HN2. destruct HN2 as [S1 S2].
      exists e, z, j. assert (a' = t_eob T) by lia. subst a'. auto 10.
Qed.

(** The last accepting state, the last match. *)
Definition rel (l : last) (d : option (Z * nat)) : Prop :=
  match l, d with
  | None, None => True
  | Some (q, k), Some (a, k') => at_ (t_accept T) q = Ok a /\ k = k'
  | _, _ => False
  end.
Definition found (d : option (Z * nat)) : result (Z * nat) := match d with Some x => Ok x | None => UB end.
Lemma rel_find q k l d : at_ (t_accept T) q = Ok 0 -> rel l d -> find_action T q k l = found d.
Proof.
  intros H R. unfold find_action. rewrite H. cbn [bind Z.eqb]. destruct l as [[q' k']|], d as [[a k'']|]; try contradiction; [|reflexivity].
  destruct R as [-> ->]. reflexivity.
Qed.
Lemma rel_remember q v k l d : at_ (t_accept T) q = Ok (first v) -> rel l d ->
  exists l', remember T q k l = Ok l' /\ rel l' (if first v =? 0 then d else Some (first v, k)).
Proof.
  intros H R. unfold remember. rewrite H. cbn [bind]. destruct (first v =? 0) eqn:E; eexists; (split; [reflexivity|]); [exact R|].
  cbn [rel]. auto.
Qed.
Lemma leaf_base q b : leaf_state T q = Ok b -> exists x, at_ (t_base T) q = Ok x /\ (x =? t_jam T) = b.
Proof. unfold leaf_state. destruct (at_ (t_base T) q); intros H; try discriminate H. apply Ok_inj_ in H. eauto. Qed.
(** A state without transitions matches with what was read. *)
Lemma leaf_dscan v s k d : first v <> 0 -> (forall c, Ascii.eqb c zero = false -> dead (derivs c v) = true) -> no_nul s = true ->
  dscan v s k d = Some (first v, k).
Proof.
  intros F D N. destruct s as [|c s]; cbn [dscan]; destruct (first v =? 0) eqn:E; try lia; [reflexivity|].
  cbn [no_nul all_chars] in N. apply andb_true_iff in N. rewrite D; [reflexivity|]. destruct N as [N _]. now apply negb_true_iff in N.
Qed.

Definition ends (q : Z) (v : vec) (s : string) (k : nat) : Prop :=
  forall l d, rel l d -> exists q' l', previous_state T q (bytes s) k l = Ok (q', l') /\
    find_action T q' (k + String.length s) l' = found (dscan v s k d).
Lemma match_ok s : forall q v k l d, vec_of m q = Some v -> leaf_state T q = Ok false -> no_nul s = true -> rel l d ->
  exists q' k' l', yy_match T q (bytes s ++ [0; 0]) k l = Ok (q', k', l') /\
    (find_action T q' k' l' = found (dscan v s k d) \/
     find_action T q' k' l' = Ok (t_eob T, (k + String.length s + 1)%nat) /\ (exists d', rel l' (Some d')) /\ ends q v s k).
Proof.
  induction s as [|c s IH]; intros q v k l d Hq Hl N R; pose proof (state_is_ok _ _ Hq) as [Sa (lf & Sl & St & Sf)].
  - rewrite Hl in Sl. apply Ok_inj_ in Sl. subst lf. destruct (Sf eq_refl) as [_ (e & z & j & Ee & En & Ea & Elz & En' & Elj & Eaj)].
    destruct (rel_remember _ _ k _ _ Sa R) as (l1 & El1 & R1).
    destruct (leaf_base _ _ Elz) as (bz & Ebz & Ejz). destruct (leaf_base _ _ Elj) as (bj & Ebj & Ejj).
    cbn [bytes list_ascii_of_string map app yy_match]. rewrite Ee. cbn [bind]. rewrite El1. cbn [bind]. rewrite En. cbn [bind].
    rewrite Ebz. cbn [bind]. rewrite Ejz. unfold remember at 1. rewrite Ea. cbn [bind].
    assert (t_eob T <> 0) by (pose proof Ck_eob; lia). destruct (t_eob T =? 0) eqn:E0; [lia|]. rewrite En'. cbn [bind]. rewrite Ebj. cbn [bind]. rewrite Ejj.
    eexists _, _, _. split; [reflexivity|]. right. split; [|split].
    + unfold find_action. rewrite Eaj. cbn [bind Z.eqb]. rewrite Ea. cbn [bind String.length]. do 2 f_equal. lia.
    + exists (t_eob T, S k). cbn [rel]. auto.
    + intros l2 d2 R2. exists q, l2. split; [reflexivity|]. cbn [dscan String.length].
      destruct (first v =? 0) eqn:E.
      * apply rel_find; [rewrite Sa; f_equal; lia|exact R2].
      * unfold find_action. rewrite Sa. cbn [bind]. rewrite E. cbn [found]. do 2 f_equal. lia.
  - rewrite Hl in Sl. apply Ok_inj_ in Sl. subst lf. destruct (Sf eq_refl) as [Sc _].
    cbn [no_nul all_chars] in N. apply andb_true_iff in N. destruct N as [Nc N]. apply negb_true_iff in Nc. change (no_nul s = true) in N.
    destruct (Sc c Nc) as (e & q' & Ee & En & Ed).
    destruct (rel_remember _ _ k _ _ Sa R) as (l1 & El1 & R1).
    cbn [bytes list_ascii_of_string map app yy_match]. rewrite Ee. cbn [bind]. rewrite El1. cbn [bind]. rewrite En. cbn [bind].
    cbn [dscan]. destruct (dead (derivs c v)) eqn:D.
    + destruct Ed as [Ed1 Ed2]. destruct (leaf_base _ _ Ed1) as (b & Eb & Ej). rewrite Eb. cbn [bind]. rewrite Ej.
      eexists _, _, _. split; [reflexivity|]. left. now apply rel_find.
    + pose proof (state_is_ok _ _ Ed) as [Sa' (lf & Sl' & St' & _)].
      destruct (leaf_base _ _ Sl') as (b & Eb & Ej). rewrite Eb. cbn [bind]. rewrite Ej. destruct lf.
      * eexists _, _, _. split; [reflexivity|]. left. destruct (St' eq_refl) as [F' D'].
        rewrite (leaf_dscan _ _ _ _ F' D' N). unfold find_action. rewrite Sa'. cbn [bind].
        destruct (first (derivs c v) =? 0) eqn:E; [lia|]. reflexivity.
      * destruct (IH _ _ (S k) _ _ Ed Sl' N R1) as (q2 & k2 & l2 & E2 & H2).
        exists q2, k2, l2. split; [exact E2|]. destruct H2 as [H2|(H2 & H3 & H4)]; [now left|right].
        split; [rewrite H2; cbn [String.length]; do 2 f_equal; lia|]. split; [exact H3|].
        intros l3 d3 R3. destruct (rel_remember _ _ k _ _ Sa R3) as (l4 & El4 & R4).
        destruct (H4 _ _ R4) as (q5 & l5 & E5 & F5). exists q5, l5.
        cbn [bytes list_ascii_of_string map previous_state dscan]. rewrite D.
        assert (Hz : Z.of_N (N_of_ascii c) =? 0 = false).
        { apply Z.eqb_neq. intros Hz. assert (N_of_ascii c = 0%N) as Hz' by lia. apply (f_equal ascii_of_N) in Hz'.
          rewrite ascii_N_embedding in Hz'. subst c. discriminate Nc. }
        rewrite Hz, Ee. cbn [bind]. rewrite El4. cbn [bind]. rewrite En. cbn [bind]. split; [exact E5|].
        cbn [String.length]. replace (k + S (String.length s))%nat with (S k + String.length s)%nat by lia. exact F5.
Qed.

Lemma bytes_length s : List.length (bytes s) = String.length s.
Proof. unfold bytes. rewrite map_length. induction s; cbn; congruence. Qed.
Context {K : Type}.
Variables (rs : list (rule K)) (acts : list (act K)).
Hypothesis Ev : map denote v0 = map fst rs.
Hypothesis Ea : acts = (map snd rs ++ [ASkip])%list.
Hypothesis Cv : covers rs.

Lemma yylex1_end : yylex1 T (bytes "") = Ok (t_eob T + 1, O).
Proof.
  destruct (match_ok EmptyString 1 v0 0 None None Ck_start Ck_start_leaf eq_refl I) as (q & k & l & E & H).
  unfold yylex1. rewrite E. cbn [bind]. destruct H as [H|(H & _ & _)].
  - exfalso. cbn [dscan] in H. rewrite Ck_first in H. cbn [Z.eqb found] in H.
    pose proof (state_is_ok _ _ Ck_start) as [Sa (lf & Sl & _ & Sf)]. rewrite Ck_start_leaf in Sl. apply Ok_inj_ in Sl. subst lf.
    destruct (Sf eq_refl) as [_ (e & z & j & Ee & En & Eaz & Elz & En' & Elj & Eaj)].
    destruct (leaf_base _ _ Elz) as (bz & Ebz & Ejz). destruct (leaf_base _ _ Elj) as (bj & Ebj & Ejj).
    cbn [bytes list_ascii_of_string map app yy_match] in E. rewrite Ee in E. cbn [bind] in E. unfold remember at 1 in E. rewrite Sa in E. cbn [bind] in E. rewrite En in E. cbn [bind] in E.
    rewrite Ebz in E. cbn [bind] in E. rewrite Ejz in E. unfold remember at 1 in E. rewrite Eaz in E. cbn [bind] in E.
    assert (t_eob T <> 0) by (pose proof Ck_eob; lia). destruct (t_eob T =? 0) eqn:E0; [lia|]. rewrite En' in E. cbn [bind] in E. rewrite Ebj in E. cbn [bind] in E. rewrite Ejj in E.
    apply Ok_inj_ in E. injection E as <- <- <-. unfold find_action in H. rewrite Eaj in H. cbn [bind Z.eqb] in H. rewrite Eaz in H. discriminate H.
  - rewrite H. cbn [bind]. rewrite Z.eqb_refl. reflexivity.
Qed.
Lemma yylex1_some s : no_nul s = true -> s <> EmptyString ->
  exists a k act, yylex1 T (bytes s) = Ok (a, k) /\ 0 < a <= Z.of_nat (List.length rs) /\ action acts a = Some act /\
    chosen rs (take k s) (drop k s) act /\ (1 <= k <= String.length s)%nat.
Proof.
  intros N Hs. destruct (dscan_chosen rs v0 Ev Ck_first s Cv Hs) as (a & k & [r act] & D & Ba & En & Ch & Bk). cbn [snd] in Ch.
  exists a, k, act. assert (El : List.length v0 = List.length rs) by (rewrite <- (map_length denote), Ev; apply map_length).
  pose proof Ck_eob as Hb. split; [|split; [exact Ba|split; [|split; [exact Ch|exact Bk]]]].
  - destruct (match_ok s 1 v0 0 None None Ck_start Ck_start_leaf N I) as (q & k1 & l & E & H).
    unfold yylex1. rewrite E. cbn [bind]. destruct H as [H|(H & (d' & Hd) & He)].
    + rewrite H, D. cbn [found bind]. destruct (a =? t_eob T) eqn:E1; [lia|]. reflexivity.
    + rewrite H. cbn [bind]. rewrite Z.eqb_refl, bytes_length. cbn [Nat.add].
      destruct (Nat.leb _ _) eqn:E1; [lia|]. destruct (Nat.ltb _ _) eqn:E2; [lia|]. destruct (Nat.eqb _ _) eqn:E3; [lia|].
      destruct (He _ _ Hd) as (q2 & l2 & E4 & F4). rewrite E4. cbn [bind]. cbn [Nat.add] in F4. rewrite F4, (dscan_some _ _ _ _ _ D). reflexivity.
  - unfold action. destruct (a <=? 0) eqn:E1; [lia|]. rewrite Ea, nth_error_app1.
    + rewrite nth_error_map. unfold rule in *. rewrite En. reflexivity.
    + rewrite map_length. unfold rule in *. apply nth_error_Some. rewrite En. intros H; discriminate H.
Qed.
Lemma no_nul_drop k : forall s, no_nul s = true -> no_nul (drop k s) = true.
Proof.
  induction k as [|k IH]; intros [|c s] N; cbn [drop]; try exact N. apply IH. cbn [no_nul all_chars] in N. now apply andb_true_iff in N.
Qed.
Lemma yylex_all_flex n : forall s, no_nul s = true -> (String.length s < n)%nat ->
  exists ts, yylex_all T acts n s = Ok ts /\ flex rs s ts.
Proof.
  induction n as [|n IH]; intros s N Hn; [lia|]. cbn [yylex_all]. destruct s as [|c s].
  - rewrite yylex1_end. cbn [bind]. rewrite Z.eqb_refl. exists []. split; [reflexivity|constructor].
  - destruct (yylex1_some (String c s) N ltac:(intros H; discriminate H)) as (a & k & act & E & Ba & Eact & Ch & Bk).
    rewrite E. cbn [bind]. assert (El : List.length v0 = List.length rs) by (rewrite <- (map_length denote), Ev; apply map_length).
    pose proof Ck_eob. destruct (a =? t_eob T + 1) eqn:E1; [lia|]. destruct (a =? 0) eqn:E2; [lia|]. destruct (a =? t_eob T) eqn:E3; [lia|].
    cbn [orb]. rewrite Eact.
    assert (Hd : (String.length (drop k (String c s)) < n)%nat) by (rewrite length_drop; lia).
    destruct (IH _ (no_nul_drop k _ N) Hd) as (ts & Et & Ft).
    destruct act as [|f|].
    + exists ts. split; [exact Et|rewrite <- (take_drop k (String c s)); now apply fx_skip].
    + rewrite Et. cbn [bind]. eexists. split; [reflexivity|rewrite <- (take_drop k (String c s)) at 1; now apply fx_tok].
    + exists []. split; [reflexivity|rewrite <- (take_drop k (String c s)); now apply fx_stop].
Qed.
End Loop.

Theorem x_lex_ok s : no_nul s = true -> x_lex s = Ok (lex s).
Proof.
  intros N. destruct (yylex_all_flex x_tables x_map x_vec x_checked expr_rules x_actions x_vec_ok eq_refl expr_covers (S (String.length s)) s N ltac:(lia)) as (ts & E & F).
  unfold x_lex. rewrite E. f_equal. symmetry. now apply lex_iff.
Qed.
Theorem e_lex_ok s : no_nul s = true -> e_lex s = Ok (elex s).
Proof.
  intros N. destruct (yylex_all_flex e_tables e_map e_vec e_checked event_rules e_actions e_vec_ok eq_refl event_covers (S (String.length s)) s N ltac:(lia)) as (ts & E & F).
  unfold e_lex. rewrite E. f_equal. symmetry. now apply elex_iff.
Qed.
