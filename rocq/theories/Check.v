(** Decision procedures for the conditions of Spec.v and Hist.v, used to show concrete cases that meet
    the hypotheses of the theorems.  Every checker is proved sound. *)
From Coq Require Import ZArith NArith String Bool List Lia Floats.SpecFloat.
From Coq Require Import ZifyBool ZifyNat ZifyN.
From Verif Require Import Base Float FloatSpec Value Ast Config Assign Special Match Bound Tree PredMap Source Api Spec TreeSpec Hist.
From Verif Require Import BaseProofs ExtProofs ResProofs.
Import ListNotations.
Local Open Scope Z_scope.

Definition vtype_dec (a b : vtype) : {a = b} + {a <> b}.
Proof. decide equality. Defined.

Definition has_type_b (ds : list domain) (x : string) (t : vtype) : bool :=
  match decl ds x with Some (_, d) => if vtype_dec (btype (d_bound d)) t then true else false | None => false end.
Definition declared_b (ds : list domain) (x : string) : bool :=
  match decl ds x with Some _ => true | None => false end.
Definition required_b (ds : list domain) (x : string) : bool :=
  match decl ds x with Some (_, d) => negb (d_undef d) | None => false end.
Definition inner_int_b (z : Z) : bool := (INT64_MIN + 1 <? z) && (z <? INT64_MAX - 1).
Definition int64_b (z : Z) : bool := (INT64_MIN <=? z) && (z <=? INT64_MAX).
Definition not_nan_b (f : flt) : bool := match f with SpecFloat.S754_nan => false | _ => true end.
Definition plain_float_b (f : flt) : bool :=
  match f with SpecFloat.S754_nan | SpecFloat.S754_zero true => false | _ => true end.
Definition short_b {A} (l : list A) : bool := Z.of_nat (List.length l) <? 2 ^ 31.
Definition some_b {A} (l : list A) : bool := match l with [] => false | _ => true end.
Fixpoint nodup_b {A} (eqb : A -> A -> bool) (l : list A) : bool :=
  match l with [] => true | x :: t => negb (existsb (eqb x) t) && nodup_b eqb t end.

Definition atom_ok_b (ds : list domain) (cs : constants) (a : atom) : bool :=
  match a with
  | ALit _ => true
  | AVar x => has_type_b ds x TBool
  | ACmp _ x (CInt z) => (has_type_b ds x TInt && inner_int_b z) || has_type_b ds x TFloat
  | ACmp _ x (CFloat f) => has_type_b ds x TFloat && not_nan_b f
  | AEq _ x (SInt z) => (has_type_b ds x TInt && inner_int_b z) || (has_type_b ds x TIEnum || has_type_b ds x TFloat)
  | AEq _ x (SFlt f) => has_type_b ds x TFloat && not_nan_b f
  | AEq _ x (SStr _) => has_type_b ds x TStr
  | AIn _ x (SInts l) => has_type_b ds x TInt && some_b l && forallb inner_int_b l && short_b l
  | AIn _ x (SStrs l) => has_type_b ds x TStr && some_b l && short_b l
  | AHas _ (SInt z) x => has_type_b ds x TIntList && inner_int_b z
  | AHas _ (SStr _) x => has_type_b ds x TStrList
  | AHas _ (SFlt _) _ => false
  | AList op x (SInts l) =>
      has_type_b ds x TIntList && some_b l && forallb inner_int_b l && match op with LAllOf => nodup_b Z.eqb l | _ => true end
  | AList op x (SStrs l) =>
      has_type_b ds x TStrList && some_b l && match op with LAllOf => nodup_b String.eqb l | _ => true end
  | ANull _ x => declared_b ds x
  | AFreq t _ value window =>
      match get_type_from_string t with FTInvalid => false | _ => true end
      && has_type_b ds "frequency_caps" TFreqs && has_type_b ds "now" TInt && required_b ds "now"
      && ((0 <=? value) && (value <? 2 ^ 32)) && ((0 <=? window) && (window <? 2 ^ 63))
      && match const_int cs (freq_const (get_type_from_string t)) with Some z => (0 <=? z) && (z <? 2 ^ 32) | None => true end
  | ASeg _ x id seconds =>
      has_type_b ds (match x with Some x => x | None => "segments_with_timestamp"%string end) TSegs
      && has_type_b ds "now" TInt && int64_b id && ((- 2 ^ 31 <=? seconds) && (seconds <? 2 ^ 31))
  | AGeo lat lon radius =>
      has_type_b ds "latitude" TFloat && has_type_b ds "longitude" TFloat
      && plain_float_b lat && plain_float_b lon && plain_float_b radius
  | AStr _ x _ => has_type_b ds x TStr
  end.
Definition src_ok_b (ds : list domain) (cs : constants) (x : src) : bool := forallb (atom_ok_b ds cs) (src_atoms x).
Definition no_range_b (na : bool * atom) : bool :=
  match snd na with
  | AVar _ | ACmp _ _ _ => false
  | AEq QEq _ _ | AIn SIn _ _ | AHas SIn _ _ | AList (LOneOf | LAllOf) _ _ => fst na
  | AEq QNe _ _ | AIn SNotIn _ _ | AHas SNotIn _ _ | AList LNoneOf _ _ => negb (fst na)
  | _ => true
  end.
Definition given_b (ds : list domain) (ev : event) (x : string) : bool :=
  required_b ds x || match lookup ev x with Some _ => true | None => false end.
Definition may_hold_b (ds : list domain) (ev : event) (na : bool * atom) : bool :=
  forallb (given_b ds ev) (atom_attrs (snd na))
  || Bool.eqb (fst na) match snd na with ANull NIsNull _ => false | _ => true end.
Definition may_fail_b (ds : list domain) (ev : event) (na : bool * atom) : bool :=
  forallb (given_b ds ev) (atom_attrs (snd na))
  || Bool.eqb (fst na) match snd na with ANull NIsNull _ => true | _ => false end.
Fixpoint short_ok_b (ds : list domain) (ev : event) (neg : bool) (x : src) : bool :=
  match x with
  | XAtom _ => true
  | XNot a => short_ok_b ds ev (negb neg) a
  | XAnd a b =>
      (negb neg || forallb (may_hold_b ds ev) (signed_atoms neg (XAnd a b)))
      && short_ok_b ds ev neg a && short_ok_b ds ev neg b
  | XOr a b =>
      (negb neg || forallb (may_fail_b ds ev) (signed_atoms neg (XOr a b)))
      && short_ok_b ds ev neg a && short_ok_b ds ev neg b
  end.
Fixpoint range_ok_b (neg : bool) (x : src) : bool :=
  match x with
  | XAtom _ => true
  | XNot a => range_ok_b (negb neg) a
  | XAnd a b => (negb neg || forallb no_range_b (signed_atoms neg (XAnd a b))) && range_ok_b neg a && range_ok_b neg b
  | XOr a b => range_ok_b neg a && range_ok_b neg b
  end.
Definition fits_tab_b {A} (dec : forall x y : A, {x = y} + {x <> y}) (T : N -> list A) (S : list (N * A)) (rm : N -> option Z) : bool :=
  forallb (fun vs => (if in_dec dec (snd vs) (T (fst vs)) then true else false)
    || (Z.of_nat (List.length (nodup dec (T (fst vs) ++ map snd (filter (fun x => (fst x =? fst vs)%N) S))))
        <=? match rm (fst vs) with Some r => Z.min r (SIZE_MAX - 1) | None => SIZE_MAX - 1 end)) S.
Definition fits_b (c : config) (always : bool) (x : src) : bool :=
  fits_tab_b string_dec (strs c) (src_strs (c_domains c) x) (fun v => room c v always)
  && fits_tab_b Z.eq_dec (ints c) (src_ints (c_domains c) x) (fun v => room c v always).
Definition accepts_b (ds : list domain) (c : config) (always : bool) (cs : constants) (x : src) : bool :=
  src_ok_b ds cs x && fits_b c always x.

Definition dom_fine_b (b : bound) : bool :=
  match b with
  | BBool lo hi => negb lo && hi
  | BInt _ lo hi => (INT64_MIN <=? lo) && (lo <=? hi) && (hi <=? INT64_MAX)
  | BStr t lo hi => match t with TStr | TStrList | TIEnum => true | _ => false end && (lo =? 0) && (0 <=? hi) && (hi <=? SIZE_MAX)
  | _ => true
  end.
Definition decls_ok_b (ds : list domain) : bool :=
  (N.of_nat (List.length ds) <=? INVALID_VAR)%N && forallb (fun d => dom_fine_b (d_bound d)) ds.
Definition whole_floats_b (c : config) : bool :=
  forallb (fun d => match d_bound d with
                    | BFloat _ _ => match splitable c (d_bound d) with Ok false => true | _ => false end
                    | _ => true
                    end) (c_domains c).
Definition canonical_b (f : flt) : bool :=
  match f with
  | S754_zero _ => true
  | S754_finite _ m e => (Zpos m <? 2 ^ 53) && (-1074 <=? e) && (e <=? 971) && ((2 ^ 52 <=? Zpos m) || (e =? -1074))
  | _ => false
  end.
Definition coarse_b (f : flt) : bool :=
  canonical_b f && (units f =? units f / 2 ^ 1064 * 2 ^ 1064) && (Z.abs (units f / 2 ^ 1064) <=? 2 ^ 50).
Definition finite_range_b (b : bound) : bool :=
  match b with
  | BFloat lo hi => canonical_b lo && canonical_b hi && (units lo <=? units hi)
                    && negb (feq lo (fopp DBL_MAX)) && negb (feq hi DBL_MAX)
  | _ => false
  end.
Definition whole_width_b (lo hi : flt) : bool := units hi - units lo =? (units hi - units lo) / 2 ^ 1074 * 2 ^ 1074.
Definition split_floats_b (whole : bool) (c c' : config) : bool :=
  forallb (fun p => match d_bound (snd p) with
                    | BFloat lo hi =>
                        implb (finite_range_b (d_bound (fst p))) (finite_range_b (d_bound (snd p)))
                        && (match splitable c' (d_bound (snd p)) with Ok false => true | _ => false end
                            || finite_range_b (d_bound (snd p)) && coarse_b lo && coarse_b hi && implb whole (whole_width_b lo hi))
                    | _ => true
                    end) (combine (c_domains c) (c_domains c')).
Definition floats_b (m : floats) (c c' : config) : bool :=
  if can_split m then split_floats_b (only_whole m) c c' else whole_floats_b c'.

Fixpoint segs_ordered_b (l : list segment) : bool :=
  match l with [] => true | s :: t => forallb (fun s' => sg_id s <=? sg_id s') t && segs_ordered_b t end.
Definition value_ok_b (t : vtype) (v : value) : bool :=
  match t, v with
  | TBool, VBool _ => true
  | TInt, VInt z => int64_b z
  | TFloat, VFloat f => not_nan_b f
  | TStr, VStr _ => true
  | TIEnum, VInt _ => true
  | TIntList, VIntList l => forallb int64_b l && short_b l
  | TStrList, VStrList l => short_b l
  | TSegs, VSegs l => segs_ordered_b l
  | TFreqs, VFreqs _ => true
  | TStrList, VIntList [] | TSegs, VIntList [] | TFreqs, VIntList [] => true
  | _, _ => false
  end.
Definition event_ok_b (ds : list domain) (ev : event) : bool :=
  forallb (fun nv => match nv with
                     | (n, Some v) => match decl ds n with Some (_, d) => value_ok_b (btype (d_bound d)) v | None => false end
                     | (_, None) => true
                     end) ev.
(** Position [i] is the one found under its own (lower-case) name, and the event has a value for it. *)
Fixpoint complete_from (all ds : list domain) (i : N) (ev : event) : bool :=
  match ds with
  | [] => true
  | d :: t =>
      (d_undef d || match decl all (d_attr d) with
                    | Some (j, _) => (i =? j)%N && match lookup ev (d_attr d) with Some _ => true | None => false end
                    | None => false
                    end) && complete_from all t (i + 1) ev
  end.
Definition complete_b (ds : list domain) (ev : event) : bool := complete_from ds ds 0 ev.
Definition few_preds_b (t : betree) : bool := (pm_count (bt_pm t) <=? INVALID_PRED)%N.

(** *** Soundness *)
Ltac bools :=
  repeat match goal with
         | H : (_ && _) = true |- _ => apply andb_prop in H; destruct H
         end.
Lemma has_type_b_ok ds x t : has_type_b ds x t = true -> has_type ds x t.
Proof.
  unfold has_type_b, has_type. destruct (decl ds x) as [[v d]|]; [|discriminate].
  destruct (vtype_dec (btype (d_bound d)) t); [|discriminate]. eauto.
Qed.
Lemma declared_b_ok ds x : declared_b ds x = true -> declared ds x.
Proof. unfold declared_b, declared. destruct (decl ds x) as [[v d]|]; [eauto|discriminate]. Qed.
Lemma required_b_ok ds x : required_b ds x = true -> required ds x.
Proof.
  unfold required_b, required. destruct (decl ds x) as [[v d]|]; [|discriminate]. rewrite negb_true_iff. eauto.
Qed.
Lemma inner_int_b_ok z : inner_int_b z = true -> inner_int z.
Proof. unfold inner_int_b, inner_int. lia. Qed.
Lemma int64_b_ok z : int64_b z = true -> is_int64 z.
Proof. unfold int64_b, is_int64. lia. Qed.
Lemma not_nan_b_ok f : not_nan_b f = true -> not_nan f.
Proof. now destruct f. Qed.
Lemma plain_float_b_ok f : plain_float_b f = true -> plain_float f.
Proof. unfold plain_float. destruct f as [[]|[]| |]; easy. Qed.
Lemma short_b_ok {A} (l : list A) : short_b l = true -> short l.
Proof. unfold short_b, short. rewrite Z.ltb_lt. easy. Qed.
Lemma some_b_ok {A} (l : list A) : some_b l = true -> l <> [].
Proof. now destruct l. Qed.
Lemma nodup_b_ok {A} (eqb : A -> A -> bool) l : (forall x, eqb x x = true) -> nodup_b eqb l = true -> NoDup l.
Proof.
  intros R. induction l as [|x l IH]; cbn [nodup_b]; [constructor|]. intros H. bools. constructor; [|auto].
  intros K. rewrite negb_true_iff in H. assert (existsb (eqb x) l = true); [|congruence]. apply existsb_exists. eauto.
Qed.
Lemma forallb_Forall {A} (f : A -> bool) (P : A -> Prop) l : (forall x, f x = true -> P x) -> forallb f l = true -> Forall P l.
Proof. intros H F. apply Forall_forall. rewrite forallb_forall in F. auto. Qed.

Lemma atom_ok_b_ok ds cs a : atom_ok_b ds cs a = true -> atom_ok ds cs a.
Proof.
  pose proof (has_type_b_ok ds) as HT. pose proof inner_int_b_ok as HI. pose proof not_nan_b_ok as HN.
  pose proof (@some_b_ok Z) as HS. pose proof (@some_b_ok string) as HS'.
  destruct a as [x|b|op x [z|f]|op x [z|f|s]|op x [l|l]|op [z|f|s] x|op x [l|l]|op x|t ns value len|op x id s|a b r|op x p];
    cbn [atom_ok_b atom_ok]; intros H; bools;
    repeat match goal with H : (_ || _) = true |- _ => apply orb_prop in H; destruct H; bools end; auto 10.
  - repeat split; auto using short_b_ok. eapply forallb_Forall; [|eassumption]. auto.
  - repeat split; auto using short_b_ok.
  - discriminate.
  - repeat split; auto. { eapply forallb_Forall; [|eassumption]. auto. }
    intros ->. eapply nodup_b_ok; [|eassumption]. apply Z.eqb_refl.
  - repeat split; auto. intros ->. eapply nodup_b_ok; [|eassumption]. apply String.eqb_refl.
  - now apply declared_b_ok.
  - assert (get_type_from_string t <> FTInvalid) by (intros E; rewrite E in *; discriminate).
    rewrite Z.leb_le, Z.ltb_lt in *. sp; auto using required_b_ok.
    intros z E. rewrite E in *. bools. lia.
  - rewrite Z.leb_le, Z.ltb_lt in *. sp; auto using int64_b_ok.
  - sp; auto using plain_float_b_ok.
Qed.
Lemma src_ok_b_ok ds cs x : src_ok_b ds cs x = true -> src_ok ds cs x.
Proof. apply forallb_Forall, atom_ok_b_ok. Qed.
Lemma no_range_b_ok na : no_range_b na = true -> no_range na.
Proof.
  unfold no_range_b, no_range. destruct na as [n a]. cbn [fst snd].
  destruct a as [ | | |[]|[]|[]|[]| | | | | ]; rewrite ?negb_true_iff; easy.
Qed.
Lemma given_b_ok ds ev x : given_b ds ev x = true -> given ds ev x.
Proof.
  unfold given_b, given. rewrite orb_true_iff. intros [H|H]; [left; now apply required_b_ok|right].
  now destruct (lookup ev x).
Qed.
Lemma may_hold_b_ok ds ev na : may_hold_b ds ev na = true -> may_hold ds ev na.
Proof.
  unfold may_hold_b, may_hold. rewrite orb_true_iff, eqb_true_iff. intros [H|H]; [left|now right].
  eapply forallb_Forall; [|exact H]. apply given_b_ok.
Qed.
Lemma may_fail_b_ok ds ev na : may_fail_b ds ev na = true -> may_fail ds ev na.
Proof.
  unfold may_fail_b, may_fail. rewrite orb_true_iff, eqb_true_iff. intros [H|H]; [left|now right].
  eapply forallb_Forall; [|exact H]. apply given_b_ok.
Qed.
Lemma short_ok_b_ok ds ev x : forall neg, short_ok_b ds ev neg x = true -> short_ok ds ev neg x.
Proof.
  induction x; cbn [short_ok_b short_ok]; intros neg H; bools; auto.
  - sp; auto. intros ->. cbn [negb orb] in H. eapply forallb_Forall; [|exact H]. apply may_hold_b_ok.
  - sp; auto. intros ->. cbn [negb orb] in H. eapply forallb_Forall; [|exact H]. apply may_fail_b_ok.
Qed.
Lemma range_ok_b_ok x : forall neg, range_ok_b neg x = true -> range_ok neg x.
Proof.
  induction x; cbn [range_ok_b range_ok]; intros neg H; bools; auto.
  sp; auto. intros ->. cbn [negb orb] in H. eapply forallb_Forall; [|exact H]. apply no_range_b_ok.
Qed.
Lemma fits_tab_b_ok {A} dec (T : N -> list A) S rm : fits_tab_b dec T S rm = true -> fits_tab dec T S rm.
Proof.
  unfold fits_tab_b, fits_tab. rewrite forallb_forall. intros H v s Hs Hn. specialize (H (v, s) Hs). cbn [fst snd] in H.
  destruct (in_dec dec s (T v)); [easy|]. cbn [orb] in H. now apply Z.leb_le in H.
Qed.
Lemma fits_b_ok c always x : fits_b c always x = true -> fits c always x.
Proof. unfold fits_b, fits. intros H. bools. split; eapply fits_tab_b_ok; eassumption. Qed.
Lemma accepts_b_ok ds c always cs x : accepts_b ds c always cs x = true -> accepts ds c always cs x.
Proof. unfold accepts_b, accepts. intros H. bools. auto using src_ok_b_ok, fits_b_ok. Qed.
Lemma dom_fine_b_ok b : dom_fine_b b = true -> dom_fine b.
Proof.
  destruct b as [lo hi|w lo hi|lo hi|w lo hi| | ]; cbn [dom_fine_b dom_fine]; intros H; bools; auto.
  - rewrite negb_true_iff in *. auto.
  - rewrite !Z.leb_le in *. auto.
  - rewrite !Z.leb_le, Z.eqb_eq in *. sp; auto. destruct w; auto; discriminate.
Qed.
Lemma decls_ok_b_ok ds : decls_ok_b ds = true -> decls_ok ds.
Proof.
  unfold decls_ok_b, decls_ok. intros H. bools. split; [now apply N.leb_le|]. eapply forallb_Forall; [|eassumption].
  intros d. apply dom_fine_b_ok.
Qed.
Lemma whole_floats_b_ok c : whole_floats_b c = true -> whole_floats c.
Proof.
  unfold whole_floats_b, whole_floats. rewrite forallb_forall. intros H d lo hi Hd E. specialize (H d Hd). rewrite E in *.
  destruct (splitable c (BFloat lo hi)) as [[]| | |]; easy.
Qed.
Lemma canonical_b_iff f : canonical_b f = true <-> canonical f.
Proof.
  destruct f as [s|s| |s m e]; cbn [canonical_b canonical]; try (split; intros H; trivial; now (discriminate H || contradiction)).
  rewrite !andb_true_iff, orb_true_iff, Z.ltb_lt, !Z.leb_le, Z.eqb_eq. tauto.
Qed.
Lemma coarse_b_ok f : coarse_b f = true -> coarse f.
Proof.
  unfold coarse_b, coarse. rewrite !andb_true_iff, canonical_b_iff, Z.eqb_eq, Z.leb_le. intros [[A B] C].
  split; [exact A|]. exists (units f / 2 ^ 1064). split; [exact B|exact C].
Qed.
Lemma finite_range_b_iff b : finite_range_b b = true <-> finite_range b.
Proof.
  destruct b as [lo hi|w lo hi|lo hi|w lo hi| | ]; cbn [finite_range_b finite_range]; try (split; intros H; now (discriminate H || contradiction)).
  rewrite !andb_true_iff, !negb_true_iff, !canonical_b_iff, Z.leb_le. tauto.
Qed.
Lemma nthN_combine {A B} (l : list A) (l' : list B) : forall v a b, nthN l v = Some a -> nthN l' v = Some b -> In (a, b) (combine l l').
Proof.
  intros v a b. rewrite !nthN_nth. generalize (N.to_nat v). clear v. revert l'.
  induction l as [|x l IH]; intros l' [|n]; destruct l' as [|y l']; cbn [nth_error combine]; try discriminate.
  - intros [= ->] [= ->]. now left.
  - intros H1 H2. right. now apply (IH l' n).
Qed.
Lemma split_floats_b_ok whole c c' : split_floats_b whole c c' = true -> split_floats whole c c'.
Proof.
  unfold split_floats_b, split_floats. rewrite forallb_forall. intros H v d d' lo hi N N' E.
  specialize (H _ (nthN_combine _ _ _ _ _ N N')). cbn [fst snd] in H. rewrite E in H. rewrite E.
  apply andb_prop in H. destruct H as [H1 H2]. rewrite <- !finite_range_b_iff. split.
  - destruct (finite_range_b (d_bound d)); intros K; [exact H1|discriminate K].
  - apply orb_prop in H2. destruct H2 as [H2|H2].
    + left. destruct (splitable c' (BFloat lo hi)) as [[]| | |]; try discriminate H2. reflexivity.
    + right. apply andb_prop in H2. destruct H2 as [H2 H5]. apply andb_prop in H2. destruct H2 as [H2 H3]. apply andb_prop in H2. destruct H2 as [H2 H4].
      split; [exact H2|]. split; [now apply coarse_b_ok|]. split; [now apply coarse_b_ok|]. intros ->. cbn [implb] in H5.
      apply Z.eqb_eq in H5. exists ((units hi - units lo) / 2 ^ 1074). exact H5.
Qed.
Lemma floats_b_ok m c c' : floats_b m c c' = true -> floats_ok m c c'.
Proof. destruct m; [apply whole_floats_b_ok|apply split_floats_b_ok|apply split_floats_b_ok]. Qed.
Lemma segs_ordered_b_ok l : segs_ordered_b l = true -> segs_ordered l.
Proof.
  induction l as [|s l IH]; cbn [segs_ordered_b segs_ordered]; [easy|]. intros H. bools. split; [|auto].
  rewrite forallb_forall in H. intros s' Hs. specialize (H s' Hs). now apply Z.leb_le.
Qed.
Lemma value_ok_b_ok t v : value_ok_b t v = true -> value_ok t v.
Proof.
  destruct t, v; cbn [value_ok_b value_ok]; intros H; bools; try exact I; try discriminate;
    auto using int64_b_ok, not_nan_b_ok, short_b_ok, segs_ordered_b_ok.
  - split; [|now apply short_b_ok]. eapply forallb_Forall; [|eassumption]. apply int64_b_ok.
  - destruct l; [exact I|discriminate].
  - destruct l; [exact I|discriminate].
  - destruct l; [exact I|discriminate].
Qed.
Lemma event_ok_b_ok ds ev : event_ok_b ds ev = true -> event_ok ds ev.
Proof.
  unfold event_ok_b, event_ok. rewrite forallb_forall. intros H n v Hn. specialize (H _ Hn). cbn in H.
  destruct (decl ds n) as [[i d]|]; [|discriminate]. exists i, d. auto using value_ok_b_ok.
Qed.
Lemma complete_from_ok all ev t : forall i pre, all = pre ++ t -> i = N.of_nat (List.length pre) ->
  complete_from all t i ev = true -> forall k d, nthN t k = Some d -> d_undef d = false ->
  exists n, decl all n = Some ((i + k)%N, d) /\ lookup ev n <> None.
Proof.
  induction t as [|d t IH]; intros i pre HA HI H k d' HK HU.
  - rewrite nthN_nth in HK. destruct (N.to_nat k); discriminate.
  - cbn [complete_from] in H. bools. rewrite nthN_nth in HK. destruct (N.to_nat k) as [|k'] eqn:EK; cbn [nth_error] in HK.
    + injection HK as ->. rewrite HU in H. cbn [orb] in H. exists (d_attr d').
      destruct (decl all (d_attr d')) as [[j d0]|] eqn:D; [|discriminate]. bools. apply N.eqb_eq in H. subst j.
      replace (i + k)%N with i by lia. split; [|destruct (lookup ev (d_attr d')); easy].
      f_equal. f_equal. apply decl_spec in D. destruct D as [D _]. rewrite HI, HA in D.
      rewrite nthN_nth, Nnat.Nat2N.id, nth_error_app2, PeanoNat.Nat.sub_diag in D by lia. cbn in D. congruence.
    + destruct (IH (i + 1)%N (pre ++ [d])) with (k := N.of_nat k') (d := d') as (n & D & L); auto.
      * now rewrite <- app_assoc.
      * rewrite app_length. cbn. lia.
      * now rewrite nthN_nth, Nnat.Nat2N.id.
      * exists n. split; [|easy]. rewrite D. f_equal. f_equal. lia.
Qed.
Lemma complete_b_ok ds ev : complete_b ds ev = true -> complete ds ev.
Proof. intros H i d N U. apply (complete_from_ok ds ev ds 0%N []) with (k := i) (d := d) in H; auto. Qed.
Lemma few_preds_b_ok t : few_preds_b t = true -> few_preds t.
Proof. unfold few_preds_b, few_preds. now rewrite N.leb_le. Qed.

Definition apart_b (y k : flt) : bool :=
  canonical_b y && canonical_b k && ((units y =? units k) || (2 ^ 1022 <=? Z.abs (units y - units k))).
Definition clear_b (ds : list domain) (ev : event) (x : src) : bool :=
  forallb (fun a => match constant_of a with
                    | Some (n, k) =>
                        match decl ds n, lookup ev n with
                        | Some (_, d), Some (VFloat f) => negb (finite_range_b (d_bound d)) || apart_b f k
                        | _, _ => true
                        end
                    | None => true
                    end) (src_atoms x).
Lemma apart_b_ok y k : apart_b y k = true -> apart y k.
Proof.
  unfold apart_b, apart. rewrite !andb_true_iff, orb_true_iff, !canonical_b_iff, Z.eqb_eq, Z.leb_le. tauto.
Qed.
Lemma clear_b_ok ds ev x : clear_b ds ev x = true -> clear ds ev x.
Proof.
  unfold clear_b, clear. rewrite forallb_forall, Forall_forall. intros H a Ha n k f v d E1 E2 FR E3. specialize (H a Ha).
  rewrite E1, E2, E3 in H. apply finite_range_b_iff in FR. rewrite FR in H. now apply apart_b_ok.
Qed.
Definition calm_b (t : betree) (ev : event) (e : entry) : bool := short_ok_b (c_domains (bt_cfg t)) ev false (e_src e).
Lemma calm_b_ok t ev e : calm_b t ev e = true -> calm t ev e.
Proof. apply short_ok_b_ok. Qed.
Definition fair_one_b (m : floats) (t : betree) (ev : event) (e : entry) : bool :=
  calm_b t ev e && range_ok_b false (e_src e)
  && match m with NoSplit => true | _ => clear_b (c_domains (bt_cfg t)) ev (e_src e) end.
Lemma fair_one_b_ok m t ev e : fair_one_b m t ev e = true -> fair_one m t ev e.
Proof.
  unfold fair_one_b. intros H. apply andb_prop in H. destruct H as [H H3]. apply andb_prop in H. destruct H as [H1 H2].
  split; [now apply calm_b_ok|]. split; [now apply range_ok_b_ok|]. destruct m; [now left| |]; right; now apply clear_b_ok.
Qed.
Definition fair_b (m : floats) (t : betree) (ev : event) (log : list entry) : bool := forallb (fair_one_b m t ev) log.
Lemma fair_b_ok m t ev log : fair_b m t ev log = true -> fair m t ev log.
Proof. intros H. apply Forall_forall. intros e He. unfold fair_b in H. rewrite forallb_forall in H. now apply fair_one_b_ok, H. Qed.

(** *** Checked histories *)
Inductive op :=
| OInsert (id : Z) (cs : constants) (x : src)
| OMake (id : Z) (cs : constants) (x : src)
| OInsertSub (k : nat)          (* the k-th subscription made but not inserted yet *)
| OChange (x : src).
Definition state := (betree * list (sub * entry) * list entry)%type.
Definition step_in (m : floats) (ds : list domain) (st : state) (o : op) : option state :=
  let '(t, pend, log) := st in
  match o with
  | OInsert id cs x =>
      match betree_insert_with_constants t id cs x with
      | Ok (false, t') => Some (t', pend, log)
      | Ok (true, t') =>
          if accepts_b ds (bt_cfg t) false cs x && negb (memZ id (ids_of pend log))
          then Some (t', pend, log ++ [mkE id cs x]) else None
      | _ => None
      end
  | OMake id cs x =>
      match betree_make_sub t id cs x with
      | Ok (None, t') => if fits_b (bt_cfg t) true x then Some (t', pend, log) else None
      | Ok (Some s, t') =>
          if accepts_b ds (bt_cfg t) true cs x && negb (memZ id (ids_of pend log)) && floats_b m (bt_cfg t) (bt_cfg t')
          then Some (t', pend ++ [(s, mkE id cs x)], log) else None
      | _ => None
      end
  | OInsertSub k =>
      match nth_error pend k with
      | Some (s, e) =>
          match betree_insert_sub t s with
          | Ok t' => Some (t', firstn k pend ++ skipn (S k) pend, log ++ [e])
          | _ => None
          end
      | None => None
      end
  | OChange x =>
      match betree_change_boundaries t x with
      | Ok t' =>
          if src_ok_b ds [] x && fits_b (bt_cfg t) true x && floats_b m (bt_cfg t) (bt_cfg t')
          then Some (t', pend, log) else None
      | _ => None
      end
  end.
Fixpoint steps_in (m : floats) (ds : list domain) (st : state) (ops : list op) : option state :=
  match ops with [] => Some st | o :: t => match step_in m ds st o with Some st' => steps_in m ds st' t | None => None end end.
Definition run_in (m : floats) (ds : list domain) (cap minpart maxsplit : Z) (ops : list op) : option state :=
  let t := make_tree cap minpart maxsplit ds in
  if decls_ok_b ds && ((0 <=? maxsplit) && (maxsplit <? SIZE_MAX - 1)) && floats_b m (bt_cfg t) (bt_cfg t)
  then steps_in m ds (t, [], []) ops else None.
Notation step := (step_in NoSplit).
Notation steps := (steps_in NoSplit).
Notation run := (run_in NoSplit).

Lemma memZ_In z l : negb (memZ z l) = true -> ~ In z l.
Proof.
  unfold memZ. rewrite negb_true_iff. intros H K. assert (existsb (Z.eqb z) l = true); [|congruence].
  apply existsb_exists. exists z. now rewrite Z.eqb_refl.
Qed.
Lemma step_reach {m} ds t pend log o t' pend' log' :
  reach_in m ds t pend log -> step_in m ds (t, pend, log) o = Some (t', pend', log') -> reach_in m ds t' pend' log'.
Proof.
  intros R. destruct o as [id cs x|id cs x|k|x]; cbn [step_in].
  - destruct (betree_insert_with_constants t id cs x) as [[[] t1]| | |] eqn:E; try discriminate.
    + destruct (_ && _) eqn:B; [|discriminate]. bools. intros [= <- <- <-].
      eapply r_insert; eauto using accepts_b_ok, memZ_In.
    + intros [= <- <- <-]. eapply r_refused; eauto.
  - destruct (betree_make_sub t id cs x) as [[[s|] t1]| | |] eqn:E; try discriminate.
    + destruct (_ && _) eqn:B; [|discriminate]. bools. intros [= <- <- <-].
      eapply r_make; eauto using accepts_b_ok, memZ_In, floats_b_ok.
    + destruct (fits_b _ _ _) eqn:B; [|discriminate]. intros [= <- <- <-]. eapply r_make_refused; eauto using fits_b_ok.
  - destruct (nth_error pend k) as [[s e]|] eqn:N; [|discriminate].
    destruct (betree_insert_sub t s) as [t1| | |] eqn:E; try discriminate.
    apply nth_error_split in N. destruct N as (l1 & l2 & -> & L).
    assert (firstn k (l1 ++ (s, e) :: l2) ++ skipn (S k) (l1 ++ (s, e) :: l2) = l1 ++ l2) as ->.
    { subst k. rewrite firstn_app, firstn_all, PeanoNat.Nat.sub_diag, skipn_app, skipn_all2 by lia.
      replace (S (List.length l1) - List.length l1)%nat with 1%nat by lia. cbn. now rewrite app_nil_r. }
    intros [= <- <- <-]. eapply r_insert_sub; eauto.
  - destruct (betree_change_boundaries t x) as [t1| | |] eqn:E; try discriminate.
    destruct (_ && _) eqn:B; [|discriminate]. bools. intros [= <- <- <-].
    eapply r_change; eauto using src_ok_b_ok, fits_b_ok, floats_b_ok.
Qed.
Lemma steps_reach {m} ds ops : forall t pend log t' pend' log',
  reach_in m ds t pend log -> steps_in m ds (t, pend, log) ops = Some (t', pend', log') -> reach_in m ds t' pend' log'.
Proof.
  induction ops as [|o ops IH]; cbn [steps_in]; intros t pend log t' pend' log' R H.
  - injection H as <- <- <-. easy.
  - destruct (step_in m ds (t, pend, log) o) as [[[t1 p1] l1]|] eqn:E; [|discriminate].
    eapply IH; [|exact H]. eapply step_reach; eauto.
Qed.
Theorem run_reach {m} ds cap minpart maxsplit ops t pend log :
  run_in m ds cap minpart maxsplit ops = Some (t, pend, log) -> reach_in m ds t pend log.
Proof.
  unfold run_in. destruct (_ && _) eqn:B; [|discriminate]. bools. apply steps_reach.
  rewrite Z.leb_le, Z.ltb_lt in *. apply r_init; auto using decls_ok_b_ok, floats_b_ok.
Qed.
