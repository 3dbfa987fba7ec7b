(** Valid programs with event objects: the objects of the machine and those the caller knows. *)
From Coq Require Import ZArith NArith String Bool List Lia Permutation.
From Verif Require Import Base Float Value Ast Config Assign Special Match Bound Tree PredMap Source Api EventObj Spec TreeSpec Hist Accept
  Linked LinkedApi BisonTables Machine MachineSpec ObjSpec ProgramSpec ObjProgram HeapObjSpec ObjProgramSpec.
From Verif Require Import BaseProofs ListProofs InternProofs ExtProofs ResProofs PassProofs HistProofs CallProofs ObjProofs.
Import ListNotations.
Local Open Scope Z_scope.

(** ** Filling a variable later *)
Lemma more_refl c : more c c.
Proof. apply ext_more, ext_refl. Qed.
Lemma more_trans c1 c2 c3 : more c1 c2 -> more c2 c3 -> more c1 c3.
Proof.
  intros [A1 A2 A3] [B1 B2 B3]. split; [|auto|auto]. intros x v d D. destruct (A1 x v d D) as (d' & D' & E). destruct (B1 x v d' D') as (d2 & D2 & E2).
  exists d2. split; [exact D2|congruence].
Qed.
Lemma fill_at c n v d x : decl (c_domains c) n = Some (v, d) -> v <> INVALID_VAR ->
  fill_variable c n x = bind (fill_value c v (d_bound d) x) (fun y => Ok (v, sort_value y)).
Proof.
  intros D N. unfold fill_variable. rewrite (decl_id _ _ _ _ D). destruct (N.eqb_spec v INVALID_VAR); [contradiction|].
  apply decl_spec in D. unfold get_domain. rewrite (proj1 D). reflexivity.
Qed.
Lemma fill_found c n x v y : fill_variable c n x = Ok (v, y) -> v <> INVALID_VAR.
Proof.
  unfold fill_variable. destruct (N.eqb_spec (try_get_id_for_attr c n) INVALID_VAR) as [|N]; [discriminate|]. intros E.
  destruct (get_domain _ _); try discriminate. cbn [bind] in E. destruct (fill_value _ _ _ _); try discriminate. cbn [bind] in E. congruence.
Qed.
Lemma fill_later c c' n x v y : more c c' -> fill_variable c n x = Ok (v, y) ->
  (forall l, x = VStrList l -> num_strs (try_get_str c' v) (num_strs (try_get_str c v) l) = num_strs (try_get_str c' v) l) ->
  fill_variable c' n y = fill_variable c' n x.
Proof.
  intros M F SL. pose proof (fill_found _ _ _ _ _ F) as N. destruct (fill_variable_ok _ _ _ _ _ F) as (d & y0 & D & F0 & ->).
  destruct (mr_keeps _ _ M _ _ _ D) as (d' & D' & E). assert (T : btype (d_bound d') = btype (d_bound d)) by (unfold dom_sig in E; congruence).
  rewrite !(fill_at c' n v d') by assumption.
  destruct (fill_value_again c c' v (d_bound d) (d_bound d') x y0 T F0 SL) as (z & -> & z' & -> & EQ). cbn [bind]. now rewrite EQ.
Qed.
Lemma more_again c c' v l : more c c' ->
  (forall s s', In s l -> In s' l -> try_get_str c v (sv_string s) = INVALID_STR -> try_get_str c v (sv_string s') = INVALID_STR -> sv_string s = sv_string s') ->
  num_strs (try_get_str c' v) (num_strs (try_get_str c v) l) = num_strs (try_get_str c' v) l.
Proof.
  intros M O.
  assert (K : forall s, try_get_str c v s <> INVALID_STR -> try_get_str c' v s <> INVALID_STR).
  { intros s. rewrite !try_get_str_alt. destruct (str_index (strs c v) s) as [i|] eqn:I; [|congruence]. now rewrite (mr_strs _ _ M _ _ _ I). }
  apply num_strs_again.
  - intros s s' Hs Hs' Eq. destruct (Z.eq_dec (try_get_str c v (sv_string s)) INVALID_STR) as [I|I]; [|now apply (str_inj c v)].
    apply O; auto. congruence.
  - intros s s' Hs Hs' Eq. destruct (Z.eq_dec (try_get_str c' v (sv_string s)) INVALID_STR) as [I|I]; [|now apply (str_inj c' v)].
    apply O; auto.
    + destruct (Z.eq_dec (try_get_str c v (sv_string s)) INVALID_STR) as [?|J]; [assumption|]. now destruct (K _ J).
    + rewrite Eq in I. destruct (Z.eq_dec (try_get_str c v (sv_string s')) INVALID_STR) as [?|J]; [assumption|]. now destruct (K _ J).
Qed.

(** ** Objects *)
(** Filled now or later, both variables are the same. *)
Definition slot_like (c : config) (x y : option variable) : Prop :=
  match x, y with
  | None, None => True
  | Some (n, a), Some (m, b) => m = n /\ forall c', more c c' -> fill_variable c' n b = fill_variable c' n a
  | _, _ => False
  end.
Lemma slot_refl c x : slot_like c x x.
Proof. destruct x as [(n, a)|]; cbn; auto. Qed.
Lemma slots_refl c l : Forall2 (slot_like c) l l.
Proof. induction l; constructor; [apply slot_refl|assumption]. Qed.
Lemma slot_more c c' x y : more c c' -> slot_like c x y -> slot_like c' x y.
Proof. intros M. destruct x as [(n, a)|], y as [(m, b)|]; cbn; try tauto. intros (E & H). split; [exact E|]. intros c2 M2. apply H. eapply more_trans; eauto. Qed.
Lemma fill_like c : forall a b p, Forall2 (slot_like c) a b -> fill_object c b p = fill_object c a p.
Proof.
  intros a b p F. revert p. induction F as [|x y a b H F IH]; intros p; [reflexivity|].
  destruct x as [(n, x)|], y as [(m, y)|]; cbn in H; try contradiction; cbn [fill_object]; [|now rewrite IH].
  destruct H as (-> & H). rewrite (H c (more_refl c)). destruct (fill_variable c n x) as [[v z]| | |]; cbn [bind]; try reflexivity. now rewrite IH.
Qed.
Definition occupied {A} (x : option A) : bool := match x with Some _ => true | None => false end.
Lemma like_occupied c a b : Forall2 (slot_like c) a b -> map occupied b = map occupied a.
Proof. induction 1 as [|x y a b H F IH]; [reflexivity|]. cbn [map]. rewrite IH. destruct x as [(?, ?)|], y as [(?, ?)|]; cbn in H; try contradiction; reflexivity. Qed.
Lemma filled_occupied c : forall ev p ev' p', fill_object c ev p = Ok (ev', p') -> map occupied ev' = map occupied ev.
Proof.
  induction ev as [|[(n, x)|] ev IH]; intros p ev' p' E; cbn [fill_object] in E.
  - now injection E as <- <-.
  - destruct (fill_variable c n x) as [[v z]| | |]; cbn [bind] in E; try discriminate.
    destruct (fill_object c ev _) as [[e1 p1]| | |] eqn:E1; cbn [bind] in E; try discriminate. injection E as <- <-. cbn [map]. now rewrite (IH _ _ _ E1).
  - destruct (fill_object c ev _) as [[e1 p1]| | |] eqn:E1; cbn [bind] in E; try discriminate. injection E as <- <-. cbn [map]. now rewrite (IH _ _ _ E1).
Qed.
(** The object after a search. *)
Lemma filled_like c : forall ev p ev' p', fill_object c ev p = Ok (ev', p') -> one_unknown c ev -> Forall2 (slot_like c) ev ev'.
Proof.
  induction ev as [|[(n, x)|] ev IH]; intros p ev' p' E O; cbn [fill_object] in E.
  - injection E as <- <-. constructor.
  - destruct (fill_variable c n x) as [[v z]| | |] eqn:V; cbn [bind] in E; try discriminate.
    destruct (fill_object c ev _) as [[e1 p1]| | |] eqn:E1; cbn [bind] in E; try discriminate. injection E as <- <-. constructor.
    + split; [reflexivity|]. intros c' M. eapply fill_later; eauto. intros l ->. apply more_again; [exact M|].
      intros s s' Hs Hs'. destruct (fill_variable_ok _ _ _ _ _ V) as (d & _ & D & _). rewrite <- (decl_id _ _ _ _ D). apply (O n l); auto. now left.
    + eapply IH; eauto. intros n' l' s s' I. apply (O n' l'). now right.
  - destruct (fill_object c ev _) as [[e1 p1]| | |] eqn:E1; cbn [bind] in E; try discriminate. injection E as <- <-. constructor; [exact Logic.I|].
    eapply IH; eauto. intros n' l' s s' I. apply (O n' l'). now right.
Qed.
(** Strings used by a subscription are known. *)
Lemma index_known c v s i : tabs_ok c -> str_index (strs c v) s = Some i -> try_get_str c v s <> INVALID_STR.
Proof.
  intros (T & _) I. rewrite try_get_str_alt, I. pose proof (str_index_spec (strs c v) s) as K. rewrite I in K. destruct (T v) as (_ & L).
  unfold INVALID_STR, SIZE_MAX, UINT64_MAX in *. lia.
Qed.
Lemma dv_id c x v t : dv c x v t -> try_get_id_for_attr c x = v.
Proof. intros (d & D & _). exact (decl_id _ _ _ _ D). Qed.
Lemma list_known c v l' l s : tabs_ok c -> Forall (sres c v) l' -> Permutation (map sv_string l') l -> In s l -> try_get_str c v s <> INVALID_STR.
Proof.
  intros T F P I. rewrite <- P in I. apply in_map_iff in I. destruct I as (y & <- & I). rewrite Forall_forall in F. eapply index_known; [exact T|exact (F y I)].
Qed.
Lemma word_known c cs a q x s : tabs_ok c -> res_leaf c cs a q -> In (x, s) (atom_strs a) -> try_get_str c (try_get_id_for_attr c x) s <> INVALID_STR.
Proof.
  intros T R I. destruct a as [b|y|op y k|op y k|op y k|op k y|op y k|op y|t ns value window|op y id seconds|lat lon radius|op y pat];
    cbn [atom_strs] in I; try contradiction; cbn [res_leaf] in R.
  - destruct k; try contradiction. destruct I as [I|[]]. injection I as <- <-. destruct R as (v & i & D & _ & R). rewrite (dv_id _ _ _ _ D). eapply index_known; eauto.
  - destruct k; try contradiction. apply in_map_iff in I. destruct I as (s' & E & I). injection E as <- <-. destruct R as (v & l' & D & _ & _ & P & F). rewrite (dv_id _ _ _ _ D). eapply list_known; eauto.
  - destruct k; try contradiction. destruct I as [I|[]]. injection I as <- <-. destruct R as (v & i & D & _ & R). rewrite (dv_id _ _ _ _ D). eapply index_known; eauto.
  - destruct k; try contradiction. apply in_map_iff in I. destruct I as (s' & E & I). injection E as <- <-. destruct R as (v & l' & D & _ & _ & P & F). rewrite (dv_id _ _ _ _ D). eapply list_known; eauto.
  - destruct I as [I|[]]. injection I as <- <-. destruct R as (v & nv & i & z & D & _ & R & _). rewrite (dv_id _ _ _ _ D). eapply index_known; eauto.
Qed.
Lemma rel_atom (R : atom -> leaf -> Prop) x e : rel_src R x e -> forall a, In a (src_atoms x) -> exists q, R a q.
Proof.
  induction 1; cbn [src_atoms]; intros b I; try (apply in_app_or in I; destruct I as [I|I]; eauto); eauto. destruct I as [<-|[]]. eauto.
Qed.
Lemma attr_lower c x y : lower x = lower y -> try_get_id_for_attr c x = try_get_id_for_attr c y.
Proof. intros E. unfold try_get_id_for_attr. now rewrite E. Qed.

Section WithGeo.
Context {G : Geo}.
Lemma log_known ds t pend log y s : reach_in WholeSplits ds t pend log -> In s (log_words log y) ->
  try_get_str (bt_cfg t) (try_get_id_for_attr (bt_cfg t) y) s <> INVALID_STR.
Proof.
  intros R I. pose proof (reach_inv (FM := WholeSplits) _ _ _ _ R) as [_ CO _ _ _ (V & l & _ & _ & EL & F)].
  unfold log_words in I. apply in_flat_map in I. destruct I as (e & Ie & I). apply in_flat_map in I. destruct I as ((x, s') & Ix & I). cbn [fst snd] in I.
  destruct (String.eqb_spec (lower x) (lower y)) as [E|]; [|destruct I]. destruct I as [->|[]].
  apply in_flat_map in Ix. destruct Ix as (a & Ia & Ix). rewrite <- EL in Ie. apply in_map_iff in Ie. destruct Ie as (z & <- & Iz).
  rewrite Forall_forall in F. pose proof (st_res _ _ _ _ _ (F z (in_or_app _ _ _ (or_introl Iz)))) as RS. destruct (rel_atom _ _ _ RS a Ia) as (q & RL).
  rewrite <- (attr_lower _ _ _ E). eapply word_known; [apply (ok_tabs _ CO)|exact RL|exact Ix].
Qed.
Lemma new_unknown ds t pend log ev : reach_in WholeSplits ds t pend log -> one_new log ev -> one_unknown (bt_cfg t) ev.
Proof.
  intros R O n l s s' I Is Is' U U'. apply (O n l s s' I Is Is'); intros K; [now apply (log_known _ _ _ _ _ _ R K)|now apply (log_known _ _ _ _ _ _ R K)].
Qed.
End WithGeo.

(** ** The pointers of the machine and those the caller knows *)
Definition shape (x y : item) : Prop :=
  match x, y with
  | IEvent a, IEvent b => map occupied b = map occupied a
  | IReport _, IReport _ => True
  | IEvent _, _ | IReport _, _ => False
  | _, _ => y = x
  end.
Lemma shape_refl x : shape x x.
Proof. now destruct x. Qed.
Record like (c : config) (its real : list item) (u o : list nat) : Prop := {
  lk_shape : Forall2 shape its real;
  lk_report : forall h r, nth_error real h = Some (IReport r) -> ~ In h u -> r = make_report;
  lk_event : forall e a b, nth_error its e = Some (IEvent a) -> nth_error real e = Some (IEvent b) -> ~ In e o -> Forall2 (slot_like c) a b }.

Lemma Forall2_length {A B} (R : A -> B -> Prop) l m : Forall2 R l m -> length l = length m.
Proof. induction 1; cbn; congruence. Qed.
Lemma map_updN {A B} (f : A -> B) l : forall i x, map f (updN l i x) = updN (map f l) i (f x).
Proof. induction l as [|y l IH]; intros i x; cbn [updN map]; [reflexivity|]. destruct (i =? 0)%N; cbn [map]; congruence. Qed.
Lemma nth_put {A} (l : list A) : forall h x i, nth_error (put l h x) i = if (i =? h)%nat then (match nth_error l h with Some _ => Some x | None => None end) else nth_error l i.
Proof. induction l as [|y l IH]; intros [|h] x [|i]; cbn; try reflexivity; [now destruct (i =? h)%nat|apply IH]. Qed.
Lemma put_same {A} (l : list A) : forall h x, nth_error l h = Some x -> put l h x = l.
Proof. induction l as [|y l IH]; intros [|h] x E; cbn in *; try discriminate; [congruence|]. now rewrite IH. Qed.
Lemma put_len {A} (l : list A) : forall h x, length (put l h x) = length l.
Proof. induction l as [|y l IH]; intros [|h] x; cbn; congruence. Qed.
Lemma Forall2_at {A B} (R : A -> B -> Prop) l m : Forall2 R l m -> forall h x, nth_error l h = Some x -> exists y, nth_error m h = Some y /\ R x y.
Proof. induction 1 as [|x y l m H F IH]; intros [|h] z E; cbn in *; try discriminate; [injection E as <-; eauto|eauto]. Qed.
Lemma Forall2_put {A B} (R : A -> B -> Prop) l m : Forall2 R l m -> forall h x y, R x y -> Forall2 R (put l h x) (put m h y).
Proof. induction 1 as [|x y l m H F IH]; intros [|h] x' y' K; cbn; constructor; auto. Qed.

Lemma like_more c c' its real u o : more c c' -> like c its real u o -> like c' its real u o.
Proof.
  intros M [A B C]. split; auto. intros e a b Ea Eb N. specialize (C e a b Ea Eb N). clear - C M.
  induction C; constructor; eauto using slot_more.
Qed.
Lemma like_put c its real u o h x y : like c its real u o -> shape x y ->
  (forall r, y = IReport r -> ~ In h u -> r = make_report) ->
  (forall a b, x = IEvent a -> y = IEvent b -> ~ In h o -> Forall2 (slot_like c) a b) -> like c (put its h x) (put real h y) u o.
Proof.
  intros [A B C] S HR HE. split; [now apply Forall2_put| |].
  - intros i r E N. rewrite nth_put in E. destruct (Nat.eqb_spec i h) as [->|]; [|eauto]. destruct (nth_error real h); [|discriminate]. injection E as ->. eauto.
  - intros i a b Ea Eb N. rewrite nth_put in Ea, Eb. destruct (Nat.eqb_spec i h) as [->|]; [|eauto].
    destruct (nth_error real h); [|discriminate]. destruct (nth_error its h); [|discriminate]. injection Ea as ->. injection Eb as ->. eauto.
Qed.
Lemma like_snoc c its real u o x y : like c its real u o -> shape x y ->
  (forall r, y = IReport r -> r = make_report) ->
  (forall a b, x = IEvent a -> y = IEvent b -> Forall2 (slot_like c) a b) -> like c (its ++ [x]) (real ++ [y]) u o.
Proof.
  intros [A B C] S HR HE. pose proof (Forall2_length _ _ _ A) as L. split; [apply Forall2_app; [exact A|constructor; [exact S|constructor]]| |].
  - intros i r E N. destruct (Nat.lt_ge_cases i (length real)) as [K|K]; [rewrite nth_error_app1 in E by exact K; eauto|].
    rewrite nth_error_app2 in E by exact K. destruct (i - length real)%nat as [|k]; cbn in E; [injection E as ->; eauto|destruct k; discriminate].
  - intros i a b Ea Eb N. destruct (Nat.lt_ge_cases i (length real)) as [K|K].
    + rewrite nth_error_app1 in Eb by exact K. rewrite nth_error_app1 in Ea by lia. eauto.
    + rewrite nth_error_app2 in Eb by exact K. rewrite nth_error_app2 in Ea by lia. rewrite L in Ea.
      destruct (i - length real)%nat as [|k]; cbn in Ea, Eb; [injection Ea as ->; injection Eb as ->; eauto|destruct k; discriminate].
Qed.
Lemma like_at c its real u o h x : like c its real u o -> nth_error its h = Some x ->
  match x with IEvent _ | IReport _ => True | _ => nth_error real h = Some x end.
Proof. intros L E. destruct (Forall2_at _ _ _ (lk_shape _ _ _ _ _ L) _ _ E) as (y & Ey & S). destruct x; cbn in S; try exact Logic.I; now subst y. Qed.
Lemma like_event c its real u o h a : like c its real u o -> nth_error its h = Some (IEvent a) ->
  exists b, nth_error real h = Some (IEvent b) /\ map occupied b = map occupied a /\ (~ In h o -> Forall2 (slot_like c) a b).
Proof.
  intros L E. destruct (Forall2_at _ _ _ (lk_shape _ _ _ _ _ L) _ _ E) as (y & Ey & S). destruct y; cbn in S; try contradiction.
  exists e. split; [exact Ey|]. split; [exact S|]. intros N. exact (lk_event _ _ _ _ _ L _ _ _ E Ey N).
Qed.
Lemma like_report c its real u o h r : like c its real u o -> nth_error its h = Some (IReport r) ->
  exists r', nth_error real h = Some (IReport r') /\ (~ In h u -> r' = make_report).
Proof.
  intros L E. destruct (Forall2_at _ _ _ (lk_shape _ _ _ _ _ L) _ _ E) as (y & Ey & S). destruct y; cbn in S; try contradiction.
  eexists. split; [exact Ey|]. intros N. exact (lk_report _ _ _ _ _ L _ _ Ey N).
Qed.

Lemma set_like c its real u o h i x a b a' : like c its real u o -> nth_error its h = Some (IEvent a) -> nth_error real h = Some (IEvent b) ->
  set_variable a i x = Ok a' -> exists b', set_variable b i x = Ok b' /\ vacant b i = vacant a i /\ map occupied b' = map occupied a' /\ (~ In h o -> Forall2 (slot_like c) a' b').
Proof.
  intros L Ea Eb E. destruct (like_event _ _ _ _ _ _ _ L Ea) as (b0 & Eb0 & OC & SL). rewrite Eb in Eb0. injection Eb0 as <-.
  unfold set_variable in *. assert (LN : length b = length a) by (apply (f_equal (@length _)) in OC; now rewrite !map_length in OC). rewrite LN.
  destruct (N.ltb_spec i (N.of_nat (length a))) as [K|]; [|discriminate]. injection E as <-. eexists. split; [reflexivity|].
  assert (VN : vacant b i = vacant a i).
  { unfold vacant. pose proof (f_equal (fun l => nthN l i) OC) as Q. cbn beta in Q. rewrite !nthN_map in Q.
    destruct (nthN b i) as [[?|]|], (nthN a i) as [[?|]|]; cbn in Q; congruence. }
  split; [exact VN|]. split.
  - rewrite !map_updN. now rewrite OC.
  - intros N. specialize (SL N). clear - SL. revert i. induction SL as [|y z a b H F IH]; intros i; cbn [updN]; [constructor|].
    destruct (i =? 0)%N; constructor; auto. apply slot_refl.
Qed.
Ltac look E AT h X := let X' := fresh X "'" in destruct (nth_error _ h) as [?x|] eqn:X in E; cbn [bind] in E; [|discriminate E]; rewrite ?X; pose proof (AT _ _ X) as X'.
Ltac run E Q := match type of E with bind ?a _ = _ => destruct a eqn:Q; cbn [bind] in E; try discriminate E end.
Lemma o_call_like c nv its real u o k its' : like c its real u o -> o_call nv its k = Ok its' ->
  exists real', o_call nv real k = Ok real' /\ like c its' real' u o /\ o_clean real k = o_clean its k.
Proof.
  intros L E.
  assert (FR : forall x r, x <> IReport make_report -> x = IReport r -> (forall q, x <> IReport q) -> r = make_report) by (intros x r _ X Y; now destruct (Y r)).
  assert (SN : forall x, (forall r, x = IReport r -> r = make_report) -> like c (its ++ [x]) (real ++ [x]) u o).
  { intros x H. apply like_snoc; [exact L|apply shape_refl|exact H|]. intros a b -> Q. injection Q as <-. apply slots_refl. }
  assert (PT : forall l l' h x, like c l l' u o -> (forall r, x <> IReport r) -> like c (put l h x) (put l' h x) u o).
  { intros l l' h x K H. apply like_put; [exact K|apply shape_refl|intros r ->; now destruct (H r)|]. intros a b -> Q _. injection Q as <-. apply slots_refl. }
  assert (GV : forall h y, (forall r, y <> IReport r) -> like c (put its h IGone ++ [y]) (put real h IGone ++ [y]) u o).
  { intros h y H. apply like_snoc; [apply PT; [exact L|discriminate]|apply shape_refl|intros r ->; now destruct (H r)|]. intros a b -> Q. injection Q as <-. apply slots_refl. }
  assert (AT : forall h x, nth_error its h = Some x -> match x with IEvent _ | IReport _ => True | _ => nth_error real h = Some x end) by (intros h x; eapply like_at; eauto).
  unfold item_at in *.
  destruct k; cbn [o_call o_clean] in *; unfold item_at in *.
  all: try (injection E as <-; eexists; split; [reflexivity|split; [|reflexivity]]; apply SN; intros r Q; try discriminate Q; congruence).
  - look E AT h X. destruct x; try discriminate E. rewrite X'. cbn [bind] in *. run E Q. injection E as <-. eexists. split; [reflexivity|split; [|reflexivity]]. apply PT; [exact L|discriminate].
  - look E AT h X. destruct x; try discriminate E. rewrite X'. cbn [bind] in *. run E Q. injection E as <-. eexists. split; [reflexivity|split; [|reflexivity]]. apply PT; [exact L|discriminate].
  - look E AT h X. look E AT g Y. destruct x; try discriminate E. rewrite X'. cbn [bind] in *. destruct x0; try discriminate E; rewrite Y'; cbn [bind] in *; run E Q; injection E as <-;
      (eexists; split; [reflexivity|split; [|reflexivity]]); repeat (apply PT; [|discriminate]); exact L.
  - injection E as <-. eexists. split; [reflexivity|split; [|reflexivity]]. apply SN. intros r. destruct make_frequency_cap; discriminate.
  - look E AT h X. look E AT k Y. destruct x; try discriminate E. rewrite X'. cbn [bind] in *. destruct x0; try discriminate E; rewrite Y'; cbn [bind] in *; run E Q; injection E as <-;
      (eexists; split; [reflexivity|split; [|reflexivity]]); repeat (apply PT; [|discriminate]); exact L.
  - look E AT h X. destruct x; try discriminate E. rewrite X'. cbn [bind] in *. injection E as <-. eexists. split; [reflexivity|split; [|reflexivity]]. apply GV. discriminate.
  - look E AT h X. destruct x; try discriminate E. rewrite X'. cbn [bind] in *. run E Q. injection E as <-. eexists. split; [reflexivity|split; [|reflexivity]]. apply GV. discriminate.
  - look E AT h X. destruct x; try discriminate E. rewrite X'. cbn [bind] in *. run E Q. injection E as <-. eexists. split; [reflexivity|split; [|reflexivity]]. apply GV. discriminate.
  - look E AT h X. destruct x; try discriminate E. rewrite X'. cbn [bind] in *. run E Q. injection E as <-. eexists. split; [reflexivity|split; [|reflexivity]]. apply GV. discriminate.
  - look E AT h X. look E AT x Y. destruct x0; try discriminate E. destruct (like_event _ _ _ _ _ _ _ L X) as (b & Eb & _). rewrite Eb. cbn [bind].
    destruct x1; try discriminate E; rewrite Y'; cbn [bind] in *; run E Q; injection E as <-; destruct (set_like _ _ _ _ _ _ _ _ _ _ _ L X Eb Q) as (b' & -> & V & OC & SL);
      cbn [bind]; (eexists; split; [reflexivity|split; [|exact V]]);
      (apply like_put; [first [exact L|apply PT; [exact L|discriminate]]|exact OC|discriminate|]); intros a1 b1 E1 E2; injection E1 as <-; injection E2 as <-; exact SL.
  - look E AT h X. destruct (Forall2_at _ _ _ (lk_shape _ _ _ _ _ L) _ _ X) as (y & Ey & S). rewrite Ey. cbn [bind].
    assert (K : its' = put its h IGone /\ match y with INull | IGone => False | _ => True end) by (destruct x, y; cbn in S; try contradiction; try discriminate S; try discriminate E; injection E as <-; auto).
    destruct K as (-> & K). exists (put real h IGone). split; [destruct y; try reflexivity; contradiction|split; [|reflexivity]]. apply PT; [exact L|discriminate].
Qed.
Lemma like_weaken c its real u o u' o' : like c its real u o -> (forall x, In x u -> In x u') -> (forall x, In x o -> In x o') -> like c its real u' o'.
Proof. intros [A B C] HU HO. split; eauto. Qed.
Lemma consts_like c its real u o : like c its real u o -> forall hs cs, consts_at its hs = Ok cs -> consts_at real hs = Ok cs.
Proof.
  intros L. induction hs as [|h hs IH]; intros cs E; [exact E|]. cbn [consts_at] in *. unfold item_at in *.
  destruct (nth_error its h) as [x|] eqn:X; cbn [bind] in E; [|discriminate]. pose proof (like_at _ _ _ _ _ _ _ L X) as X'.
  destruct (consts_at its hs) as [cs'| | |]; cbn [bind] in E; try discriminate. destruct x; try discriminate. rewrite X'. cbn [bind]. rewrite (IH _ eq_refl). exact E.
Qed.

(** ** The calls on objects do what they should *)
Lemma changed_put {A} (l : list A) : forall h x y l', changed l h x y l' <-> nth_error l h = Some x /\ l' = put l h y.
Proof.
  unfold changed. induction l as [|z l IH]; intros h x y l'.
  - split; [intros (a & b & E & _); now destruct a|]. intros (E & _). now destruct h.
  - split.
    + intros (a & b & E & L & ->). destruct a as [|w a]; cbn in E, L; subst h; injection E as -> E; [subst; now split|].
      cbn [nth_error put app]. destruct (proj1 (IH (length a) x y (a ++ y :: b))) as (N1 & N2); [now exists a, b|]. now rewrite <- N2.
    + intros (E & ->). destruct h as [|h]; cbn in E; [injection E as ->; now exists [], l|].
      destruct (proj2 (IH h x y (put l h y)) (conj E eq_refl)) as (a & b & -> & <- & E'). exists (z :: a), b. cbn [put app length]. now rewrite E'.
Qed.
Lemma put_updN {A} (l : list A) : forall i x, put l (N.to_nat i) x = updN l i x.
Proof.
  induction l as [|y l IH]; intros i x; cbn [updN put]; [now destruct (N.to_nat i)|].
  destruct (N.eqb_spec i 0) as [->|N0]; [reflexivity|]. replace (N.to_nat i) with (S (N.to_nat (N.pred i))) by lia. cbn [put]. rewrite IH. reflexivity.
Qed.
Lemma written_updN {A} (l : list A) i x l' : written l i x l' <-> (i < N.of_nat (length l))%N /\ l' = updN l i x.
Proof.
  unfold written. split.
  - intros (y & C). apply changed_put in C. destruct C as (E & ->). split; [|apply put_updN]. assert (nth_error l (N.to_nat i) <> None) as K by congruence.
    apply nth_error_Some in K. lia.
  - intros (L & ->). destruct (nth_error l (N.to_nat i)) as [y|] eqn:E; [|apply nth_error_None in E; lia]. exists y. apply changed_put. split; [exact E|symmetry; apply put_updN].
Qed.
Lemma elements_some {A} (l : slots A) : forall s, elements l = Ok s <-> l = map Some s.
Proof.
  induction l as [|[x|] l IH]; intros s; cbn [elements]; split; intros E; try discriminate.
  - now injection E as <-.
  - destruct s; [reflexivity|discriminate].
  - destruct (elements l) as [t| | |] eqn:K; cbn [bind] in E; try discriminate. injection E as <-. cbn [map]. f_equal. now apply IH.
  - destruct s as [|y s]; [discriminate|]. injection E as -> E. apply IH in E. now rewrite E.
  - destruct s; discriminate.
Qed.
Lemma ftype_eq_dec (a b : ftype) : {a = b} + {a <> b}.
Proof. decide equality. Qed.
Lemma cap_none ty id ns d ts v : get_type_from_string ty = FTInvalid -> make_frequency_cap ty id ns d ts v = None.
Proof. intros E. unfold make_frequency_cap. now rewrite E. Qed.
Lemma cap_some ty id ns d ts v : get_type_from_string ty <> FTInvalid ->
  make_frequency_cap ty id ns d ts v = Some (mkCap (get_type_from_string ty) id (mkS ns INVALID_STR) d ts v).
Proof. intros E. unfold make_frequency_cap. destruct (get_type_from_string ty); congruence. Qed.
Lemma put_other {A} (l : list A) g h x : g <> h -> nth_error (put l g x) h = nth_error l h.
Proof. intros N. rewrite nth_put. destruct (Nat.eqb_spec h g); congruence. Qed.
Ltac at_ptr := unfold item_at; repeat match goal with
  | H : changed _ _ _ _ _ |- _ => apply changed_put in H; destruct H as (? & ->)
  | H : written _ _ _ _ |- _ => apply written_updN in H; destruct H as (?K & ->); apply N.ltb_lt in K
  end.
Lemma does_call nv l k l' : does nv l k l' -> o_call nv l k = Ok l'.
Proof.
  destruct 1; cbn [o_call]; try reflexivity; at_ptr.
  - rewrite H0. cbn [bind]. unfold add_integer. now rewrite K.
  - rewrite H0. cbn [bind]. unfold add_slot. now rewrite K.
  - assert (g <> h) by (intros ->; rewrite nth_put in H1; rewrite Nat.eqb_refl, H in H1; discriminate).
    rewrite put_other in H1 by assumption. rewrite H, H1. cbn [bind]. unfold add_slot. now rewrite K.
  - rewrite H, H1. cbn [bind]. unfold add_slot. now rewrite K.
  - subst t. now rewrite (cap_some _ _ _ _ _ _ H0).
  - now rewrite (cap_none _ _ _ _ _ _ H).
  - assert (g <> h) by (intros ->; rewrite nth_put in H1; rewrite Nat.eqb_refl, H in H1; discriminate).
    rewrite put_other in H1 by assumption. rewrite H, H1. cbn [bind]. unfold add_slot. now rewrite K.
  - rewrite H, H1. cbn [bind]. unfold add_slot. now rewrite K.
  - now rewrite H.
  - rewrite H. cbn [bind]. unfold make_string_list_variable. now rewrite (proj2 (elements_some _ s) eq_refl).
  - rewrite H. cbn [bind]. unfold make_segments_variable. now rewrite (proj2 (elements_some _ s) eq_refl).
  - rewrite H. cbn [bind]. unfold make_frequency_caps_variable. now rewrite (proj2 (elements_some _ s) eq_refl).
  - assert (g <> h) by (intros ->; rewrite nth_put in H1; rewrite Nat.eqb_refl, H in H1; discriminate).
    rewrite put_other in H1 by assumption. rewrite H, H1. cbn [bind]. unfold set_variable. now rewrite K.
  - rewrite H, H1. cbn [bind]. unfold set_variable. now rewrite K.
  - rewrite H. cbn [bind]. destruct x; congruence.
Qed.
Ltac item E h X := unfold item_at in E; destruct (nth_error _ h) as [?x|] eqn:X in E; cbn [bind] in E; [|discriminate E].
Lemma call_does nv l k l' : o_call nv l k = Ok l' -> does nv l k l'.
Proof.
  intros E. destruct k; cbn [o_call] in E; try (injection E as <-; constructor).
  - item E h X. destruct x; try discriminate. unfold add_integer in E. destruct (i <? N.of_nat (length l0))%N eqn:K; try discriminate. injection E as <-. apply N.ltb_lt in K.
    eapply d_add_int; [apply written_updN; eauto|apply changed_put; eauto].
  - item E h X. destruct x; try discriminate. unfold add_slot in E. destruct (i <? N.of_nat (length l0))%N eqn:K; try discriminate. injection E as <-. apply N.ltb_lt in K.
    eapply d_add_str; [apply written_updN; eauto|apply changed_put; eauto].
  - item E h X. item E g Y. destruct x; try discriminate. unfold add_slot in E. destruct x0; try discriminate; destruct (i <? N.of_nat (length l0))%N eqn:K; try discriminate; injection E as <-; apply N.ltb_lt in K.
    + assert (g <> h) by congruence. eapply d_add_seg; [apply changed_put; eauto|apply written_updN; eauto|apply changed_put; rewrite put_other by assumption; eauto].
    + eapply d_add_no_seg; [eauto|apply written_updN; eauto|apply changed_put; eauto].
  - injection E as <-. destruct (ftype_eq_dec (get_type_from_string ty) FTInvalid) as [T|T]; [rewrite (cap_none _ _ _ _ _ _ T); now apply d_no_cap|].
    rewrite (cap_some _ _ _ _ _ _ T). now eapply d_cap.
  - item E h X. item E k Y. destruct x; try discriminate. unfold add_slot in E. destruct x0; try discriminate; destruct (i <? N.of_nat (length l0))%N eqn:K; try discriminate; injection E as <-; apply N.ltb_lt in K.
    + assert (k <> h) by congruence. eapply d_add_cap; [apply changed_put; eauto|apply written_updN; eauto|apply changed_put; rewrite put_other by assumption; eauto].
    + eapply d_add_no_cap; [eauto|apply written_updN; eauto|apply changed_put; eauto].
  - item E h X. destruct x; try discriminate. injection E as <-. apply d_ints_var, changed_put. auto.
  - item E h X. destruct x; try discriminate. unfold make_string_list_variable in E. destruct (elements l0) as [s| | |] eqn:EL; try discriminate. cbn [bind] in E. injection E as <-.
    apply elements_some in EL. subst l0. apply d_strs_var, changed_put. auto.
  - item E h X. destruct x; try discriminate. unfold make_segments_variable in E. destruct (elements l0) as [s| | |] eqn:EL; try discriminate. cbn [bind] in E. injection E as <-.
    apply elements_some in EL. subst l0. apply d_segs_var, changed_put. auto.
  - item E h X. destruct x; try discriminate. unfold make_frequency_caps_variable in E. destruct (elements l0) as [s| | |] eqn:EL; try discriminate. cbn [bind] in E. injection E as <-.
    apply elements_some in EL. subst l0. apply d_caps_var, changed_put. auto.
  - item E h X. item E x Y. destruct x0; try discriminate. unfold set_variable in E. destruct x1; try discriminate; destruct (i <? N.of_nat (length e))%N eqn:K; try discriminate; injection E as <-; apply N.ltb_lt in K.
    + assert (x <> h) by congruence. eapply d_set; [apply changed_put; eauto|apply written_updN; eauto|apply changed_put; rewrite put_other by assumption; eauto].
    + eapply d_set_none; [eauto|apply written_updN; eauto|apply changed_put; eauto].
  - item E h X. apply d_free with (x := x); [apply changed_put; split; [exact X|destruct x; congruence]|intros ->; discriminate|intros ->; discriminate].
Qed.
Lemma constants_consts l : forall hs cs, constants_at l hs cs <-> consts_at l hs = Ok cs.
Proof.
  induction hs as [|h hs IH]; intros cs; cbn [consts_at].
  - split; [intros F; now inversion F|]. intros E. injection E as <-. constructor.
  - split.
    + intros F. inversion F as [|? c ? cs' (name & z & E & ->) F']; subst. unfold item_at. rewrite E. cbn [bind]. now rewrite (proj1 (IH cs') F').
    + intros E. item E h X. destruct (consts_at l hs) as [cs'| | |] eqn:K; try discriminate. cbn [bind] in E. destruct x; try discriminate. injection E as <-.
      constructor; [eauto|]. now apply IH.
Qed.
Lemma elements_ends {A} (l : slots A) : (exists s, elements l = Ok s) \/ elements l = UB.
Proof. induction l as [|[x|] l IH]; cbn [elements]; eauto. destruct IH as [(s & IH)|IH]; rewrite IH; cbn [bind]; eauto. Qed.
Lemma o_call_ends nv l k : (exists l', o_call nv l k = Ok l') \/ o_call nv l k = UB.
Proof.
  destruct k; cbn [o_call]; eauto; unfold item_at; repeat match goal with
  | |- context [nth_error l ?g] => destruct (nth_error l g) as [[]|]; cbn [bind]; eauto
  end; unfold add_integer, add_slot, set_variable, make_string_list_variable, make_segments_variable, make_frequency_caps_variable.
  all: try (match goal with |- context [(?a <? ?b)%N] => destruct (a <? b)%N end; cbn [bind]; eauto).
  all: match goal with |- context [elements ?s] => let K := fresh in destruct (elements_ends s) as [(? & K)|K]; rewrite K end; cbn [bind]; eauto.
Qed.

(** ** The reports of the caller *)
Lemma changed_report l h x y l' i r : changed l h x y l' -> (forall q, y <> IReport q) -> nth_error l' i = Some (IReport r) -> nth_error l i = Some (IReport r).
Proof.
  intros C NR E. apply changed_put in C. destruct C as (X & ->). rewrite nth_put in E. destruct (Nat.eqb_spec i h) as [->|]; [|exact E].
  rewrite X in E. injection E as ->. now destruct (NR r).
Qed.
Lemma changed_length {A} (l : list A) h x y l' : changed l h x y l' -> length l' = length l.
Proof. intros (a & b & -> & _ & ->). now rewrite !app_length. Qed.
Lemma does_reports nv l k l' : does nv l k l' -> (length l <= length l')%nat /\
  forall i r, (i < length l)%nat -> nth_error l' i = Some (IReport r) -> nth_error l i = Some (IReport r).
Proof.
  intros D. destruct D; repeat match goal with C : changed _ _ _ _ _ |- _ => pose proof (changed_length _ _ _ _ _ C);
    pose proof (fun i r => changed_report _ _ _ _ _ i r C ltac:(discriminate)); clear C end;
  (split; [rewrite ?app_length; cbn; lia|]); intros ii rr LT E; rewrite ?nth_error_app1 in E by lia; auto.
Qed.

Lemma skip_app {A} (a b : list A) : skipn (length a) (a ++ b) = b.
Proof. now induction a. Qed.
Section Reports.
  Context {G : Geo}.
  Lemma loop_add p m un d : forall l st r r' r0, search_loop p m un l st r = Ok r' ->
    search_loop p m un l (shift d st) r0 = Ok (mkR (r_evaluated r0 + (r_evaluated r' - r_evaluated r)) (r_matched r0 + (r_matched r' - r_matched r))
      (r_shorted r0 + (r_shorted r' - r_shorted r)) (r_memoized r' + d) (r_subs r0 ++ skipn (length (r_subs r)) (r_subs r'))) /\
    exists h, r_subs r' = r_subs r ++ h.
  Proof.
    induction l as [|s l IH]; intros st r r' r0 H; cbn [search_loop] in *.
    - injection H as <-. cbn [r_evaluated r_matched r_shorted r_memoized r_subs shift ms_memoized]. split; [|exists []; now rewrite app_nil_r].
      rewrite skipn_all, app_nil_r, !Z.sub_diag, !Z.add_0_r. reflexivity.
    - apply bind_ok in H. destruct H as ([[b st'] sh] & H1 & H).
      assert (match_sub p m un s (shift d st) = Ok (b, shift d st', sh)) as ->.
      { unfold match_sub in *. destruct (try_short_circuit _ _ _) as [k| | |]; cbn [bind] in *; try discriminate.
        destruct k; try (injection H1 as <- <- <-; reflexivity).
        apply bind_ok in H1. destruct H1 as ([b1 s1] & H1 & [= <- <- <-]). apply node_shift with (d := d) in H1. now rewrite H1. }
      cbn [bind]. match goal with |- context [search_loop _ _ _ _ _ ?q] => destruct (IH _ _ _ q H) as (-> & h & S) end.
      destruct b; cbn [add_sub r_evaluated r_matched r_shorted r_memoized r_subs] in *.
      + split; [|exists (s_id s :: h); rewrite S, <- app_assoc; reflexivity]. do 2 f_equal; try (destruct sh; lia).
        rewrite S, skip_app, <- (app_assoc (r_subs r)), skip_app. now rewrite <- app_assoc.
      + split; [|exists h; exact S]. do 2 f_equal; destruct sh; lia.
  Qed.
  Lemma query_added n q ev b r1 r0 : p_query n q ev make_report = Ok (b, r1) -> p_query n q ev r0 = Ok (b, appended r0 r1).
  Proof.
    unfold p_query. intros E. destruct (make_env _ ev) as [p| | |]; cbn [bind] in *; try discriminate.
    destruct (validate_variables _ p); cbn [negb] in *.
    - destruct (p_match n _ p _ _) as [l| | |]; cbn [bind] in *; try discriminate.
      destruct (get_subs _ l) as [su| | |]; cbn [bind] in *; try discriminate.
      apply bind_ok in E. destruct E as (r2 & E & [= <- <-]). destruct (loop_add _ _ _ (r_memoized r0) _ _ _ _ r0 E) as (E' & _).
      replace (shift (r_memoized r0) _) with (make_memoize (pm_mcount (p_pm q)) (r_memoized r0)) in E' by (unfold shift, make_memoize; cbn; reflexivity).
      rewrite E'. cbn [bind]. unfold appended. cbn. rewrite !Z.sub_0_r, (Z.add_comm (r_memoized r2)). reflexivity.
    - injection E as <- <-. unfold appended. cbn. rewrite !Z.add_0_r, app_nil_r. now destruct r0.
  Qed.
End Reports.
