(** Filling, sorting and searching with events in memory does what it does without. *)
From Coq Require Import ZArith NArith String Bool List Lia Permutation.
From Verif Require Import Base Float Value Ast Config Assign Bound Special Match Tree PredMap Source Api EventObj ObjSpec ListProofs ObjProofs.
From Verif Require Import Ledger HeapExpr HeapSpec HeapEvent HeapEventSpec PermTac LedgerProofs HeapProofs HeapEventProofs.
Import ListNotations.
Local Open Scope Z_scope.
Local Open Scope list_scope.

(** ** Simulation *)
(** The computation with memory ends like the one without. *)
Definition sim {A B} (r : result A) (c : cmd B) (m : ledger) (Q : A -> B -> ledger -> Prop) : Prop :=
  match r with Ok a => wp c m (Q a) | Abort => c m = Abort | UB => c m = UB | Fuel => c m = Fuel end.
Lemma sim_then {A B A' B'} (r : result A) (c : cmd B) (f : A -> result A') (k : B -> cmd B') m P Q :
  sim r c m P -> (forall a b m', P a b m' -> sim (f a) (k b) m' Q) -> sim (bind r f) (then_ c k) m Q.
Proof.
  intros H K. destruct r as [a| | |]; cbn [sim bind] in *; try (unfold then_; now rewrite H).
  destruct H as (b & m' & E & H). specialize (K a b m' H). unfold sim, wp, then_ in *. rewrite E. cbn [bind].
  destruct (f a); exact K.
Qed.
Lemma sim_step {A B B'} (r : result A) (c : cmd B) (k : B -> cmd B') m Q :
  wp c m (fun b m' => sim r (k b) m' Q) -> sim r (then_ c k) m Q.
Proof.
  intros (b & m' & E & H). unfold sim, wp, then_ in *. rewrite E. cbn [bind]. exact H.
Qed.
Lemma sim_pure {A A' B'} (r : result A) (f : A -> result A') (k : A -> cmd B') m Q :
  (forall a, r = Ok a -> sim (f a) (k a) m Q) -> sim (bind r f) (then_ (fail r) k) m Q.
Proof.
  intros K. destruct r as [a| | |]; try reflexivity. cbn [bind]. specialize (K a eq_refl).
  unfold sim, wp, then_, fail in *. cbn [bind]. exact K.
Qed.
Lemma sim_mono {A B} (r : result A) (c : cmd B) m (P Q : A -> B -> ledger -> Prop) :
  sim r c m P -> (forall a b m', P a b m' -> Q a b m') -> sim r c m Q.
Proof. intros H I. destruct r; cbn [sim] in *; try exact H. eapply wp_mono; [exact H|]. intros. now apply I. Qed.
Lemma sim_ok {A B} (r : result A) (c : cmd B) m Q a : sim r c m Q -> r = Ok a -> wp c m (Q a).
Proof. intros H ->. exact H. Qed.

(** ** Loops *)
Lemma Forall2_length {A B} (R : A -> B -> Prop) l l' : Forall2 R l l' -> List.length l = List.length l'.
Proof. induction 1; cbn; congruence. Qed.
Lemma collect_ok {A B} (f : A -> cmd B) (bl : A -> list Z) (bl' : B -> list Z) (R : A -> B -> Prop) a :
  (forall x m l, In a l -> holds m (bl x ++ l) -> wp (f x) m (fun y m' => R x y /\ holds m' (bl' y ++ l))) ->
  forall s m l, (s <> [] -> In a l) -> holds m (flat_map bl s ++ l) ->
  wp (collect f s) m (fun ys m' => Forall2 R s ys /\ holds m' (flat_map bl' ys ++ l)).
Proof.
  intros F. induction s as [|x s IH]; intros m l I H; cbn [collect flat_map] in *.
  - lstep. now split.
  - specialize (I ltac:(discriminate)). lstep. eapply wp_mono; [apply (F x m (flat_map bl s ++ l)); [apply in_or_app; now right|now rewrite app_assoc]|].
    intros y m' (Ry & H'). lstep. eapply wp_mono; [apply (IH m' (bl' y ++ l)); [intros _; apply in_or_app; now right|eapply holds_perm; [exact H'|perm]]|].
    intros ys m2 (Rs & H2). lstep. split; [now constructor|]. cbn [flat_map]. eapply holds_perm; [exact H2|perm].
Qed.
Fixpoint traverse {A B} (g : A -> result B) (l : list A) : result (list B) :=
  (match l with [] => Ok [] | x :: t => do y <- g x; do ys <- traverse g t; Ok (y :: ys) end)%res.
Lemma collect_sim {A B A' B'} (f : A -> cmd B) (g : A' -> result B') (er : A -> A') (er' : B -> B') (bl : A -> list Z) (bl' : B -> list Z) a :
  (forall x m l, In a l -> holds m (bl x ++ l) -> sim (g (er x)) (f x) m (fun z y m' => er' y = z /\ holds m' (bl' y ++ l))) ->
  forall s m l, (s <> [] -> In a l) -> holds m (flat_map bl s ++ l) ->
  sim (traverse g (map er s)) (collect f s) m (fun zs ys m' => map er' ys = zs /\ List.length ys = List.length s /\ holds m' (flat_map bl' ys ++ l)).
Proof.
  intros F. induction s as [|x s IH]; intros m l I H; cbn [collect traverse map flat_map] in *.
  - cbn [sim]. lstep. split; [reflexivity|]. now split.
  - specialize (I ltac:(discriminate)). eapply sim_then; [apply (F x m (flat_map bl s ++ l)); [apply in_or_app; now right|now rewrite app_assoc]|].
    intros z y m' (Ey & H'). eapply sim_then; [apply (IH m' (bl' y ++ l)); [intros _; apply in_or_app; now right|eapply holds_perm; [exact H'|perm]]|].
    intros zs ys m2 (Es & Len & H2). cbn [sim]. lstep. split; [cbn [map]; congruence|]. split; [cbn; congruence|].
    cbn [flat_map]. eapply holds_perm; [exact H2|perm].
Qed.
Lemma each_use_ok l0 : forall m l (Q : unit -> ledger -> Prop), holds m l -> incl l0 l -> Q tt m -> wp (each use l0) m Q.
Proof.
  induction l0 as [|a t IH]; intros m l Q H I HQ; cbn [each].
  - now lstep.
  - lstep. apply wp_use with l; [exact H|apply I; now left|]. apply IH with l; [exact H|intros x Hx; apply I; now right|exact HQ].
Qed.
Lemma bl_arr_len {A B} (l : list A) (l' : list B) a : List.length l = List.length l' -> bl_arr l a = bl_arr l' a.
Proof. destruct l, l'; try discriminate; reflexivity. Qed.
Lemma bl_arr_in {A} (l : list A) a : l <> [] -> In a (bl_arr l a).
Proof. destruct l; [easy|]. now left. Qed.

(** ** Filling *)
Lemma look_ok c v s m l : holds m (bl_sval s ++ l) ->
  wp (h_look c v s) m (fun s' m' => er_sval s' = mkS (hs_text (hw_string s)) (try_get_str c v (hs_text (hw_string s))) /\
    holds m' (bl_sval s' ++ l)).
Proof. intros H. unfold h_look. lstep. unfold bl_sval in H. cbn [app] in H. lstep. lstep. now split. Qed.
Lemma fill_value_sim c v b x m l : holds m (bl_value x ++ l) ->
  sim (fill_value c v b (er_value x)) (h_fill_value c v b x) m (fun y y' m' => er_value y' = y /\ holds m' (bl_value y' ++ l)).
Proof.
  intros H. unfold h_fill_value, fill_value.
  destruct (btype b), x as [y|y|y|s|y|y|y|y|y]; cbn [er_value]; try reflexivity; try (cbn [sim]; lstep; now split).
  - (* a string *)
    cbn [sim]. lstep. eapply wp_mono; [exact (look_ok c v s m l H)|]. intros s' m' (E & H'). lstep. cbn [er_value]. rewrite E. now split.
  - (* no strings *)
    destruct y as [a d [|z i]]; cbn [hi_items hi_at hi_arr]; [|reflexivity]. cbn [bl_value] in H. unfold bl_ints in H. cbn [hi_items hi_at hi_arr] in H.
    cbn [sim]. lstep. cbn [app] in H. lstep. lstep. split; [reflexivity|]. cbn [bl_value]. unfold bl_strs. cbn [hl_items hl_at hl_arr flat_map].
    now rewrite app_nil_r.
  - (* strings *)
    cbn [bl_value] in H. unfold bl_strs in H. cbn [sim app] in *. lstep. lstep.
    lstep. eapply wp_mono; [apply (collect_ok _ bl_sval bl_sval
      (fun s s' => er_sval s' = mkS (hs_text (hw_string s)) (try_get_str c v (hs_text (hw_string s)))) (hl_arr y))
      with (s := hl_items y) (l := hl_at y :: bl_arr (hl_items y) (hl_arr y) ++ l)|].
    + intros s m0 l0 I0 H0. lstep. apply wp_use with (bl_sval s ++ l0); [exact H0|apply in_or_app; now right|].
      exact (look_ok c v s m0 l0 H0).
    + intros N. right. apply in_or_app. left. now apply bl_arr_in.
    + eapply holds_perm; [exact H|]. unfold bl_arr. perm.
    + intros ys m' (F & H'). lstep. cbn [er_value]. unfold er_strs. cbn [hl_items].
      assert (Len : List.length ys = List.length (hl_items y)) by (symmetry; exact (Forall2_length _ _ _ F)).
      split.
      * f_equal. clear - F. induction F as [|s s' t t' E F IH]; [reflexivity|]. cbn [map]. now rewrite E, IH.
      * cbn [bl_value]. unfold bl_strs. cbn [hl_items hl_at hl_arr]. eapply holds_perm; [exact H'|].
        fold (bl_arr ys (hl_arr y)). rewrite (bl_arr_len _ _ _ Len). perm.
  - (* no segments *)
    destruct y as [a d [|z i]]; cbn [hi_items hi_at hi_arr]; [|reflexivity]. cbn [bl_value] in H. unfold bl_ints in H. cbn [hi_items hi_at hi_arr] in H.
    cbn [sim]. lstep. split; [reflexivity|]. cbn [bl_value]. unfold bl_segs, bl_arr. cbn [hgs_items hgs_at hgs_arr map].
    now rewrite app_nil_r.
  - (* no caps *)
    destruct y as [a d [|z i]]; cbn [hi_items hi_at hi_arr]; [|reflexivity]. cbn [bl_value] in H. unfold bl_ints in H. cbn [hi_items hi_at hi_arr] in H.
    cbn [sim]. lstep. cbn [app] in H. lstep. lstep. split; [reflexivity|]. cbn [bl_value]. unfold bl_caps, bl_arr. cbn [hcs_items hcs_at hcs_arr flat_map].
    now rewrite app_nil_r.
  - (* caps *)
    cbn [bl_value] in H. unfold bl_caps in H. cbn [sim app] in *. lstep. lstep.
    lstep. eapply wp_mono; [apply (collect_ok _ bl_cap bl_cap
      (fun k k' => er_cap k' = mkCap (hc_type k) (hc_id k) (mkS (hs_text (hw_string (hc_ns k))) (try_get_str c v (hs_text (hw_string (hc_ns k)))))
                                     (hc_tsdef k) (hc_ts k) (hc_value k)) (hcs_arr y)) with (s := hcs_items y) (l := hcs_at y :: bl_arr (hcs_items y) (hcs_arr y) ++ l)|].
    + intros k m0 l0 I0 H0. lstep. apply wp_use with (bl_cap k ++ l0); [exact H0|apply in_or_app; now right|].
      unfold bl_cap in H0. cbn [app] in H0. lstep. lstep. lstep.
      eapply wp_mono; [apply (look_ok c v (hc_ns k) m0 (hc_at k :: l0)); eapply holds_perm; [exact H0|perm]|].
      intros s' m' (E & H'). lstep. split; [unfold er_cap; cbn [hc_type hc_id hc_ns hc_tsdef hc_ts hc_value]; now rewrite E|].
      unfold bl_cap. cbn [hc_at hc_ns app]. eapply holds_perm; [exact H'|perm].
    + intros N. right. apply in_or_app. left. now apply bl_arr_in.
    + eapply holds_perm; [exact H|]. perm.
    + intros ys m' (F & H'). lstep. cbn [er_value hcs_items].
      assert (Len : List.length ys = List.length (hcs_items y)) by (symmetry; exact (Forall2_length _ _ _ F)).
      split.
      * f_equal. clear - F. induction F as [|s s' t t' E F IH]; [reflexivity|]. cbn [map]. now rewrite E, IH.
      * cbn [bl_value]. unfold bl_caps. cbn [hcs_items hcs_at hcs_arr]. eapply holds_perm; [exact H'|].
        rewrite (bl_arr_len _ _ _ Len). perm.
Qed.

(** The variable that is found, the name, the value. *)
Definition seen := (N * string * value)%type.
Definition seen_of (x : hvariable) : seen := (hv_var (hy_attr x), hy_name x, er_value (hy_value x)).
Definition fill_raw (c : config) (x : variable) : result seen :=
  (let v := try_get_id_for_attr c (fst x) in
   if (v =? INVALID_VAR)%N then Abort else
   do d <- get_domain c v; do y <- fill_value c v (d_bound d) (snd x); Ok (v, fst x, y))%res.
Definition fill_slot (c : config) (x : option variable) : result (option seen) :=
  (match x with None => Ok None | Some y => do z <- fill_raw c y; Ok (Some z) end)%res.
Definition sorted (x : seen) : seen := let '(v, n, y) := x in (v, n, sort_value y).
Definition upd_seen (p : env) (x : option seen) : env := match x with Some (v, _, y) => updN p v (Some y) | None => p end.
Definition named_seen (x : seen) : variable := let '(_, n, y) := x in (n, y).

Lemma fill_object_split c : forall ev p, fill_object c ev p =
  (do l <- traverse (fill_slot c) ev;
   let s := map (option_map sorted) l in Ok (map (option_map named_seen) s, fold_left upd_seen s p))%res.
Proof.
  induction ev as [|[[n x]|] ev IH]; intros p; cbn [fill_object traverse fill_slot bind]; [reflexivity| |].
  - unfold fill_variable, fill_raw. cbn [fst snd]. destruct (_ =? INVALID_VAR)%N; [reflexivity|].
    destruct (get_domain _ _) as [d| | |]; try reflexivity. cbn [bind].
    destruct (fill_value _ _ _ _) as [y| | |]; try reflexivity. cbn [bind]. rewrite IH.
    destruct (traverse _ ev); reflexivity.
  - rewrite IH. destruct (traverse _ ev); reflexivity.
Qed.

Lemma fill_variable_sim c x m l : holds m (bl_variable x ++ l) ->
  sim (fill_raw c (er_variable x)) (h_fill_variable c x) m (fun z y m' => seen_of y = z /\ holds m' (bl_variable y ++ l)).
Proof.
  intros H. unfold h_fill_variable, fill_raw, er_variable, bl_variable in *. cbn [fst snd app] in *.
  apply sim_step. lstep. apply sim_step. unfold h_try_get_id. lstep.
  eapply wp_mono; [apply (bstrdup_ok (hv_attr (hy_attr x)) m _ (hy_at x :: bl_value (hy_value x) ++ l) H); perm|].
  intros s m' ((Et & Ns) & H'). clear H. cbn [app] in H'. lstep. lstep. lstep. lstep. lstep. rewrite Et.
  fold (try_get_id_for_attr c (hs_text (hv_attr (hy_attr x)))). fold (hy_name x).
  destruct (_ =? INVALID_VAR)%N; [reflexivity|]. apply sim_pure. intros d Ed.
  eapply sim_then; [apply (fill_value_sim c _ _ (hy_value x) m0 (hy_at x :: hs_at (hv_attr (hy_attr x)) :: l)); eapply holds_perm; [exact H|perm]|].
  intros y y' m1 (Ey & H1). cbn [sim]. lstep. split; [unfold seen_of; cbn; now rewrite Ey|].
  cbn [hy_at hy_attr hv_attr hy_value]. eapply holds_perm; [exact H1|perm].
Qed.
Definition slot_of (x : option hvariable) : option seen := option_map seen_of x.
Lemma fill_event_sim c e m l : holds m (bl_event e ++ l) ->
  sim (traverse (fill_slot c) (er_event e)) (h_fill_event c e) m (fun zs e' m' => map slot_of (he_vars e') = zs /\ holds m' (bl_event e' ++ l)).
Proof.
  intros H. unfold h_fill_event, each_variable, er_event. apply sim_step. unfold bl_event in H. cbn [app] in H. lstep.
  assert (R : forall (r : result (list (option seen))), bind r (fun a => Ok a) = r) by (intros [ | | |]; reflexivity).
  rewrite <- (R (traverse _ _)). clear R.
  eapply sim_then; [apply (collect_sim (on_slot (he_arr e) (h_fill_variable c)) (fill_slot c) (option_map er_variable) slot_of bl_slot bl_slot (he_arr e))
    with (l := he_at e :: bl_arr (he_vars e) (he_arr e) ++ l)|].
  - intros x m0 l0 I0 H0. unfold on_slot. apply sim_step. apply wp_use with (bl_slot x ++ l0); [exact H0|apply in_or_app; now right|].
    destruct x as [x|]; cbn [option_map fill_slot].
    + eapply sim_then; [exact (fill_variable_sim c x m0 l0 H0)|]. intros z y m1 (Ez & H1). cbn [sim]. lstep. cbn. split; [congruence|exact H1].
    + cbn [sim]. lstep. now split.
  - intros N. right. apply in_or_app. left. now apply bl_arr_in.
  - eapply holds_perm; [exact H|perm].
  - intros zs ys m' (Ez & Len & H'). cbn [sim]. lstep. cbn [he_vars]. split; [exact Ez|]. unfold bl_event. cbn [he_at he_arr he_vars app].
    rewrite (bl_arr_len _ _ _ Len). eapply holds_perm; [exact H'|perm].
Qed.

(** ** Sorting *)
Lemma map_insert_key {A B} (f : A -> B) k k' (E : forall x, k' (f x) = k x) x l : map f (insert_key k x l) = insert_key k' (f x) (map f l).
Proof. induction l as [|y t IH]; cbn; [reflexivity|]. rewrite !E. destruct (k x <=? k y); cbn; congruence. Qed.
Lemma map_sort_key {A B} (f : A -> B) k k' (E : forall x, k' (f x) = k x) l : map f (sort_key k l) = sort_key k' (map f l).
Proof. induction l as [|y t IH]; cbn; [reflexivity|]. rewrite (map_insert_key f k k' E). now rewrite IH. Qed.
Lemma h_dedup_from_ok l : forall y m r, holds m (flat_map bl_sval l ++ r) ->
  wp (h_dedup_from y l) m (fun s m' => map er_sval s = dedup_from sv_str (er_sval y) (map er_sval l) /\ holds m' (flat_map bl_sval s ++ r)).
Proof.
  induction l as [|x l IH]; intros y m r H; cbn [h_dedup_from map dedup_from flat_map] in *.
  - lstep. now split.
  - change (sv_str (er_sval y)) with (hw_str y). change (sv_str (er_sval x)) with (hw_str x). destruct (hw_str y =? hw_str x).
    + lstep. eapply free_sval_ok with (l' := flat_map bl_sval l ++ r); [exact H|perm|]. intros m' H'. now apply IH.
    + lstep. eapply wp_mono; [apply (IH x m (bl_sval x ++ r)); eapply holds_perm; [exact H|perm]|].
      intros s m' (E & H'). lstep. split; [cbn [map]; congruence|]. cbn [flat_map]. eapply holds_perm; [exact H'|perm].
Qed.
Lemma sort_strs_ok x m l : holds m (bl_strs x ++ l) ->
  wp (h_sort_strs x) m (fun y m' => er_strs y = sort_strs (er_strs x) /\ holds m' (bl_strs y ++ l)).
Proof.
  intros H. unfold h_sort_strs, bl_strs, er_strs, sort_strs in *. fold (bl_arr (hl_items x) (hl_arr x)) in H. cbn [app] in H. lstep. lstep.
  rewrite <- (map_sort_key er_sval hw_str sv_str) by reflexivity.
  assert (P : Permutation (flat_map bl_sval (hl_items x)) (flat_map bl_sval (sort_key hw_str (hl_items x)))).
  { apply Permutation_flat_map, Permutation_sym, sort_key_perm. }
  assert (Len : List.length (sort_key hw_str (hl_items x)) = List.length (hl_items x)) by apply length_sort_key.
  lstep. assert (W : wp match hl_items x with [] => ret tt | _ => use (hl_arr x) end m (fun _ m' => m' = m)).
  { destruct (hl_items x) eqn:E; [now apply wp_ret|]. eapply wp_use; [exact H| |reflexivity]. cbn [bl_arr]. right. now left. }
  eapply wp_mono; [exact W|]. intros _ m1 ->. lstep. rewrite <- (bl_arr_len _ _ _ Len) in H.
  assert (H2 : holds m (flat_map bl_sval (sort_key hw_str (hl_items x)) ++ hl_at x :: bl_arr (sort_key hw_str (hl_items x)) (hl_arr x) ++ l)).
  { eapply holds_perm; [exact H|]. rewrite <- app_assoc, P. perm. }
  clear H P W Len. destruct (sort_key hw_str (hl_items x)) as [|y t]; cbn [h_dedup dedup map flat_map] in *.
  - lstep. lstep. split; [reflexivity|]. cbn [hl_items hl_at hl_arr flat_map]. rewrite app_nil_r. exact H2.
  - lstep. eapply wp_mono; [apply (h_dedup_from_ok t y m (bl_sval y ++ hl_at x :: bl_arr (y :: t) (hl_arr x) ++ l)); eapply holds_perm; [exact H2|perm]|].
    intros s m' (E & H'). lstep. lstep. cbn [hl_items hl_at hl_arr map flat_map bl_arr] in *. split; [now rewrite E|].
    eapply holds_perm; [exact H'|perm].
Qed.
Lemma sort_ints_ok x m l : holds m (bl_ints x ++ l) ->
  wp (h_sort_ints x) m (fun y m' => hi_items y = sort_ints (hi_items x) /\ holds m' (bl_ints y ++ l)).
Proof.
  intros H. unfold h_sort_ints, bl_ints in *. fold (bl_arr (hi_items x) (hi_arr x)) in H. cbn [app] in H. lstep. lstep.
  lstep. assert (W : wp match hi_items x with [] => ret tt | _ => use (hi_arr x) end m (fun _ m' => m' = m)).
  { destruct (hi_items x) eqn:E; [now apply wp_ret|]. eapply wp_use; [exact H| |reflexivity]. cbn [bl_arr]. right. now left. }
  eapply wp_mono; [exact W|]. intros _ m1 ->. lstep. cbn [hi_items hi_at hi_arr app]. split; [reflexivity|].
  fold (bl_arr (sort_ints (hi_items x)) (hi_arr x)).
  assert (E : bl_arr (sort_ints (hi_items x)) (hi_arr x) = bl_arr (hi_items x) (hi_arr x)); [|now rewrite E].
  clear. unfold sort_ints. assert (Len : List.length (sort_key (fun z => z) (hi_items x)) = List.length (hi_items x)) by apply length_sort_key.
  rewrite <- (bl_arr_len _ _ _ Len). now destruct (sort_key _ _).
Qed.
Lemma sort_variable_ok x m l : holds m (bl_variable x ++ l) ->
  wp (h_sort_variable x) m (fun y m' => seen_of y = sorted (seen_of x) /\ holds m' (bl_variable y ++ l)).
Proof.
  intros H. unfold h_sort_variable. lstep. unfold bl_variable in H. cbn [app] in H. lstep.
  assert (S0 : seen_of x = sorted (seen_of x) -> wp (ret x) m (fun y m' => seen_of y = sorted (seen_of x) /\ holds m' (bl_variable y ++ l))).
  { intros E. lstep. split; [exact E|exact H]. }
  destruct (hy_value x) as [y|y|y|s|y|y|y|y|y] eqn:V; try (apply S0; unfold seen_of; rewrite V; reflexivity); clear S0.
  - lstep. eapply wp_mono; [apply (sort_ints_ok y m (hy_at x :: hs_at (hv_attr (hy_attr x)) :: l)); eapply holds_perm; [exact H|cbn [bl_value]; perm]|].
    intros z m' (E & H'). lstep. split; [unfold seen_of; rewrite V; unfold hy_name; cbn; now rewrite E|]. unfold bl_variable. cbn [hy_at hy_attr hy_value bl_value app].
    eapply holds_perm; [exact H'|perm].
  - lstep. eapply wp_mono; [apply (sort_strs_ok y m (hy_at x :: hs_at (hv_attr (hy_attr x)) :: l)); eapply holds_perm; [exact H|cbn [bl_value]; perm]|].
    intros z m' (E & H'). lstep. split; [unfold seen_of; rewrite V; unfold hy_name; cbn; now rewrite E|]. unfold bl_variable. cbn [hy_at hy_attr hy_value bl_value app].
    eapply holds_perm; [exact H'|perm].
Qed.
Lemma sort_event_ok e m l : holds m (bl_event e ++ l) ->
  wp (h_sort_event e) m (fun e' m' => map slot_of (he_vars e') = map (option_map sorted) (map slot_of (he_vars e)) /\ holds m' (bl_event e' ++ l)).
Proof.
  intros H. unfold h_sort_event, each_variable. lstep. unfold bl_event in H. cbn [app] in H. lstep. lstep.
  eapply wp_mono; [apply (collect_ok (on_slot (he_arr e) h_sort_variable) bl_slot bl_slot (fun x y => slot_of y = option_map sorted (slot_of x)) (he_arr e))
    with (s := he_vars e) (l := he_at e :: bl_arr (he_vars e) (he_arr e) ++ l)|].
  - intros x m0 l0 I0 H0. unfold on_slot. lstep. apply wp_use with (bl_slot x ++ l0); [exact H0|apply in_or_app; now right|].
    destruct x as [x|].
    + lstep. eapply wp_mono; [exact (sort_variable_ok x m0 l0 H0)|]. intros y m1 (Ez & H1). lstep. unfold slot_of. cbn [option_map]. split; [now rewrite Ez|exact H1].
    + lstep. now split.
  - intros N. right. apply in_or_app. left. now apply bl_arr_in.
  - eapply holds_perm; [exact H|perm].
  - intros ys m' (F & H'). lstep. cbn [he_vars].
    assert (Len : List.length ys = List.length (he_vars e)) by (symmetry; exact (Forall2_length _ _ _ F)).
    split; [clear - F; induction F as [|s s' t t' E F IH]; [reflexivity|]; cbn [map]; now rewrite E, IH|].
    unfold bl_event. cbn [he_at he_arr he_vars app]. rewrite (bl_arr_len _ _ _ Len). eapply holds_perm; [exact H'|perm].
Qed.
