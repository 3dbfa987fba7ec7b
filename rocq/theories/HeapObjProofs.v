(** The calls that build objects keep the memory of the caller in order. *)
From Coq Require Import ZArith NArith String Bool List Lia Permutation Morphisms.
From Coq Require Import ZifyBool ZifyNat ZifyN.
From Verif Require Import Base Float Value Ast Config Assign Special Match Bound Tree PredMap Source Api EventObj Linked LinkedApi BisonTables Machine ObjProgram.
From Verif Require Import Ledger HeapExpr HeapSpec HeapEvent HeapEventSpec HeapConf HeapConfSpec HeapWorld HeapWorldSpec HeapObj HeapObjSpec.
From Verif Require Import ObjProofs BaseProofs PermTac LedgerProofs HeapProofs HeapEventProofs HeapFill HeapConfProofs HeapSearch HeapSubs HeapPasses HeapWorldProofs.
Import ListNotations.
Local Open Scope Z_scope.

(** ** The pointers of the caller *)
Lemma map_put {A B} (f : A -> B) : forall l h x, map f (put l h x) = put (map f l) h (f x).
Proof. induction l as [|y l IH]; intros [|h] x; cbn; try reflexivity. now rewrite IH. Qed.
Lemma put_Forall {A} (P : A -> Prop) : forall l h x, Forall P l -> P x -> Forall P (put l h x).
Proof. induction l as [|y l IH]; intros [|h] x F Px; cbn; inversion F; subst; constructor; auto. Qed.
Definition rest (l : list hitem) (h : nat) : list Z := bl_items (put l h JGone).
Lemma at_split : forall l h x, nth_error l h = Some x -> Permutation (bl_items l) (bl_item x ++ rest l h).
Proof.
  induction l as [|y l IH]; intros [|h] x E; cbn in E; try discriminate.
  - injection E as ->. reflexivity.
  - unfold rest, bl_items in *. cbn [put flat_map]. rewrite (IH h x E). perm.
Qed.
Lemma put_split : forall l h x y, nth_error l h = Some x -> Permutation (bl_items (put l h y)) (bl_item y ++ rest l h).
Proof.
  induction l as [|z l IH]; intros [|h] x y E; cbn in E; try discriminate.
  - reflexivity.
  - unfold rest, bl_items in *. cbn [put flat_map]. rewrite (IH h x y E). perm.
Qed.
Lemma put_other {A} : forall (l : list A) h g x, h <> g -> nth_error (put l g x) h = nth_error l h.
Proof. induction l as [|y l IH]; intros [|h] [|g] x N; cbn; try reflexivity; try congruence. apply IH. congruence. Qed.
Lemma bl_snoc l x : Permutation (bl_items (l ++ [x])) (bl_item x ++ bl_items l).
Proof. unfold bl_items. rewrite flat_map_app. cbn. rewrite app_nil_r. apply Permutation_app_comm. Qed.
Lemma item_at_ok its h x : item_at (map er_item its) h = Ok x -> exists y, nth_error its h = Some y /\ er_item y = x.
Proof.
  unfold item_at. rewrite nth_error_map. destruct (nth_error its h) as [y|]; [|discriminate]. cbn. intros E. injection E as <-. now exists y.
Qed.
Lemma hitem_at_ok its h y m (Q : hitem -> ledger -> Prop) : nth_error its h = Some y -> Q y m -> wp (hitem_at its h) m Q.
Proof. intros E H. unfold hitem_at. rewrite E. now apply wp_ret. Qed.

(** ** Lists under construction *)
Lemma repeat_none {A B} (f : option A -> list B) n : f None = [] -> flat_map f (repeat None n) = [].
Proof. intros E. induction n; cbn; [reflexivity|]. now rewrite E, IHn. Qed.
Lemma map_repeat_none {A B} (f : A -> B) n : map (option_map f) (repeat None n) = repeat None n.
Proof. induction n; cbn; congruence. Qed.
Lemma bl_arr_some {A} (l : list A) a : a <> 0 -> bl_arr l a = [a].
Proof. intros N. destruct l; cbn; [now apply opt_at_some|reflexivity]. Qed.
Lemma vacant_map {A B} (f : A -> B) l : forall i, vacant (map (option_map f) l) i = vacant l i.
Proof. unfold vacant. induction l as [|x l IH]; intros i; cbn; [reflexivity|]. destruct (i =? 0)%N; [now destruct x|apply IH]. Qed.
Lemma upd_opt {A B} (f : A -> B) (bl : A -> list Z) x : forall (vs : list (option A)) i, (i < N.of_nat (List.length vs))%N -> exists old,
  nthN vs i = Some old /\
  Permutation (flat_map (bl_opt bl) (updN vs i x) ++ bl_opt bl old) (bl_opt bl x ++ flat_map (bl_opt bl) vs) /\
  map (option_map f) (updN vs i x) = updN (map (option_map f) vs) i (option_map f x).
Proof.
  induction vs as [|y vs IH]; intros i B0; [cbn in B0; lia|]. cbn [nthN updN map]. destruct (N.eqb_spec i 0) as [->|Ni].
  - exists y. split; [reflexivity|]. split; [cbn [flat_map]; perm|reflexivity].
  - destruct (IH (N.pred i)) as (old & E & Pm & Em); [cbn [List.length] in B0; lia|]. exists old. split; [exact E|]. split; [|cbn [map]; congruence].
    cbn [flat_map]. rewrite <- app_assoc, Pm. perm.
Qed.
Lemma make_slots_ok {A} (bl : A -> list Z) n m l (Q : hslots A -> ledger -> Prop) : holds m l ->
  (forall s m', sl_items s = repeat None n -> holds m' (bl_slots bl s ++ l) -> Q s m') -> wp (h_make_slots n) m Q.
Proof.
  intros H HQ. unfold h_make_slots. lstep. lstep. lstep. lstep. lstep. apply HQ; [reflexivity|].
  unfold bl_slots. cbn [sl_at sl_arr sl_items]. rewrite repeat_none, app_nil_r, bl_arr_some by (reflexivity || assumption). eapply holds_perm; [eassumption|perm].
Qed.
Lemma add_slot_ok {A B} (f : A -> B) (bl : A -> list Z) s i x t m l l' (Q : hslots A -> ledger -> Prop) :
  add_slot (map (option_map f) (sl_items s)) i (option_map f x) = Ok t -> holds m l -> Permutation l (bl_slots bl s ++ bl_opt bl x ++ l') ->
  (forall s' m' lost, map (option_map f) (sl_items s') = t -> (vacant (sl_items s) i = true -> lost = []) ->
     holds m' (bl_slots bl s' ++ lost ++ l') -> Q s' m') ->
  wp (h_add_slot s i x) m Q.
Proof.
  unfold add_slot, h_add_slot. rewrite map_length. intros E H P HQ.
  destruct (N.ltb_spec i (N.of_nat (List.length (sl_items s)))) as [B0|B0]; [|discriminate]. injection E as <-.
  destruct (upd_opt f bl x (sl_items s) i B0) as (old & Eo & Pm & Em).
  apply (holds_perm _ _ _ H) in P. clear H. unfold bl_slots in P. lstep. eapply wp_use; [exact P|now left|]. lstep. eapply wp_use; [exact P| |].
  { right. apply in_or_app. left. apply in_or_app. left. apply bl_arr_in. intros E0. rewrite E0 in B0. cbn in B0. lia. }
  lstep. apply (HQ _ _ (bl_opt bl old)); cbn [sl_items].
  - exact Em.
  - unfold vacant. rewrite Eo. now destruct old.
  - unfold bl_slots. cbn [sl_at sl_arr sl_items]. rewrite (bl_arr_len (updN (sl_items s) i x) (sl_items s)) by apply length_updN.
    eapply holds_perm; [exact P|]. cbn [app]. apply perm_skip. rewrite <- !app_assoc. apply Permutation_app_head.
    rewrite (app_assoc (flat_map _ _) (bl_opt bl old)), Pm. perm.
Qed.
Lemma free_slots_ok {A} (f : A -> cmd unit) (bl : A -> list Z)
  (F : forall x m l l' (Q : unit -> ledger -> Prop), holds m l -> Permutation l (bl x ++ l') -> (forall m', holds m' l' -> Q tt m') -> wp (f x) m Q)
  s m l l' (Q : unit -> ledger -> Prop) :
  holds m l -> Permutation l (bl_slots bl s ++ l') -> (forall m', holds m' l' -> Q tt m') -> wp (h_free_slots f s) m Q.
Proof.
  intros H P HQ. apply (holds_perm _ _ _ H) in P. clear H. unfold bl_slots in P. unfold h_free_slots.
  lstep. eapply wp_use; [exact P|now left|]. lstep.
  eapply (each_free_ok (fun x => match x with Some y => f y | None => ret tt end) (bl_opt bl)) with (l' := sl_at s :: bl_arr (sl_items s) (sl_arr s) ++ l'); [|exact P|cbn [app]; perm|].
  { intros [x|] m0 l0 l0' Q0 H0 P0 HQ0; cbn [bl_opt] in P0; [now apply (F x m0 l0 l0')|]. lstep. apply HQ0. exact (holds_perm _ _ _ H0 P0). }
  intros m1 H1. lstep. apply (free_bl_arr (sl_items s) (sl_arr s) m1 _ (sl_at s :: l') _ H1); [perm|]. intros m2 H2. eapply wp_free; [exact H2|reflexivity|exact HQ].
Qed.
Lemma all_set_ok {A B} (f : A -> B) (bl : A -> list Z) : forall (s : list (option A)) t, elements (map (option_map f) s) = Ok t ->
  exists s', all_set s = Ok s' /\ map f s' = t /\ flat_map bl s' = flat_map (bl_opt bl) s /\ List.length s' = List.length s.
Proof.
  induction s as [|[x|] s IH]; intros t E; cbn in E; try discriminate.
  - injection E as <-. now exists [].
  - apply bind_ok in E. destruct E as (t' & E & E'). injection E' as <-. destruct (IH _ E) as (s' & A1 & A2 & A3 & A4). exists (x :: s').
    cbn [all_set map flat_map bl_opt List.length]. rewrite A1. cbn [bind]. repeat split; congruence.
Qed.
Lemma free_report_ok r m l l' (Q : unit -> ledger -> Prop) :
  holds m l -> Permutation l (bl_report r ++ l') -> (forall m', holds m' l' -> Q tt m') -> wp (h_free_report r) m Q.
Proof.
  intros H P HQ. apply (holds_perm _ _ _ H) in P. clear H. unfold bl_report in P. unfold h_free_report. lstep. eapply wp_use; [exact P|now left|].
  lstep. eapply wp_free_opt with (l' := hp_at r :: l'); [exact P|cbn [app]; perm|]. intros m1 H1. eapply wp_free; [exact H1|reflexivity|exact HQ].
Qed.
(** The blocks of an item are released. *)
Lemma free_item_ok x m l l' (Q : unit -> ledger -> Prop) : x <> JNull -> x <> JGone ->
  holds m l -> Permutation l (bl_item x ++ l') -> (forall m', holds m' l' -> Q tt m') -> wp (h_free_item x) m Q.
Proof.
  intros N0 N1 H P HQ. destruct x; cbn [h_free_item bl_item] in *; try congruence.
  - eapply HeapProofs.free_ints_ok; eauto.
  - eapply (free_slots_ok h_free_sval bl_sval); eauto. exact free_sval_ok.
  - eapply wp_free; eauto.
  - eapply (free_slots_ok h_free_seg (fun s => [hg_at s])); eauto. intros y m9 l9 l9' Q9 H9 P9 HQ9. eapply wp_free; eauto.
  - eapply free_cap_ok; eauto.
  - eapply (free_slots_ok h_free_cap bl_cap); eauto. exact free_cap_ok.
  - eapply free_variable_ok; eauto.
  - eapply free_event_ok; eauto.
  - apply (holds_perm _ _ _ H) in P. clear H. cbn [app] in P. unfold h_free_constant. lstep. eapply wp_use; [exact P|now left|]. lstep.
    eapply wp_free; [exact P|apply perm_swap|]. intros m1 H1. eapply wp_free; [exact H1|reflexivity|exact HQ].
  - eapply free_report_ok; eauto.
Qed.
Lemma make_variable_ok name v m l l' (Q : hvariable -> ledger -> Prop) : holds m l -> Permutation l (bl_value v ++ l') ->
  (forall x m', er_variable x = (name, er_value v) -> holds m' (bl_variable x ++ l') -> Q x m') -> wp (h_make_variable name v) m Q.
Proof.
  intros H P HQ. apply (holds_perm _ _ _ H) in P. clear H. unfold h_make_variable. lstep. eapply wp_malloc; [exact P|]. intros a m1 _ H1. lstep. eapply wp_malloc; [exact H1|].
  intros b m2 _ H2. lstep. apply HQ; [reflexivity|]. exact H2.
Qed.
Lemma set_variable_ok e i x ev m l l' (Q : hevent -> ledger -> Prop) :
  set_variable (er_event e) i (option_map er_variable x) = Ok ev -> holds m l -> Permutation l (bl_event e ++ bl_slot x ++ l') ->
  (forall e' m' lost, er_event e' = ev -> (vacant (he_vars e) i = true -> lost = []) -> holds m' (bl_event e' ++ lost ++ l') -> Q e' m') ->
  wp (h_set_variable e i x) m Q.
Proof.
  unfold set_variable, h_set_variable, er_event. rewrite map_length. intros E H P HQ.
  destruct (N.ltb_spec i (N.of_nat (List.length (he_vars e)))) as [B0|B0]; [|discriminate]. injection E as <-.
  destruct (upd_opt er_variable bl_variable x (he_vars e) i B0) as (old & Eo & Pm & Em).
  apply (holds_perm _ _ _ H) in P. clear H. unfold bl_event in P. lstep. eapply wp_use; [exact P|now left|]. lstep. eapply wp_use; [exact P| |].
  { right. apply in_or_app. left. apply in_or_app. left. apply bl_arr_in. intros E0. rewrite E0 in B0. cbn in B0. lia. }
  lstep. apply (HQ _ _ (bl_slot old)); cbn [he_vars].
  - exact Em.
  - unfold vacant. rewrite Eo. now destruct old.
  - unfold bl_event. cbn [he_at he_arr he_vars]. rewrite (bl_arr_len (updN (he_vars e) i x) (he_vars e)) by apply length_updN.
    eapply holds_perm; [exact P|]. cbn [app]. apply perm_skip. rewrite <- !app_assoc. apply Permutation_app_head.
    change (flat_map bl_slot) with (flat_map (bl_opt bl_variable)). change (bl_slot old) with (bl_opt bl_variable old). change (bl_slot x) with (bl_opt bl_variable x).
    rewrite (app_assoc (flat_map _ _) (bl_opt bl_variable old)), Pm. perm.
Qed.

(** ** One call *)
Definition kept_items (clean : bool) (t : list item) (l : list Z) (its : list hitem) (m : ledger) : Prop :=
  map er_item its = t /\ Forall item_ok its /\ exists lost, (clean = true -> lost = []) /\ holds m (bl_items its ++ lost ++ l).
(** A new pointer. *)
Lemma kept_snoc its x t m l : Forall item_ok its -> item_ok x -> er_item x = t -> holds m (bl_item x ++ bl_items its ++ l) ->
  kept_items true (map er_item its ++ [t]) l (its ++ [x]) m.
Proof.
  intros F X E H. split; [rewrite map_app; cbn; now rewrite E|]. split; [apply Forall_app; split; [exact F|now constructor]|].
  exists []. split; [reflexivity|]. eapply holds_perm; [exact H|]. rewrite (bl_snoc its x). perm.
Qed.
(** A pointer to something that changed. *)
Lemma kept_put its h x y t (c : bool) lost m l : Forall item_ok its -> nth_error its h = Some x -> item_ok y -> er_item y = t -> (c = true -> lost = []) ->
  holds m (bl_item y ++ lost ++ rest its h ++ l) -> kept_items c (put (map er_item its) h t) l (put its h y) m.
Proof.
  intros F X O E C H. split; [rewrite map_put; now rewrite E|]. split; [now apply put_Forall|].
  exists lost. split; [exact C|]. eapply holds_perm; [exact H|]. rewrite (put_split its h x y X). perm.
Qed.
(** Something was given away. *)
Lemma kept_gone its h x y t m l : Forall item_ok its -> nth_error its h = Some x -> item_ok y -> er_item y = t ->
  holds m (bl_item y ++ rest its h ++ l) -> kept_items true (put (map er_item its) h IGone ++ [t]) l (put its h JGone ++ [y]) m.
Proof.
  intros F X O E H. split; [rewrite map_app, map_put; cbn [map]; now rewrite E|].
  split; [apply Forall_app; split; [apply put_Forall; [exact F|exact Logic.I]|now constructor]|].
  exists []. split; [reflexivity|]. eapply holds_perm; [exact H|]. rewrite (bl_snoc (put its h JGone) y). unfold rest. perm.
Qed.
(** Something was given to something else. *)
Lemma kept_given its h g x v y t (c : bool) lost m l : Forall item_ok its -> h <> g -> nth_error its h = Some x -> nth_error its g = Some v ->
  item_ok y -> er_item y = t -> (c = true -> lost = []) -> holds m (bl_item y ++ lost ++ rest (put its g JGone) h ++ l) ->
  kept_items c (put (put (map er_item its) g IGone) h t) l (put (put its g JGone) h y) m.
Proof.
  intros F N X V O E C H. change IGone with (er_item JGone). rewrite <- map_put.
  apply (kept_put (put its g JGone) h x y t c lost m l); try assumption; [apply put_Forall; [exact F|exact Logic.I]|now rewrite put_other].
Qed.
Lemma given_split its h g x v : h <> g -> nth_error its h = Some x -> nth_error its g = Some v ->
  Permutation (bl_items its) (bl_item x ++ bl_item v ++ rest (put its g JGone) h).
Proof.
  intros N X V. rewrite (at_split its g v V). unfold rest at 1. rewrite (at_split (put its g JGone) h x) by now rewrite put_other. perm.
Qed.

Ltac bd E x H := apply bind_ok in E; destruct E as (x & H & E).
Ltac item E Hx y :=
  let x := fresh "x" in let X := fresh "X" in bd E x X; apply item_at_ok in X; destruct X as (y & Hx & <-).
Ltac frame H P := eapply holds_perm; [exact H|]; rewrite P; perm.

Lemma ocall_ok c its k t m l : o_call c (map er_item its) k = Ok t -> Forall item_ok its -> holds m (bl_items its ++ l) ->
  wp (ho_call c its k) m (kept_items (o_clean (map er_item its) k) t l).
Proof.
  intros E F H. destruct k; cbn [o_call ho_call o_clean] in *.
  - injection E as <-. unfold h_make_constant. repeat lstep. eapply kept_snoc; [exact F|exact Logic.I|reflexivity|]. eapply holds_perm; [eassumption|cbn [bl_item hs_at]; perm].
  - injection E as <-. unfold h_make_int_list. repeat lstep. eapply kept_snoc; [exact F|exact Logic.I|reflexivity|].
    cbn [bl_item]. unfold bl_ints. cbn [hi_at hi_arr hi_items]. fold (@bl_arr Z (repeat 0 n) a0). rewrite bl_arr_some by assumption. eapply holds_perm; [eassumption|perm].
  - item E Hx y. destruct y as [s| | | | | | | | | | |]; try discriminate E. cbn [er_item] in E. bd E s' E1. injection E as <-.
    lstep. apply (hitem_at_ok its h _ _ _ Hx). cbv beta iota. unfold add_integer in E1.
    destruct (N.ltb_spec i (N.of_nat (List.length (hi_items s)))) as [B0|B0]; [|discriminate]. injection E1 as <-.
    unfold h_set_int. lstep. lstep. pose proof (holds_perm _ _ (bl_item (JInts s) ++ rest its h ++ l) H ltac:(rewrite (at_split its h _ Hx); perm)) as H1.
    cbn [bl_item] in H1. unfold bl_ints in H1. eapply wp_use; [exact H1|now left|]. replace ((i <? N.of_nat (List.length (hi_items s)))%N) with true by lia. lstep.
    eapply wp_use; [exact H1| |].
    { right. apply in_or_app. left. apply (bl_arr_in (hi_items s)). intros E0. rewrite E0 in B0. cbn in B0. lia. }
    lstep. lstep. eapply (kept_put its h _ _ _ true [] _ l F Hx); [exact Logic.I|reflexivity|reflexivity|]. cbn [bl_item]. unfold bl_ints. cbn [hi_at hi_arr hi_items].
    eapply holds_perm; [exact H1|].
    change (match updN (hi_items s) i z with [] => opt_at (hi_arr s) | _ => [hi_arr s] end) with (bl_arr (updN (hi_items s) i z) (hi_arr s)).
    rewrite (bl_arr_len (updN (hi_items s) i z) (hi_items s)) by apply length_updN. change (match hi_items s with [] => opt_at (hi_arr s) | _ => [hi_arr s] end) with (bl_arr (hi_items s) (hi_arr s)). perm.
  - injection E as <-. lstep. apply (make_slots_ok bl_sval n m _ _ H). intros s m1 Es H1. lstep. eapply kept_snoc; [exact F|exact Logic.I|cbn [er_item]; rewrite Es, map_repeat_none; reflexivity|exact H1].
  - item E Hx y. destruct y as [|s0| | | | | | | | | |]; try discriminate E. cbn [er_item] in E. bd E s' E1. injection E as <-.
    lstep. apply (hitem_at_ok its h _ _ _ Hx). cbv beta iota. lstep. eapply wp_malloc; [exact H|]. intros a m1 _ H1. lstep.
    eapply (add_slot_ok er_sval bl_sval s0 i (Some (mkHSV (mkHS a s) 0)) s' m1 _ (rest its h ++ l)); [exact E1|exact H1|rewrite (at_split its h _ Hx); change (bl_opt bl_sval (Some (mkHSV (mkHS a s) 0))) with [a]; cbn [bl_item]; perm|].
    intros s2 m2 lost E2 C2 H2. lstep. rewrite nth_error_map, Hx. cbn [option_map er_item].
    eapply kept_put with (lost := lost); [exact F|exact Hx|exact Logic.I|cbn [er_item]; now rewrite E2|rewrite vacant_map; exact C2|exact H2].
  - injection E as <-. unfold h_make_segment. repeat lstep. eapply kept_snoc; [exact F|exact Logic.I|reflexivity|]. eapply holds_perm; [eassumption|cbn [bl_item hg_at]; perm].
  - injection E as <-. lstep. apply (make_slots_ok (fun s => [hg_at s]) n m _ _ H). intros s m1 Es H1. lstep. eapply kept_snoc; [exact F|exact Logic.I|cbn [er_item]; rewrite Es, map_repeat_none; reflexivity|exact H1].
  - item E Hx y. item E Hy z. lstep. apply (hitem_at_ok its h _ _ _ Hx). lstep. apply (hitem_at_ok its g _ _ _ Hy). cbv beta iota.
    destruct y as [| | |s0| | | | | | | |]; try (cbn [er_item] in E; discriminate E). rewrite nth_error_map, Hx. cbn [option_map er_item]. rewrite vacant_map.
    destruct z as [| |v| | | | | | | | |]; cbn [er_item] in E; try discriminate E; bd E s' E1; injection E as <-.
    + assert (N : h <> g) by (intros ->; congruence). lstep.
      eapply (add_slot_ok hg_seg (fun s => [hg_at s]) s0 i (Some v) s' m _ (rest (put its g JGone) h ++ l)); [exact E1|exact H|rewrite (given_split its h g _ _ N Hx Hy); cbn [bl_item bl_opt]; perm|].
      intros s2 m2 lost E2 C2 H2. lstep. exact (kept_given its h g _ _ (JSegs s2) _ _ lost _ l F N Hx Hy Logic.I (f_equal ISegs E2) C2 H2).
    + lstep. eapply (add_slot_ok hg_seg (fun s => [hg_at s]) s0 i None s' m _ (rest its h ++ l)); [exact E1|exact H|rewrite (at_split its h _ Hx); cbn [bl_item bl_opt]; perm|].
      intros s2 m2 lost E2 C2 H2. lstep. exact (kept_put its h _ (JSegs s2) _ _ lost _ l F Hx Logic.I (f_equal ISegs E2) C2 H2).
  - injection E as <-. unfold h_new_cap, make_frequency_cap. destruct (get_type_from_string ty); cbn [option_map];
      try (repeat lstep; eapply kept_snoc; [exact F|exact Logic.I|reflexivity|]; match goal with H : holds _ _ |- _ => exact H end).
  - injection E as <-. lstep. apply (make_slots_ok bl_cap n m _ _ H). intros s m1 Es H1. lstep. eapply kept_snoc; [exact F|exact Logic.I|cbn [er_item]; rewrite Es, map_repeat_none; reflexivity|exact H1].
  - item E Hx y. item E Hy z. lstep. apply (hitem_at_ok its h _ _ _ Hx). lstep. apply (hitem_at_ok its k _ _ _ Hy). cbv beta iota.
    destruct y as [| | | | |s0| | | | | |]; try (cbn [er_item] in E; discriminate E). rewrite nth_error_map, Hx. cbn [option_map er_item]. rewrite vacant_map.
    destruct z as [| | | |v| | | | | | |]; cbn [er_item] in E; try discriminate E; bd E s' E1; injection E as <-.
    + assert (N : h <> k) by (intros ->; congruence). lstep.
      eapply (add_slot_ok er_cap bl_cap s0 i (Some v) s' m _ (rest (put its k JGone) h ++ l)); [exact E1|exact H|rewrite (given_split its h k _ _ N Hx Hy); cbn [bl_item bl_opt]; perm|].
      intros s2 m2 lost E2 C2 H2. lstep. exact (kept_given its h k _ _ (JCaps s2) _ _ lost _ l F N Hx Hy Logic.I (f_equal ICaps E2) C2 H2).
    + lstep. eapply (add_slot_ok er_cap bl_cap s0 i None s' m _ (rest its h ++ l)); [exact E1|exact H|rewrite (at_split its h _ Hx); cbn [bl_item bl_opt]; perm|].
      intros s2 m2 lost E2 C2 H2. lstep. exact (kept_put its h _ (JCaps s2) _ _ lost _ l F Hx Logic.I (f_equal ICaps E2) C2 H2).
  - injection E as <-. lstep. eapply make_variable_ok with (l' := bl_items its ++ l); [exact H|reflexivity|]. intros x m1 E1 H1. lstep. eapply kept_snoc; [exact F|exact Logic.I|cbn [er_item]; rewrite E1; reflexivity|exact H1].
  - injection E as <-. lstep. eapply make_variable_ok with (l' := bl_items its ++ l); [exact H|reflexivity|]. intros x m1 E1 H1. lstep. eapply kept_snoc; [exact F|exact Logic.I|cbn [er_item]; rewrite E1; reflexivity|exact H1].
  - injection E as <-. lstep. eapply make_variable_ok with (l' := bl_items its ++ l); [exact H|reflexivity|]. intros x m1 E1 H1. lstep. eapply kept_snoc; [exact F|exact Logic.I|cbn [er_item]; rewrite E1; reflexivity|exact H1].
  - injection E as <-. unfold h_make_string_variable. lstep. lstep. eapply wp_malloc; [exact H|]. intros a m1 _ H1.
    eapply make_variable_ok with (l' := bl_items its ++ l); [exact H1|reflexivity|]. intros x m2 E1 H2. lstep.
    eapply kept_snoc; [exact F|exact Logic.I|cbn [er_item]; rewrite E1; reflexivity|exact H2].
  - item E Hx y. destruct y as [s| | | | | | | | | | |]; try discriminate E. cbn [er_item] in E. injection E as <-.
    lstep. apply (hitem_at_ok its h _ _ _ Hx). cbv beta iota. lstep.
    eapply make_variable_ok with (l' := rest its h ++ l); [exact H|rewrite (at_split its h _ Hx); cbn [bl_value bl_item]; perm|]. intros x m2 E1 H2. lstep.
    eapply kept_gone; [exact F|exact Hx|exact Logic.I|cbn [er_item]; rewrite E1; reflexivity|exact H2].
  - item E Hx y. destruct y as [|s| | | | | | | | | |]; try discriminate E. cbn [er_item] in E. bd E y1 E1. injection E as <-. unfold make_string_list_variable in E1. bd E1 l1 E2. injection E1 as <-.
    destruct (all_set_ok er_sval bl_sval _ _ E2) as (s' & A1 & A2 & A3 & A4).
    lstep. apply (hitem_at_ok its h _ _ _ Hx). cbv beta iota. lstep. eapply wp_fail; [exact A1|]. lstep.
    eapply make_variable_ok with (l' := rest its h ++ l); [exact H| |].
    { rewrite (at_split its h _ Hx). cbn [bl_value bl_item]. unfold bl_slots, bl_strs. cbn [hl_at hl_arr hl_items].
      fold (bl_arr s' (sl_arr s)). rewrite (bl_arr_len s' (sl_items s)) by assumption. rewrite A3. perm. }
    intros x m2 E1 H2. lstep. eapply kept_gone; [exact F|exact Hx|exact Logic.I|cbn [er_item]; rewrite E1; cbn [er_value]; unfold er_strs; cbn [hl_items]; rewrite A2; reflexivity|exact H2].
  - item E Hx y. destruct y as [| | |s| | | | | | | |]; try discriminate E. cbn [er_item] in E. bd E y1 E1. injection E as <-. unfold make_segments_variable in E1. bd E1 l1 E2. injection E1 as <-.
    destruct (all_set_ok hg_seg (fun s => [hg_at s]) _ _ E2) as (s' & A1 & A2 & A3 & A4).
    lstep. apply (hitem_at_ok its h _ _ _ Hx). cbv beta iota. lstep. eapply wp_fail; [exact A1|]. lstep.
    eapply make_variable_ok with (l' := rest its h ++ l); [exact H| |].
    { rewrite (at_split its h _ Hx). cbn [bl_value bl_item]. unfold bl_slots, bl_segs. cbn [hgs_at hgs_arr hgs_items].
      rewrite (bl_arr_len s' (sl_items s)) by assumption. rewrite map_flat, A3. perm. }
    intros x m2 E1 H2. lstep. eapply kept_gone; [exact F|exact Hx|exact Logic.I|cbn [er_item]; rewrite E1; cbn [er_value hgs_items]; rewrite A2; reflexivity|exact H2].
  - item E Hx y. destruct y as [| | | | |s| | | | | |]; try discriminate E. cbn [er_item] in E. bd E y1 E1. injection E as <-. unfold make_frequency_caps_variable in E1. bd E1 l1 E2. injection E1 as <-.
    destruct (all_set_ok er_cap bl_cap _ _ E2) as (s' & A1 & A2 & A3 & A4).
    lstep. apply (hitem_at_ok its h _ _ _ Hx). cbv beta iota. lstep. eapply wp_fail; [exact A1|]. lstep.
    eapply make_variable_ok with (l' := rest its h ++ l); [exact H| |].
    { rewrite (at_split its h _ Hx). cbn [bl_value bl_item]. unfold bl_slots, bl_caps. cbn [hcs_at hcs_arr hcs_items].
      rewrite (bl_arr_len s' (sl_items s)) by assumption. rewrite A3. perm. }
    intros x m2 E1 H2. lstep. eapply kept_gone; [exact F|exact Hx|exact Logic.I|cbn [er_item]; rewrite E1; cbn [er_value hcs_items]; rewrite A2; reflexivity|exact H2].
  - injection E as <-. repeat lstep. eapply kept_snoc; [exact F|exact Logic.I|cbn [er_item]; unfold er_event; cbn [he_vars]; rewrite map_repeat_none; reflexivity|].
    cbn [bl_item]. unfold bl_event. cbn [he_at he_arr he_vars]. change bl_slot with (bl_opt bl_variable). rewrite repeat_none, app_nil_r, bl_arr_some by (reflexivity || assumption). eapply holds_perm; [eassumption|perm].
  - item E Hx y. item E Hy z. lstep. apply (hitem_at_ok its h _ _ _ Hx). lstep. apply (hitem_at_ok its x _ _ _ Hy). cbv beta iota.
    destruct y as [| | | | | | |e| | | |]; try (cbn [er_item] in E; discriminate E). rewrite nth_error_map, Hx. cbn [option_map er_item]. unfold er_event at 1. rewrite vacant_map.
    destruct z as [| | | | | |v| | | | |]; cbn [er_item] in E; try discriminate E; bd E s' E1; injection E as <-.
    + assert (N : h <> x) by (intros ->; congruence). lstep.
      eapply (set_variable_ok e i (Some v) s' m _ (rest (put its x JGone) h ++ l)); [exact E1|exact H|rewrite (given_split its h x _ _ N Hx Hy); cbn [bl_item bl_slot]; perm|].
      intros s2 m2 lost E2 C2 H2. lstep. exact (kept_given its h x _ _ (JEvent s2) _ _ lost _ l F N Hx Hy Logic.I (f_equal IEvent E2) C2 H2).
    + lstep. eapply (set_variable_ok e i None s' m _ (rest its h ++ l)); [exact E1|exact H|rewrite (at_split its h _ Hx); cbn [bl_item bl_slot]; perm|].
      intros s2 m2 lost E2 C2 H2. lstep. exact (kept_put its h _ (JEvent s2) _ _ lost _ l F Hx Logic.I (f_equal IEvent E2) C2 H2).
  - injection E as <-. unfold h_make_report. repeat lstep. eapply kept_snoc; [exact F|split; [cbn; lia|now cbn]|reflexivity|]. eapply holds_perm; [eassumption|]. cbn [bl_item]. unfold bl_report, opt_at. cbn. perm.
  - item E Hx y. lstep. apply (hitem_at_ok its h _ _ _ Hx). lstep.
    eapply free_item_ok with (l' := rest its h ++ l); [intros ->; discriminate E|intros ->; discriminate E|exact H|rewrite (at_split its h _ Hx); perm|].
    intros m1 H1. lstep. assert (Et : t = put (map er_item its) h IGone) by (destruct y; cbn [er_item] in E; congruence). subst t.
    exact (kept_put its h _ JGone _ true [] _ l F Hx Logic.I eq_refl (fun _ => eq_refl) H1).
Qed.
