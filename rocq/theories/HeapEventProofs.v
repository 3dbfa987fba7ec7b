(** Making and releasing events in memory. *)
From Coq Require Import ZArith NArith String Bool List Lia Permutation.
From Verif Require Import Base Float Value Ast Ledger HeapExpr HeapSpec HeapEvent HeapEventSpec PermTac LedgerProofs HeapProofs.
Import ListNotations.
Local Open Scope Z_scope.
Local Open Scope list_scope.

(** ** Releasing *)
Lemma free_cap_ok k m l l' (Q : unit -> ledger -> Prop) :
  holds m l -> Permutation l (bl_cap k ++ l') -> (forall m', holds m' l' -> Q tt m') -> wp (h_free_cap k) m Q.
Proof.
  intros H P HQ. apply (holds_perm _ _ _ H) in P. clear H. unfold h_free_cap, bl_cap in *. cbn [app] in P.
  lstep. lstep. lstep. lcall. lstep. now apply HQ.
Qed.
(** A loop that releases the elements of a list. *)
Lemma each_free_ok {A} (f : A -> cmd unit) (bl : A -> list Z)
  (F : forall x m l l' (Q : unit -> ledger -> Prop), holds m l -> Permutation l (bl x ++ l') -> (forall m', holds m' l' -> Q tt m') -> wp (f x) m Q) s :
  forall m l l' (Q : unit -> ledger -> Prop),
  holds m l -> Permutation l (flat_map bl s ++ l') -> (forall m', holds m' l' -> Q tt m') -> wp (each f s) m Q.
Proof.
  induction s as [|x s IH]; intros m l l' Q H P HQ.
  - apply wp_ret. apply HQ. now apply holds_perm with l.
  - cbn [each flat_map] in *. apply wp_then. apply F with l (flat_map bl s ++ l'); [exact H|rewrite P; perm|].
    intros m' H'. now apply IH with (flat_map bl s ++ l') l'.
Qed.
Lemma free_bl_arr {A} (items : list A) a m l l' (Q : unit -> ledger -> Prop) :
  holds m l -> Permutation l (bl_arr items a ++ l') -> (forall m', holds m' l' -> Q tt m') -> wp (free a) m Q.
Proof. exact (free_arr_ok items a m l l' Q). Qed.
Lemma map_flat {A} (f : A -> Z) l : map f l = flat_map (fun x => [f x]) l.
Proof. induction l; cbn; congruence. Qed.
Lemma free_segs_ok x m l l' (Q : unit -> ledger -> Prop) :
  holds m l -> Permutation l (bl_segs x ++ l') -> (forall m', holds m' l' -> Q tt m') -> wp (h_free_segs x) m Q.
Proof.
  intros H P HQ. apply (holds_perm _ _ _ H) in P. clear H. unfold h_free_segs, bl_segs in *. cbn [app] in P. rewrite map_flat in P.
  lstep. lstep. lstep.
  eapply (each_free_ok h_free_seg (fun s => [hg_at s])) with (l' := hgs_at x :: bl_arr (hgs_items x) (hgs_arr x) ++ l'); [|exact P|perm|].
  { intros s m0 l0 l0' Q0 H0 P0 HQ0. now apply wp_free with l0 l0'. }
  intros m' H'. lstep. eapply (free_bl_arr (hgs_items x)) with (l' := hgs_at x :: l'); [exact H'|perm|].
  intros m2 H2. lstep. now apply HQ.
Qed.
Lemma free_caps_ok x m l l' (Q : unit -> ledger -> Prop) :
  holds m l -> Permutation l (bl_caps x ++ l') -> (forall m', holds m' l' -> Q tt m') -> wp (h_free_caps x) m Q.
Proof.
  intros H P HQ. apply (holds_perm _ _ _ H) in P. clear H. unfold h_free_caps, bl_caps in *. cbn [app] in P.
  lstep. lstep. lstep.
  eapply (each_free_ok h_free_cap bl_cap free_cap_ok) with (l' := hcs_at x :: bl_arr (hcs_items x) (hcs_arr x) ++ l'); [exact P|perm|].
  intros m' H'. lstep. eapply (free_bl_arr (hcs_items x)) with (l' := hcs_at x :: l'); [exact H'|perm|].
  intros m2 H2. lstep. now apply HQ.
Qed.
Lemma free_value_ok v m l l' (Q : unit -> ledger -> Prop) :
  holds m l -> Permutation l (bl_value v ++ l') -> (forall m', holds m' l' -> Q tt m') -> wp (h_free_value v) m Q.
Proof.
  intros H P HQ. destruct v as [b|z|f|s|e|x|x|x|x]; cbn [bl_value h_free_value] in *.
  1, 2, 3, 5: apply wp_ret; apply HQ; now apply holds_perm with l.
  - now apply free_sval_ok with l l'.
  - now apply free_ints_ok with l l'.
  - now apply free_strs_ok with l l'.
  - now apply free_segs_ok with l l'.
  - now apply free_caps_ok with l l'.
Qed.
Lemma free_variable_ok x m l l' (Q : unit -> ledger -> Prop) :
  holds m l -> Permutation l (bl_variable x ++ l') -> (forall m', holds m' l' -> Q tt m') -> wp (h_free_variable x) m Q.
Proof.
  intros H P HQ. apply (holds_perm _ _ _ H) in P. clear H. unfold h_free_variable, bl_variable in *. cbn [app] in P.
  lstep. lstep. lstep. lstep. lstep. eapply free_value_ok with (l' := hy_at x :: l'); [exact H|perm|].
  intros m' H'. lstep. now apply HQ.
Qed.
Lemma free_slot_ok x m l l' (Q : unit -> ledger -> Prop) :
  holds m l -> Permutation l (bl_slot x ++ l') -> (forall m', holds m' l' -> Q tt m') ->
  wp (match x with Some y => h_free_variable y | None => ret tt end) m Q.
Proof.
  intros H P HQ. destruct x as [x|]; [now apply free_variable_ok with l l'|]. apply wp_ret. apply HQ. now apply holds_perm with l.
Qed.
Lemma free_event_ok e m l l' (Q : unit -> ledger -> Prop) :
  holds m l -> Permutation l (bl_event e ++ l') -> (forall m', holds m' l' -> Q tt m') -> wp (h_free_event e) m Q.
Proof.
  intros H P HQ. apply (holds_perm _ _ _ H) in P. clear H. unfold h_free_event, bl_event in *. cbn [app] in P.
  lstep. lstep. lstep. eapply (each_free_ok _ bl_slot free_slot_ok) with (l' := he_at e :: bl_arr (he_vars e) (he_arr e) ++ l'); [exact P|perm|].
  intros m' H'. lstep. eapply (free_bl_arr (he_vars e)) with (l' := he_at e :: l'); [exact H'|perm|].
  intros m2 H2. lstep. now apply HQ.
Qed.

(** ** Growing *)
Lemma add_seg_ok s a m l l' (Q : hsegs -> ledger -> Prop) : holds m l -> Permutation l (bl_segs a ++ hg_at s :: l') -> hgs_items a <> [] \/ hgs_arr a = 0 ->
  (forall b m', hgs_items b = hgs_items a ++ [s] -> holds m' (bl_segs b ++ l') -> Q b m') -> wp (h_add_seg s a) m Q.
Proof.
  intros H P N HQ. apply (holds_perm _ _ _ H) in P. clear H. unfold h_add_seg, bl_segs in *. cbn [app] in P. lstep. lstep.
  destruct (hgs_items a) as [|i r] eqn:E; cbn [bl_arr] in P.
  - destruct N as [N|N]; [easy|]. rewrite N in P. change (opt_at 0) with (@nil Z) in P. cbn [app map] in P. lstep. lstep. lstep. apply HQ; [reflexivity|].
    cbn [hgs_items hgs_at hgs_arr map bl_arr]. eapply holds_perm; [exact H|perm].
  - lstep. lstep. lstep. apply HQ; [reflexivity|]. cbn [hgs_items hgs_at hgs_arr app bl_arr]. eapply holds_perm; [exact H|].
    change (map hg_at (i :: r ++ [s])) with (map hg_at ((i :: r) ++ [s])). rewrite map_app. cbn [map]. perm.
Qed.
Lemma add_cap_ok s a m l l' (Q : hcaps -> ledger -> Prop) : holds m l -> Permutation l (bl_caps a ++ bl_cap s ++ l') -> hcs_items a <> [] \/ hcs_arr a = 0 ->
  (forall b m', hcs_items b = hcs_items a ++ [s] -> holds m' (bl_caps b ++ l') -> Q b m') -> wp (h_add_cap s a) m Q.
Proof.
  intros H P N HQ. apply (holds_perm _ _ _ H) in P. clear H. unfold h_add_cap, bl_caps in *. cbn [app] in P. lstep. lstep.
  destruct (hcs_items a) as [|i r] eqn:E; cbn [bl_arr] in P.
  - destruct N as [N|N]; [easy|]. rewrite N in P. change (opt_at 0) with (@nil Z) in P. cbn [app flat_map] in P. lstep. lstep. lstep. apply HQ; [reflexivity|].
    cbn [hcs_items hcs_at hcs_arr flat_map bl_arr]. eapply holds_perm; [exact H|perm].
  - lstep. lstep. lstep. apply HQ; [reflexivity|]. cbn [hcs_items hcs_at hcs_arr app bl_arr]. eapply holds_perm; [exact H|].
    change (flat_map bl_cap (i :: r ++ [s])) with (flat_map bl_cap ((i :: r) ++ [s])). rewrite flat_map_app. cbn [flat_map]. perm.
Qed.
Lemma add_variable_ok x a m l l' (Q : hevent -> ledger -> Prop) : holds m l -> Permutation l (bl_event a ++ bl_slot x ++ l') ->
  (he_vars a = [] -> he_arr a = 0) ->
  (forall b m', he_vars b = he_vars a ++ match x with Some _ => [x] | None => [] end -> (he_vars b = [] -> he_arr b = 0) ->
    holds m' (bl_event b ++ l') -> Q b m') -> wp (h_add_variable x a) m Q.
Proof.
  intros H P N HQ. apply (holds_perm _ _ _ H) in P. clear H. unfold h_add_variable. destruct x as [y|].
  - unfold bl_event in *. cbn [app] in P. lstep. lstep. destruct (he_vars a) as [|i r] eqn:E; cbn [bl_arr] in P.
    + rewrite N in P by reflexivity. change (opt_at 0) with (@nil Z) in P. cbn [app flat_map bl_slot] in P. lstep. lstep. lstep.
      apply HQ; [reflexivity|intros Z0; discriminate Z0|].
      cbn [he_vars he_at he_arr flat_map bl_arr bl_slot]. eapply holds_perm; [exact H|perm].
    + lstep. lstep. lstep. apply HQ; [reflexivity|intros Z0; discriminate Z0|]. cbn [he_vars he_at he_arr app bl_arr]. eapply holds_perm; [exact H|].
      change (flat_map bl_slot (i :: r ++ [Some y])) with (flat_map bl_slot ((i :: r) ++ [Some y])). rewrite flat_map_app. cbn [flat_map]. perm.
  - lstep. apply HQ; [now rewrite app_nil_r|exact N|]. cbn [bl_slot app] in P. exact P.
Qed.
