(** What the passes over an expression do to memory: the blocks of the expression stay the same, those of the configuration may grow. *)
From Coq Require Import ZArith NArith String Bool List Lia Permutation.
From Coq Require Import ZifyBool ZifyNat ZifyN.
From Verif Require Import Base Float Value Ast Config Assign Special Match Bound Tree RbTree PredMap Source Api Linked LinkedApi.
From Verif Require Import BisonTables Machine Ledger HeapExpr HeapSpec HeapEvent HeapEventSpec HeapConf HeapConfSpec HeapWorld.
From Verif Require Import BaseProofs PermTac LedgerProofs HeapProofs HeapEventProofs HeapRules HeapFill HeapConfProofs.
Import ListNotations.
Local Open Scope Z_scope.

(** ** Tables of strings *)
(** A table after the first is empty only when the domain has no room and strings are refused. *)
Definition stuck (al : bool) (c : config) : Prop :=
  forall x, In x (tl (c_strs c)) -> sm_vals x = [] -> al = false /\ exists d, get_domain c (sm_var x) = Ok d /\ is_full d 0 false = Ok true.
Lemma roomy_stuck al c : roomy c = true -> stuck al c.
Proof.
  intros R x I E. apply andb_prop in R. destruct R as (_ & R). rewrite forallb_forall in R. specialize (R x I). unfold some in R. rewrite E in R. discriminate R.
Qed.
Lemma find_strmap_split ms v m : find_strmap ms v = Some m -> exists l1 l2, ms = l1 ++ m :: l2 /\ sm_var m = v
  /\ forall s, push_str ms v s = l1 ++ mkSM (sm_attr m) (sm_var m) (sm_vals m ++ [s]) :: l2.
Proof.
  induction ms as [|x t IH]; [discriminate|]. cbn [find_strmap push_str]. destruct (N.eqb_spec (sm_var x) v) as [E|E].
  - intros [= <-]. exists [], t. now repeat split.
  - intros F. destruct (IH F) as (l1 & l2 & -> & V & P). exists (x :: l1), l2. split; [reflexivity|]. split; [exact V|]. intros s. now rewrite P.
Qed.
Lemma find_strmap_none ms v x s : find_strmap ms v = None -> sm_var x = v ->
  push_str (ms ++ [x]) v s = ms ++ [mkSM (sm_attr x) (sm_var x) (sm_vals x ++ [s])].
Proof.
  induction ms as [|y t IH]; cbn [find_strmap push_str app]; intros F V.
  - now rewrite V, N.eqb_refl.
  - destruct (sm_var y =? v)%N; [discriminate|]. now rewrite (IH F V).
Qed.
Lemma get_string_cases c v s al i c' : get_id_for_string c v s al = Ok (i, c') ->
  c' = c \/
  (exists l1 m l2 d, c_strs c = l1 ++ m :: l2 /\ get_domain c (sm_var m) = Ok d /\ is_full d (Z.of_nat (List.length (sm_vals m))) al = Ok false
     /\ c' = set_strs c (l1 ++ mkSM (sm_attr m) (sm_var m) (sm_vals m ++ [s]) :: l2)) \/
  (exists x, c' = set_strs c (c_strs c ++ [x]) /\
     (sm_vals x = [] -> al = false /\ exists d, get_domain c (sm_var x) = Ok d /\ is_full d 0 false = Ok true)).
Proof.
  unfold get_id_for_string. intros G. destruct (find_strmap (c_strs c) (av_var v)) as [m|] eqn:F.
  - destruct (str_index (sm_vals m) s) as [j|]; [injection G as _ <-; now left|].
    destruct (find_strmap_split _ _ _ F) as (l1 & l2 & E & V & P).
    apply bind_ok in G. destruct G as (d & D & G). fold (is_full d (Z.of_nat (List.length (sm_vals m))) al) in G.
    apply bind_ok in G. destruct G as (b & B & G). destruct b; injection G as _ <-; [now left|].
    right. left. exists l1, m, l2, d. rewrite V. split; [exact E|]. split; [exact D|]. split; [exact B|]. rewrite P. now rewrite V.
  - right. right. apply bind_ok in G. destruct G as (d & D & G). change (get_domain c (av_var v) = Ok d) in D.
    fold (is_full d 0 al) in G. apply bind_ok in G. destruct G as (b & B & G). destruct b; injection G as _ <-.
    + exists (mkSM (av_attr v) (av_var v) []). split; [reflexivity|]. intros _. destruct al; [discriminate|]. split; [reflexivity|]. now exists d.
    + exists (mkSM (av_attr v) (av_var v) [s]). split; [|discriminate].
      cbn [set_strs c_strs c_domains c_cap c_minpart c_maxsplit c_ints]. rewrite (find_strmap_none _ _ _ s F); reflexivity.
Qed.
Lemma get_string_step c v s al i c' : get_id_for_string c v s al = Ok (i, c') -> stuck al c -> stuck al c' /\ (roomy c' = true -> roomy c = true).
Proof.
  intros G P. destruct (get_string_cases _ _ _ _ _ _ G) as [->|[(l1 & m & l2 & d & E & D & F & ->)|(x & -> & X)]]; [now split| |].
  - set (m' := mkSM (sm_attr m) (sm_var m) (sm_vals m ++ [s])).
    assert (M : sm_vals m' <> []) by (unfold m'; cbn; now destruct (sm_vals m)).
    split.
    + intros y I Y. cbn [c_strs set_strs] in I.
      assert (J : y = m' \/ In y (tl (c_strs c))).
      { rewrite E. destruct l1 as [|z l1]; cbn [app tl] in I |- *; [now right|].
        apply in_app_or in I. destruct I as [I|[<-|I]]; [right|now left|right]; apply in_or_app; [now left|now right; right]. }
      destruct J as [->|J]; [now elim M|]. exact (P y J Y).
    + intros R. apply andb_prop in R. destruct R as (R1 & R2). cbn [c_strs set_strs] in R1, R2.
      rewrite forallb_forall in R1, R2. apply andb_true_intro. split; apply forallb_forall; intros y I.
      * rewrite E in I. apply in_app_or in I. destruct I as [I|[<-|I]].
        -- apply R1. apply in_or_app. now left.
        -- specialize (R1 m' ltac:(apply in_or_app; right; now left)). unfold small, m' in *. cbn [sm_vals] in R1. rewrite app_length in R1. cbn in R1. lia.
        -- apply R1. apply in_or_app. now right; right.
      * assert (J : (y = m /\ In m (tl (c_strs c))) \/ In y (tl (l1 ++ m' :: l2))).
        { pose proof I as I0. rewrite E in I. destruct l1 as [|z l1]; cbn [app tl] in I |- *; [now right|].
          apply in_app_or in I. destruct I as [I|[<-|I]]; [right|left|right]; [apply in_or_app; now left|now split|apply in_or_app; now right; right]. }
        destruct J as [(-> & J)|J]; [|exact (R2 y J)].
        unfold some. destruct (sm_vals m) eqn:V; [|reflexivity]. exfalso.
        destruct (P m J V) as (-> & d' & D' & F'). rewrite D in D'. injection D' as <-. cbn [List.length] in F. change (Z.of_nat 0) with 0 in F. congruence.
  - split.
    + intros y I Y. cbn [c_strs set_strs] in I.
      assert (J : y = x \/ In y (tl (c_strs c))).
      { destruct (c_strs c) as [|z t]; cbn [app tl] in I |- *; [destruct I|]. apply in_app_or in I. destruct I as [I|[<-|[]]]; [now right|now left]. }
      destruct J as [->|J]; [exact (X Y)|exact (P y J Y)].
    + intros R. apply andb_prop in R. destruct R as (R1 & R2). cbn [c_strs set_strs] in R1, R2.
      rewrite forallb_forall in R1, R2. apply andb_true_intro. split; apply forallb_forall; intros y I.
      * apply R1. apply in_or_app. now left.
      * apply R2. destruct (c_strs c); [destruct I|]. cbn [app tl] in I |- *. apply in_or_app. now left.
Qed.

(** ** The recursion *)
Definition leaf_step (St : config -> Prop) (g : config -> leaf -> result (leaf * config)) : Prop :=
  forall c p p' c', g c p = Ok (p', c') -> St c -> St c' /\ (roomy c' = true -> roomy c = true).
Definition leaf_ok (St : config -> Prop) (g : config -> leaf -> result (leaf * config)) (f : kconf -> hleaf -> cmd (hleaf * kconf)) : Prop :=
  forall k p p' c' m l (Q : hleaf * kconf -> ledger -> Prop),
  g (er_conf k) (er_leaf p) = Ok (p', c') -> St (er_conf k) -> roomy c' = true -> conf_ok k -> full_leaf p -> holds m (bl_conf k ++ bl_leaf p ++ l) ->
  (forall k' q m', er_leaf q = p' -> er_conf k' = c' -> conf_ok k' -> full_leaf q -> Permutation (bl_leaf q) (bl_leaf p) ->
    holds m' (bl_conf k' ++ bl_leaf p ++ l) -> Q (q, k') m') -> wp (f k p) m Q.
Lemma trav_step St g : leaf_step St g -> forall e c e' c', trav g c e = Ok (e', c') -> St c -> St c' /\ (roomy c' = true -> roomy c = true).
Proof.
  intros L. assert (T : forall e1 e2 c x c1 y c2,
    (forall c e' c', trav g c e1 = Ok (e', c') -> St c -> St c' /\ (roomy c' = true -> roomy c = true)) ->
    (forall c e' c', trav g c e2 = Ok (e', c') -> St c -> St c' /\ (roomy c' = true -> roomy c = true)) ->
    trav g c e1 = Ok (x, c1) -> trav g c1 e2 = Ok (y, c2) -> St c -> St c2 /\ (roomy c2 = true -> roomy c = true)).
  { intros e1 e2 c x c1 y c2 I1 I2 A B P. destruct (I1 _ _ _ A P) as (P1 & R1). destruct (I2 _ _ _ B P1) as (P2 & R2). split; [exact P2|intros R; auto]. }
  induction e as [gg p|gg a IHa b IHb|gg a IHa b IHb|gg a IHa]; intros c e' c' E P; cbn [trav] in E;
    apply bind_ok in E; destruct E as ((x, c1) & A & E).
  - injection E as _ <-. exact (L _ _ _ _ A P).
  - apply bind_ok in E. destruct E as ((y, c2) & B & E). injection E as _ <-. exact (T _ _ _ _ _ _ _ IHa IHb A B P).
  - apply bind_ok in E. destruct E as ((y, c2) & B & E). injection E as _ <-. exact (T _ _ _ _ _ _ _ IHa IHb A B P).
  - injection E as _ <-. exact (IHa _ _ _ A P).
Qed.
Lemma trav_ok St g f : leaf_step St g -> leaf_ok St g f -> forall e k e' c' m l (Q : hexpr * kconf -> ledger -> Prop),
  trav g (er_conf k) (er_expr e) = Ok (e', c') -> St (er_conf k) -> roomy c' = true -> conf_ok k -> full e -> holds m (bl_conf k ++ blocks e ++ l) ->
  (forall k' x m', er_expr x = e' -> er_conf k' = c' -> conf_ok k' -> full x -> Permutation (blocks x) (blocks e) ->
    holds m' (bl_conf k' ++ blocks e ++ l) -> Q (x, k') m') -> wp (h_trav f k e) m Q.
Proof.
  intros LS LO. induction e as [a gg p|a gg x IHx y IHy|a gg x IHx y IHy|a gg x IHx]; intros k e' c' m l Q E P R OK N H HQ;
    cbn [h_trav er_expr trav h_at blocks full] in *; apply bind_ok in E; destruct E as ((x', c1) & A & E); cbv beta iota in E.
  - injection E as <- <-. lstep. lstep. lstep.
    apply (LO k p x' c1 m (a :: l) _ A P R OK N); [eapply holds_perm; [exact H|perm]|].
    intros k' q m' E1 E2 K F PP H'. lstep. apply HQ; try assumption; cbn [er_expr full blocks]; [now rewrite E1|rewrite PP; reflexivity|eapply holds_perm; [exact H'|perm]].
  - apply bind_ok in E. destruct E as ((y', c2) & B & E). injection E as <- <-. destruct N as (Nx & Ny).
    destruct (trav_step St g LS _ _ _ _ A P) as (P1 & R1). destruct (trav_step St g LS _ _ _ _ B P1) as (P2 & R2).
    lstep. lstep. lstep. apply (IHx k x' c1 m (a :: blocks y ++ l) _ A P (R2 R) OK Nx); [eapply holds_perm; [exact H|perm]|].
    intros k1 u m1 E1 E2 K1 F1 PP1 H1. subst c1. lstep.
    apply (IHy k1 y' c2 m1 (a :: blocks x ++ l) _ B P1 R K1 Ny); [eapply holds_perm; [exact H1|perm]|].
    intros k2 v m2 E3 E4 K2 F2 PP2 H2. lstep. apply HQ; try assumption; cbn [er_expr full blocks];
      [now rewrite E1, E3|now split|rewrite PP1, PP2; reflexivity|eapply holds_perm; [exact H2|perm]].
  - apply bind_ok in E. destruct E as ((y', c2) & B & E). injection E as <- <-. destruct N as (Nx & Ny).
    destruct (trav_step St g LS _ _ _ _ A P) as (P1 & R1). destruct (trav_step St g LS _ _ _ _ B P1) as (P2 & R2).
    lstep. lstep. lstep. apply (IHx k x' c1 m (a :: blocks y ++ l) _ A P (R2 R) OK Nx); [eapply holds_perm; [exact H|perm]|].
    intros k1 u m1 E1 E2 K1 F1 PP1 H1. subst c1. lstep.
    apply (IHy k1 y' c2 m1 (a :: blocks x ++ l) _ B P1 R K1 Ny); [eapply holds_perm; [exact H1|perm]|].
    intros k2 v m2 E3 E4 K2 F2 PP2 H2. lstep. apply HQ; try assumption; cbn [er_expr full blocks];
      [now rewrite E1, E3|now split|rewrite PP1, PP2; reflexivity|eapply holds_perm; [exact H2|perm]].
  - injection E as <- <-. lstep. lstep. lstep.
    apply (IHx k x' c1 m (a :: l) _ A P R OK N); [eapply holds_perm; [exact H|perm]|].
    intros k1 u m1 E1 E2 K1 F1 PP1 H1. lstep. apply HQ; try assumption; cbn [er_expr full blocks];
      [now rewrite E1|rewrite PP1; reflexivity|eapply holds_perm; [exact H1|perm]].
Qed.

(** A pass that leaves the configuration alone. *)
Lemma trav_pure (F : config -> leaf -> leaf) e : forall c, trav (fun c p => Ok (F c p, c)) c e = Ok (map_leaves (F c) e, c).
Proof.
  induction e as [g p|g a IHa b IHb|g a IHa b IHb|g a IHa]; intros c; cbn [trav map_leaves bind]; [reflexivity| | |];
    rewrite IHa; cbn [bind]; try (rewrite IHb; cbn [bind]); reflexivity.
Qed.
Lemma step_same (St : config -> Prop) (g : config -> leaf -> result (leaf * config)) : (forall c p p' c', g c p = Ok (p', c') -> c' = c \/ exists i, c' = set_ints c i) ->
  (forall c i, St c -> St (set_ints c i)) -> leaf_step St g.
Proof. intros H I c p p' c' E P. destruct (H _ _ _ _ E) as [->|(i & ->)]; [now split|]. split; [now apply I|]. intros R. exact R. Qed.

(** ** Variables *)
Lemma find_attr_ok ds name m l : forall i (Q : N -> ledger -> Prop), holds m l -> incl (flat_map bl_kdom ds) l ->
  Q (find_attr (map er_dom ds) name i) m -> wp (k_find_attr ds name i) m Q.
Proof.
  induction ds as [|d t IH]; intros i Q H I HQ; cbn [k_find_attr map find_attr er_dom d_attr] in *; [now lstep|].
  lstep. eapply wp_use; [exact H|apply I; now left|]. lstep. eapply wp_use; [exact H|apply I; right; now left|].
  destruct (String.eqb (hs_text (kd_attr d)) name); [now lstep|]. apply IH; [exact H|intros z Z; apply I; right; right; exact Z|exact HQ].
Qed.
Lemma try_id_ok k s m l (Q : N -> ledger -> Prop) : holds m (bl_conf k ++ l) -> In (hs_at s) l ->
  (forall m', holds m' (bl_conf k ++ l) -> Q (try_get_id_for_attr (er_conf k) (hs_text s)) m') -> wp (k_try_id k s) m Q.
Proof.
  intros H I HQ. unfold k_try_id. destruct (conf_pieces k l) as (P1 & P2 & _).
  lstep. apply (dup_ok s m (bl_conf k ++ l)); [exact H|apply in_or_app; now right|]. intros x m1 T _ H1.
  lstep. lstep. lstep. eapply wp_use; [exact H1|right; now left|]. lstep. apply walk_ok with (hs_at x :: bl_conf k ++ l); [exact H1|intros z Z; right; now apply P1|].
  lstep. apply (find_attr_ok (k_doms k) (lower (hs_text x)) m1 (hs_at x :: bl_conf k ++ l)); [exact H1|intros z Z; right; now apply P2|].
  lstep. eapply wp_free; [exact H1|reflexivity|]. intros m2 H2. lstep. rewrite T. apply HQ. exact H2.
Qed.
Lemma set_var_ok k v m l (Q : hvar -> ledger -> Prop) : holds m (bl_conf k ++ l) -> has_name v -> incl (bl_var v) l ->
  (forall m', holds m' (bl_conf k ++ l) ->
    Q (mkHV (hv_attr v) (try_get_id_for_attr (er_conf k) (hs_text (hv_attr v)))) m') -> wp (h_set_var k v) m Q.
Proof.
  intros H N I HQ. unfold h_set_var. lstep. apply (try_id_ok k (hv_attr v) m l); [exact H|apply I; unfold bl_var; rewrite (opt_at_some _ N); now left|].
  intros m' H'. lstep. apply HQ. exact H'.
Qed.
Ltac in_tac := let z := fresh "z" in let Z := fresh "Z" in intros z Z; repeat (rewrite in_app_iff || cbn [In]); tauto.
Ltac vstep := match goal with
  | H : holds ?m (bl_conf ?k ++ ?l) |- wp (h_set_var ?k ?v) ?m _ =>
      let m' := fresh "m" in let H' := fresh "H" in
      apply (set_var_ok k v m l); [exact H|assumption|in_tac|]; intros m' H'; clear H
  end.
Lemma var_leaf_ok : leaf_ok (fun _ => True) (fun c p => Ok (assign_var_leaf c p, c)) h_var_leaf.
Proof.
  intros k p p' c' m l Q E _ _ OK N H HQ. injection E as <- <-.
  assert (X : forall q m', er_leaf q = assign_var_leaf (er_conf k) (er_leaf p) -> full_leaf q -> bl_leaf q = bl_leaf p ->
    holds m' (bl_conf k ++ bl_leaf p ++ l) -> Q (q, k) m').
  { intros q m' E F B H'. apply HQ; try assumption; [reflexivity|now rewrite B]. }
  clear HQ. destruct N as (N1 & N2).
  destruct p as [b|v|op v c|op v q|op x y|op v x|op v|v ty ns va n now id|op h v id s now|h a b c v w|op v s];
    cbn [h_var_leaf named_leaf] in *; unfold h_var_leaf; cbn [bl_leaf] in *.
  all: try (destruct N2 as (N2 & N3)).
  all: try (lstep; lstep; try vstep; repeat lstep; try vstep; repeat lstep; apply X; try assumption; try reflexivity; try (split; now repeat split)).
  (* sets *)
  destruct N1 as (N1 & N3). destruct x as [z|z|v], y as [w|w|w]; cbn [bl_left bl_right] in *;
    repeat first [lstep|vstep]; apply X; try assumption; try reflexivity; split; now repeat split.
Qed.
Lemma same_step St (F : config -> leaf -> leaf) : leaf_step St (fun c p => Ok (F c p, c)).
Proof. intros c p p' c' [= _ <-] P. now split. Qed.
Lemma assign_variable_id_ok k e m l (Q : hexpr * kconf -> ledger -> Prop) : roomy (er_conf k) = true -> conf_ok k -> full e -> holds m (bl_conf k ++ blocks e ++ l) ->
  (forall k' x m', er_expr x = assign_variable_id (er_conf k) (er_expr e) -> er_conf k' = er_conf k -> conf_ok k' -> full x -> Permutation (blocks x) (blocks e) ->
    holds m' (bl_conf k' ++ blocks e ++ l) -> Q (x, k') m') -> wp (h_assign_variable_id k e) m Q.
Proof.
  intros R OK N H HQ.
  apply (trav_ok (fun _ => True) (fun c p => Ok (assign_var_leaf c p, c)) h_var_leaf (same_step _ _) var_leaf_ok
    e k (assign_variable_id (er_conf k) (er_expr e)) (er_conf k) m l Q (trav_pure assign_var_leaf _ _) I R OK N H HQ).
Qed.

(** ** Sorting *)
Lemma insert_key_perm {A} (key : A -> Z) x l : Permutation (insert_key key x l) (x :: l).
Proof.
  induction l as [|y t IH]; cbn [insert_key]; [reflexivity|].
  match goal with |- context [if ?b then _ else _] => destruct b end; [reflexivity|]. rewrite IH. apply perm_swap.
Qed.
Lemma sort_key_perm {A} (key : A -> Z) l : Permutation (sort_key key l) l.
Proof. induction l as [|x t IH]; cbn [sort_key fold_right]; [reflexivity|]. etransitivity; [apply insert_key_perm|]. now apply perm_skip. Qed.
Lemma sort_key_len {A} (key : A -> Z) l : List.length (sort_key key l) = List.length l.
Proof. apply Permutation_length, sort_key_perm. Qed.
Lemma sort_int_list_ok x m l (Q : hints -> ledger -> Prop) : holds m l -> incl (bl_ints x) l ->
  (forall y, hi_items y = sort_key (fun z => z) (hi_items x) -> bl_ints y = bl_ints x -> Q y m) -> wp (h_sort_int_list x) m Q.
Proof.
  intros H I HQ. unfold h_sort_int_list. lstep. eapply wp_use; [exact H|apply I; now left|]. lstep.
  apply walk_ok with l; [exact H|intros z Z; apply I; right; exact Z|]. lstep. apply HQ; [reflexivity|].
  unfold bl_ints. cbn [hi_at hi_arr hi_items]. f_equal. apply (bl_arr_len _ (hi_items x)). apply sort_key_len.
Qed.
Lemma sort_str_list_ok x m l (Q : hstrs -> ledger -> Prop) : holds m l -> incl (bl_strs x) l ->
  (forall y, er_strs y = sort_key sv_str (er_strs x) -> Permutation (bl_strs y) (bl_strs x) -> Q y m) -> wp (h_sort_str_list x) m Q.
Proof.
  intros H I HQ. unfold h_sort_str_list. lstep. eapply wp_use; [exact H|apply I; now left|]. lstep.
  apply walk_ok with l; [exact H|intros z Z; apply I; right; apply in_or_app; left; exact Z|]. lstep. apply HQ.
  - unfold er_strs. cbn [hl_items]. apply map_sort_key. reflexivity.
  - unfold bl_strs. cbn [hl_at hl_arr hl_items]. apply perm_skip. apply Permutation_app.
    + change (Permutation (bl_arr (sort_key hw_str (hl_items x)) (hl_arr x)) (bl_arr (hl_items x) (hl_arr x))).
      rewrite (bl_arr_len _ (hl_items x) (hl_arr x) (sort_key_len _ _)). reflexivity.
    + apply Permutation_flat_map, sort_key_perm.
Qed.
Lemma sort_leaf_ok : leaf_ok (fun _ => True) (fun c p => Ok (sort_leaf p, c)) h_sort_leaf.
Proof.
  intros k p p' c' m l Q E _ _ OK N H HQ. injection E as <- <-.
  assert (X : forall q, er_leaf q = sort_leaf (er_leaf p) -> full_leaf q -> Permutation (bl_leaf q) (bl_leaf p) -> Q (q, k) m).
  { intros q E F B. now apply HQ. }
  clear HQ. unfold h_sort_leaf.
  destruct p as [b|v|op v c|op v q|op x y|op v x|op v|v ty ns va n now id|op h v id s now|h a b c v w|op v s];
    try (lstep; lstep; lstep; apply X; [reflexivity|assumption|reflexivity]).
  - destruct x as [z|z|v], y as [w|w|w]; try (lstep; lstep; lstep; apply X; [reflexivity|assumption|reflexivity]); cbn [bl_leaf bl_left bl_right] in *.
    + lstep. lstep. apply (sort_int_list_ok w m _ _ H); [in_tac|]. intros y E B. lstep. lstep. apply X; [cbn [er_leaf er_left er_right sort_leaf]; now rewrite E|exact N|cbn [bl_leaf bl_left bl_right]; now rewrite B].
    + lstep. lstep. apply (sort_str_list_ok w m _ _ H); [in_tac|]. intros y E B. lstep. lstep. apply X; [cbn [er_leaf er_left er_right sort_leaf]; now rewrite E|exact N|cbn [bl_leaf bl_left bl_right]; now rewrite B].
  - destruct x as [w|w]; cbn [bl_leaf bl_lval] in *.
    + lstep. lstep. apply (sort_int_list_ok w m _ _ H); [in_tac|]. intros y E B. lstep. lstep. apply X; [cbn [er_leaf er_lval sort_leaf]; now rewrite E|exact N|cbn [bl_leaf bl_lval]; now rewrite B].
    + lstep. lstep. apply (sort_str_list_ok w m _ _ H); [in_tac|]. intros y E B. lstep. lstep. apply X; [cbn [er_leaf er_lval sort_leaf]; now rewrite E|exact N|cbn [bl_leaf bl_lval]; now rewrite B].
Qed.
Lemma sort_lists_ok k e m l (Q : hexpr * kconf -> ledger -> Prop) : roomy (er_conf k) = true -> conf_ok k -> full e -> holds m (bl_conf k ++ blocks e ++ l) ->
  (forall k' x m', er_expr x = sort_lists (er_expr e) -> er_conf k' = er_conf k -> conf_ok k' -> full x -> Permutation (blocks x) (blocks e) ->
    holds m' (bl_conf k' ++ blocks e ++ l) -> Q (x, k') m') -> wp (h_sort_lists k e) m Q.
Proof.
  intros R OK N H HQ.
  apply (trav_ok (fun _ => True) (fun c p => Ok (sort_leaf p, c)) h_sort_leaf (same_step _ (fun _ => sort_leaf)) sort_leaf_ok
    e k (sort_lists (er_expr e)) (er_conf k) m l Q (trav_pure (fun _ => sort_leaf) _ _) I R OK N H HQ).
Qed.

(** ** Numbers *)
Lemma fix_leaf_ok : leaf_ok (fun _ => True) fix_leaf h_fix_leaf.
Proof.
  intros k p p' c' m l Q E _ _ OK N H HQ.
  assert (X : forall q, er_leaf q = p' -> c' = er_conf k -> full_leaf q -> bl_leaf q = bl_leaf p -> Q (q, k) m).
  { intros q E1 E2 F B. apply HQ; try assumption; [now symmetry|now rewrite B]. }
  clear HQ.
  destruct p as [b|v|op v c|op v q|op x y|op v x|op v|v ty ns va n now id|op h v id s now|h a b c v w|op v s];
    cbn [fix_leaf h_fix_leaf er_leaf] in *; try (injection E as <- <-; lstep; apply X; (reflexivity || assumption)).
  - change (av_var (er_var v)) with (hv_var v) in E. apply bind_ok in E. destruct E as (d & D & E).
    lstep. apply (domain_ok k (hv_var v) d m _ _ D H). intros d' <-. change (d_bound (er_dom d')) with (kd_bound d') in E.
    destruct c as [z|z]; injection E as <- <-; lstep; apply X; try (reflexivity || assumption); now destruct (is_float_bound (kd_bound d')).
  - change (av_var (er_var v)) with (hv_var v) in E. apply bind_ok in E. destruct E as (d & D & E).
    lstep. apply (domain_ok k (hv_var v) d m _ _ D H). intros d' <-. change (d_bound (er_dom d')) with (kd_bound d') in E.
    destruct q as [z|z|z|z]; cbn [er_qval] in E; injection E as <- <-; lstep; apply X; try (reflexivity || assumption); now destruct (is_float_bound (kd_bound d')).
Qed.
Lemma fix_step St : leaf_step St fix_leaf.
Proof.
  intros c p p' c' E P. assert (X : c' = c); [|subst c'; now split].
  destruct p as [|v|op v c0|op v c0|op x y|op v x|op v|v ty ns va n now id|op h v id s now|h a b c0 v w|op v s]; cbn [fix_leaf] in E;
    try (now injection E as _ <-); apply bind_ok in E; destruct E as (d & _ & E); destruct c0; now injection E as _ <-.
Qed.
Lemma fix_float_ok k e e' c' m l (Q : hexpr * kconf -> ledger -> Prop) : fix_float (er_conf k) (er_expr e) = Ok (e', c') ->
  roomy c' = true -> conf_ok k -> full e -> holds m (bl_conf k ++ blocks e ++ l) ->
  (forall k' x m', er_expr x = e' -> er_conf k' = c' -> conf_ok k' -> full x -> Permutation (blocks x) (blocks e) ->
    holds m' (bl_conf k' ++ blocks e ++ l) -> Q (x, k') m') -> wp (h_fix_float k e) m Q.
Proof. intros E R OK N H HQ. exact (trav_ok (fun _ => True) fix_leaf h_fix_leaf (fix_step _) fix_leaf_ok e k e' c' m l Q E I R OK N H HQ). Qed.

Lemma get_ienum_ints c v z al i c' : get_id_for_ienum c v z al = Ok (i, c') -> c' = c \/ exists j, c' = set_ints c j.
Proof.
  unfold get_id_for_ienum. destruct (find_intmap _ _) as [x|].
  - destruct (int_index _ _); [intros [= _ <-]; now left|]. intros E. apply bind_ok in E. destruct E as (d & _ & E).
    apply bind_ok in E. destruct E as (b & _ & E). destruct b; injection E as _ <-; [now left|right; eauto].
  - intros E. apply bind_ok in E. destruct E as (d & _ & E). apply bind_ok in E. destruct E as (b & _ & E).
    destruct b; injection E as _ <-; right; cbn [set_ints c_domains c_cap c_minpart c_maxsplit c_strs]; eexists; reflexivity.
Qed.
Lemma ie_step al (St : config -> Prop) : (forall c i, St c -> St (set_ints c i)) -> leaf_step St (assign_ie_leaf al).
Proof.
  intros S. apply step_same; [|exact S]. intros c p p' c' E.
  destruct p as [|v|op v c0|op v q|op x y|op v x|op v|v ty ns va n now id|op h v id s now|h a b c0 v w|op v s];
    cbn [assign_ie_leaf] in E; try (injection E as _ <-; now left).
  destruct q; try (injection E as _ <-; now left). apply bind_ok in E. destruct E as (d & _ & E).
  destruct (d_bound d) as [| | |t lo hi| |]; try (injection E as _ <-; now left). destruct t; try (injection E as _ <-; now left).
  apply bind_ok in E. destruct E as ((i, c1) & G & E). injection E as _ <-. exact (get_ienum_ints _ _ _ _ _ _ G).
Qed.
Lemma ie_leaf_ok al : leaf_ok (fun _ => True) (assign_ie_leaf al) (h_ie_leaf al).
Proof.
  intros k p p' c' m l Q E _ _ OK N H HQ.
  assert (X : er_leaf p = p' -> c' = er_conf k -> Q (p, k) m).
  { intros E1 E2. apply HQ; try assumption; [now symmetry|reflexivity]. }
  destruct p as [b|v|op v c|op v q|op x y|op v x|op v|v ty ns va n now id|op h v id s now|h a b c v w|op v s];
    cbn [assign_ie_leaf h_ie_leaf er_leaf] in *; try (injection E as <- <-; lstep; apply X; (reflexivity || assumption)).
  destruct q as [z|z|z|z]; cbn [er_qval] in *; try (injection E as <- <-; lstep; apply X; (reflexivity || assumption)).
  change (av_var (er_var v)) with (hv_var v) in E. apply bind_ok in E. destruct E as (d & D & E).
  lstep. apply (domain_ok k (hv_var v) d m _ _ D H). intros d' <-. change (d_bound (er_dom d')) with (kd_bound d') in E.
  destruct (kd_bound d') as [| | |t lo hi| |]; try (injection E as <- <-; lstep; apply X; (reflexivity || assumption)).
  destruct t; try (injection E as <- <-; lstep; apply X; (reflexivity || assumption)).
  apply bind_ok in E. destruct E as ((i, c1) & G & E). injection E as <- <-. cbn [bl_leaf bl_qval] in *.
  lstep. apply (get_ienum_ok k v z al i c1 m ((bl_var v ++ []) ++ l) _ G OK H); [unfold bl_var; rewrite opt_at_some; [now left|exact (proj1 N)]|].
  intros k' m' E' K' H'. lstep. apply HQ; try assumption; reflexivity.
Qed.
Lemma assign_ienum_ok al k e e' c' m l (Q : hexpr * kconf -> ledger -> Prop) : assign_ienum_id (er_conf k) (er_expr e) al = Ok (e', c') ->
  roomy c' = true -> conf_ok k -> full e -> holds m (bl_conf k ++ blocks e ++ l) ->
  (forall k' x m', er_expr x = e' -> er_conf k' = c' -> conf_ok k' -> full x -> Permutation (blocks x) (blocks e) ->
    holds m' (bl_conf k' ++ blocks e ++ l) -> Q (x, k') m') -> wp (h_assign_ienum_id al k e) m Q.
Proof.
  intros E R OK N H HQ.
  exact (trav_ok (fun _ => True) _ _ (ie_step al (fun _ => True) (fun _ _ _ => I)) (ie_leaf_ok al) e k e' c' m l Q E I R OK N H HQ).
Qed.
Lemma ienum_back al c e e' c' : assign_ienum_id c e al = Ok (e', c') -> roomy c' = true -> roomy c = true.
Proof. intros E. exact (proj2 (trav_step (fun _ => True) _ (ie_step al (fun _ => True) (fun _ _ _ => I)) _ _ _ _ E I)). Qed.
Lemma fix_back c e e' c' : fix_float c e = Ok (e', c') -> roomy c' = true -> roomy c = true.
Proof. intros E. exact (proj2 (trav_step (fun _ => True) _ (fix_step _) _ _ _ _ E I)). Qed.

(** ** Strings *)
Lemma strs_step al v : forall s c r c', assign_strs c v s al = Ok (r, c') -> stuck al c -> stuck al c' /\ (roomy c' = true -> roomy c = true).
Proof.
  induction s as [|x t IH]; intros c r c' E P; cbn [assign_strs] in E; [injection E as _ <-; now split|].
  apply bind_ok in E. destruct E as ((i, c1) & A & E). apply bind_ok in E. destruct E as ((t', c2) & B & E). injection E as _ <-.
  destruct (get_string_step _ _ _ _ _ _ A P) as (P1 & R1). destruct (IH _ _ _ B P1) as (P2 & R2). split; [exact P2|auto].
Qed.
Lemma str_step al : leaf_step (stuck al) (assign_str_leaf al).
Proof.
  intros c p p' c' E P.
  destruct p as [|v|op v c0|op v q|op x y|op v x|op v|v ty ns va n now id|op h v id s now|h a b c0 v w|op v s];
    cbn [assign_str_leaf] in E; try (injection E as _ <-; now split).
  - destruct q; try (injection E as _ <-; now split). apply bind_ok in E. destruct E as ((i, c1) & A & E). injection E as _ <-. exact (get_string_step _ _ _ _ _ _ A P).
  - destruct x, y; try discriminate; try (injection E as _ <-; now split); apply bind_ok in E; destruct E as ((i, c1) & A & E); injection E as _ <-;
      [exact (get_string_step _ _ _ _ _ _ A P)|exact (strs_step _ _ _ _ _ _ A P)].
  - destruct x; try (injection E as _ <-; now split). apply bind_ok in E. destruct E as ((i, c1) & A & E). injection E as _ <-. exact (strs_step _ _ _ _ _ _ A P).
  - apply bind_ok in E. destruct E as ((i, c1) & A & E). injection E as _ <-. exact (get_string_step _ _ _ _ _ _ A P).
Qed.
Lemma str_ok al k v s i c' m l (Q : hsval * kconf -> ledger -> Prop) :
  get_id_for_string (er_conf k) (er_var v) (hs_text (hw_string s)) al = Ok (i, c') -> roomy c' = true -> conf_ok k ->
  holds m (bl_conf k ++ l) -> incl (bl_sval s) l -> has_name v -> incl (bl_var v) l ->
  (forall k' m', er_conf k' = c' -> conf_ok k' -> holds m' (bl_conf k' ++ l) -> Q (mkHSV (hw_string s) i, k') m') -> wp (h_str al k v s) m Q.
Proof.
  intros E R OK H I N J HQ. unfold h_str. lstep.
  apply (get_string_ok k v (hw_string s) al i c' m l _ E R OK H); [apply I; now left|apply J; unfold bl_var; rewrite (opt_at_some _ N); now left|].
  intros k' m' E' K' H'. lstep. now apply HQ.
Qed.
Lemma strs_ok' al v arr : forall s k r c' m l (Q : list hsval * kconf -> ledger -> Prop),
  assign_strs (er_conf k) (er_var v) (map er_sval s) al = Ok (r, c') -> stuck al (er_conf k) -> roomy c' = true -> conf_ok k ->
  holds m (bl_conf k ++ l) -> incl (flat_map bl_sval s) l -> (s <> [] -> In arr l) -> has_name v -> incl (bl_var v) l ->
  (forall k' ys m', map er_sval ys = r -> flat_map bl_sval ys = flat_map bl_sval s -> List.length ys = List.length s ->
    er_conf k' = c' -> conf_ok k' -> holds m' (bl_conf k' ++ l) -> Q (ys, k') m') -> wp (h_strs al k v arr s) m Q.
Proof.
  induction s as [|x t IH]; intros k r c' m l Q E P R OK H I A N J HQ; cbn [map assign_strs h_strs er_sval sv_string] in *.
  - injection E as <- <-. lstep. now apply HQ.
  - apply bind_ok in E. destruct E as ((i, c1) & E1 & E). apply bind_ok in E. destruct E as ((t', c2) & E2 & E). injection E as <- <-.
    destruct (get_string_step _ _ _ _ _ _ E1 P) as (P1 & R1). destruct (strs_step _ _ _ _ _ _ E2 P1) as (P2 & R2).
    lstep. eapply wp_use; [exact H|apply in_or_app; right; apply A; discriminate|]. lstep.
    apply (str_ok al k v x i c1 m l _ E1 (R2 R) OK H); [intros z Z; apply I; now apply in_or_app; left|exact N|exact J|].
    intros k1 m1 <- K1 H1. lstep.
    apply (IH k1 t' c2 m1 l _ E2 P1 R K1 H1); [intros z Z; apply I; now apply in_or_app; right|intros _; apply A; discriminate|exact N|exact J|].
    intros k2 ys m2 F1 F2 F3 F4 K2 H2. lstep. apply HQ; try assumption; cbn [map flat_map List.length]; [now rewrite F1|now rewrite F2|now rewrite F3].
Qed.
Lemma str_list_ok al k v x r c' m l (Q : hstrs * kconf -> ledger -> Prop) :
  assign_strs (er_conf k) (er_var v) (er_strs x) al = Ok (r, c') -> stuck al (er_conf k) -> roomy c' = true -> conf_ok k ->
  holds m (bl_conf k ++ l) -> incl (bl_strs x) l -> has_name v -> incl (bl_var v) l ->
  (forall k' y m', er_strs y = r -> bl_strs y = bl_strs x -> er_conf k' = c' -> conf_ok k' -> holds m' (bl_conf k' ++ l) -> Q (y, k') m') ->
  wp (h_str_list al k v x) m Q.
Proof.
  intros E P R OK H I N J HQ. unfold h_str_list. lstep. eapply wp_use; [exact H|apply in_or_app; right; apply I; now left|]. lstep.
  apply (strs_ok' al v (hl_arr x) (hl_items x) k r c' m l _ E P R OK H);
    [intros z Z; apply I; right; now apply in_or_app; right| |exact N|exact J|].
  { intros Y. apply I. right. apply in_or_app. left. exact (bl_arr_in (hl_items x) (hl_arr x) Y). }
  intros k' ys m' F1 F2 F3 F4 K' H'. lstep. apply HQ; try assumption.
  unfold bl_strs. cbn [hl_at hl_arr hl_items]. rewrite F2. do 2 f_equal. exact (bl_arr_len ys (hl_items x) (hl_arr x) F3).
Qed.
Lemma str_leaf_ok al : leaf_ok (stuck al) (assign_str_leaf al) (h_str_leaf al).
Proof.
  intros k p p' c' m l Q E P R OK N H HQ.
  assert (X : er_leaf p = p' -> c' = er_conf k -> Q (p, k) m).
  { intros E1 E2. apply HQ; try assumption; [now symmetry|reflexivity]. }
  destruct p as [b|v|op v c|op v q|op x y|op v x|op v|v ty ns va n now id|op h v id s now|h a b c v w|op v s];
    cbn [assign_str_leaf h_str_leaf er_leaf] in *; try (injection E as <- <-; lstep; apply X; (reflexivity || assumption)).
  - destruct q as [z|z|z|z]; cbn [er_qval] in *; try (injection E as <- <-; lstep; apply X; (reflexivity || assumption)).
    apply bind_ok in E. destruct E as ((i, c1) & G & E). injection E as <- <-. cbn [bl_leaf bl_qval] in *.
    lstep. apply (str_ok al k v z i c1 m _ _ G R OK H); [in_tac|exact (proj1 N)|in_tac|]. intros k' m' E' K' H'. lstep. apply HQ; try assumption; reflexivity.
  - destruct N as ((N1 & N2) & N3). destruct x as [z|z|v], y as [w|w|w]; cbn [er_left er_right] in *; try discriminate;
      try (injection E as <- <-; lstep; apply X; (reflexivity || assumption));
      apply bind_ok in E; destruct E as ((i, c1) & G & E); injection E as <- <-; cbn [bl_leaf bl_left bl_right] in *; lstep.
    + apply (str_ok al k w z i c1 m _ _ G R OK H); [in_tac|exact N2|in_tac|]. intros k' m' E' K' H'. lstep. apply HQ; try assumption; try reflexivity. now repeat split.
    + apply (str_list_ok al k v w i c1 m _ _ G P R OK H); [in_tac|exact N1|in_tac|]. intros k' y m' E1 E2 E' K' H'. lstep.
      apply HQ; try assumption; cbn [er_leaf er_left er_right bl_leaf bl_left bl_right]; [now rewrite E1|now repeat split|now rewrite E2].
  - destruct x as [w|w]; cbn [er_lval] in *; try (injection E as <- <-; lstep; apply X; (reflexivity || assumption)).
    apply bind_ok in E; destruct E as ((i, c1) & G & E); injection E as <- <-; cbn [bl_leaf bl_lval] in *; lstep.
    apply (str_list_ok al k v w i c1 m _ _ G P R OK H); [in_tac|exact (proj1 N)|in_tac|]. intros k' y m' E1 E2 E' K' H'. lstep.
    apply HQ; try assumption; cbn [er_leaf er_lval bl_leaf bl_lval]; [now rewrite E1|now rewrite E2].
  - apply bind_ok in E. destruct E as ((i, c1) & G & E). injection E as <- <-. cbn [bl_leaf] in *.
    lstep. apply (str_ok al k v ns i c1 m _ _ G R OK H); [in_tac|exact (proj1 N)|in_tac|]. intros k' m' E' K' H'. lstep. apply HQ; try assumption; reflexivity.
Qed.
Lemma assign_str_ok al k e e' c' m l (Q : hexpr * kconf -> ledger -> Prop) : assign_str_id (er_conf k) (er_expr e) al = Ok (e', c') ->
  stuck al (er_conf k) -> roomy c' = true -> conf_ok k -> full e -> holds m (bl_conf k ++ blocks e ++ l) ->
  (forall k' x m', er_expr x = e' -> er_conf k' = c' -> conf_ok k' -> full x -> Permutation (blocks x) (blocks e) ->
    holds m' (bl_conf k' ++ blocks e ++ l) -> Q (x, k') m') -> wp (h_assign_str_id al k e) m Q.
Proof. intros E P R OK N H HQ. exact (trav_ok _ _ _ (str_step al) (str_leaf_ok al) e k e' c' m l Q E P R OK N H HQ). Qed.

(** ** Constants *)
Lemma const_leaf_ok cs p : option_map er_leaf (h_const_leaf cs p) = assign_const_leaf cs (er_leaf p) /\
  (full_leaf p -> match h_const_leaf cs p with Some q => full_leaf q /\ bl_leaf q = bl_leaf p | None => True end).
Proof.
  destruct p as [b|v|op v c|op v q|op x y|op v x|op v|v ty ns va n now id|op h v id s now|h a b c v w|op v s];
    try (split; [reflexivity|intros N; now split]). cbn [h_const_leaf er_leaf assign_const_leaf].
  destruct (constant_name ty) as [nm|]; [|now split]. destruct (get_integer_constant nm cs) as [z|]; [|now split]. split; [reflexivity|intros N; now split].
Qed.
Lemma constants_ok cs e : forall m l (Q : option hexpr -> ledger -> Prop), full e -> holds m l -> incl (blocks e) l ->
  (forall o, option_map er_expr o = assign_constants cs (er_expr e) -> match o with Some x => full x /\ blocks x = blocks e | None => True end -> Q o m) ->
  wp (h_constants cs e) m Q.
Proof.
  induction e as [a gg p|a gg x IHx y IHy|a gg x IHx y IHy|a gg x IHx]; intros m l Q N H I HQ;
    cbn [h_constants h_at er_expr assign_constants full blocks] in *; (lstep; eapply wp_use; [exact H|apply I; now left|]).
  - lstep. destruct (const_leaf_ok cs p) as (E & F). specialize (F N). destruct (h_const_leaf cs p) as [q|]; cbn [option_map] in E; rewrite <- E in HQ; apply HQ;
      try reflexivity; try exact Logic.I. split; [exact (proj1 F)|cbn [blocks]; now rewrite (proj2 F)].
  - destruct N as (Nx & Ny).
    assert (Ix : incl (blocks x) l) by (intros z Z; apply I; right; now apply in_or_app; left).
    assert (Iy : incl (blocks y) l) by (intros z Z; apply I; right; now apply in_or_app; right).
    lstep. apply (IHx m l _ Nx H Ix). intros u U1 U2. lstep. apply (IHy m l _ Ny H Iy). intros v V1 V2. lstep. rewrite <- U1, <- V1 in HQ.
    destruct u as [u|], v as [v|]; apply HQ; try reflexivity; try exact Logic.I. cbn [full blocks]. destruct U2 as (U2 & U3), V2 as (V2 & V3). rewrite U3, V3. now repeat split.
  - destruct N as (Nx & Ny).
    assert (Ix : incl (blocks x) l) by (intros z Z; apply I; right; now apply in_or_app; left).
    assert (Iy : incl (blocks y) l) by (intros z Z; apply I; right; now apply in_or_app; right).
    lstep. apply (IHx m l _ Nx H Ix). intros u U1 U2. lstep. apply (IHy m l _ Ny H Iy). intros v V1 V2. lstep. rewrite <- U1, <- V1 in HQ.
    destruct u as [u|], v as [v|]; apply HQ; try reflexivity; try exact Logic.I. cbn [full blocks]. destruct U2 as (U2 & U3), V2 as (V2 & V3). rewrite U3, V3. now repeat split.
  - lstep. apply (IHx m l _ N H); [intros z Z; apply I; now right|]. intros u U1 U2. lstep. rewrite <- U1 in HQ.
    destruct u as [u|]; apply HQ; try reflexivity; try exact Logic.I. cbn [full blocks]. destruct U2 as (U2 & U3). rewrite U3. now split.
Qed.
