(** The hash table in memory does what the table of HashMap.v does. *)
From Coq Require Import ZArith NArith String Bool List Lia Permutation.
From Verif Require Import Base Config HashMap HashProofs Ledger HeapExpr HeapSpec HeapEventSpec HeapConf HeapConfSpec PermTac LedgerProofs.
From Verif Require Import HeapProofs HeapEventProofs HeapFill.
Import ListNotations.
Local Open Scope Z_scope.
Local Open Scope list_scope.

Notation er_bs := (map (map kn_node)).

Lemma k_find_ok b h key : forall m l (Q : option Z -> ledger -> Prop), holds m l -> incl (map kn_at b) l ->
  Q (find_node (map kn_node b) h key) m -> wp (k_find b h key) m Q.
Proof.
  induction b as [|n b IH]; intros m l Q H I HQ; cbn [k_find map find_node] in *; [now lstep|].
  lstep. apply wp_use with l; [exact H|apply I; now left|].
  destruct ((n_hash (kn_node n) =? h) && String.eqb (n_key (kn_node n)) key); [now lstep|].
  apply IH with l; [exact H|intros x Hx; apply I; now right|exact HQ].
Qed.
Lemma in_bucket bs i b : nth_error bs i = Some b -> incl (map kn_at b) (map kn_at (concat bs)).
Proof.
  revert i. induction bs as [|b0 bs IH]; intros [|i] E; cbn in *; try discriminate.
  - injection E as ->. rewrite map_app. intros x Hx. apply in_or_app. now left.
  - rewrite map_app. intros x Hx. apply in_or_app. right. now apply (IH i E).
Qed.
Lemma k_get_ok t s o m l (Q : option Z -> ledger -> Prop) : map_get (er_table t) (hs_text s) = Ok o ->
  holds m (bl_table t ++ l) -> In (hs_at s) l -> Q o m -> wp (k_get t s) m Q.
Proof.
  intros E H I HQ. unfold k_get. lstep. apply wp_use with (bl_table t ++ l); [exact H|apply in_or_app; now right|].
  unfold map_get, nbuckets, er_table in E. cbn [m_buckets] in E. rewrite map_length in E.
  destruct (Z.of_nat (List.length (kt_buckets t)) >? 0) eqn:G; [|injection E as <-; now lstep].
  rewrite nth_error_map in E. cbv zeta in E |- *.
  destruct (nth_error (kt_buckets t) _) as [b|] eqn:Nb; [|discriminate]. cbn [option_map] in E. injection E as <-.
  lstep. apply wp_use with (bl_table t ++ l); [exact H| |].
  { unfold bl_table. apply in_or_app. left. apply in_or_app. left. apply bl_arr_in. intros Z0. rewrite Z0 in G. discriminate. }
  apply k_find_ok with (bl_table t ++ l); [exact H| |exact HQ].
  unfold bl_table. intros x Hx. apply in_or_app. left. apply in_or_app. right. now apply (in_bucket _ _ _ Nb).
Qed.

Lemma k_push_er bs : forall i n, push_bucket (er_bs bs) i (kn_node n) =
  match k_push bs i n with Ok b => Ok (er_bs b) | Abort => Abort | UB => UB | Fuel => Fuel end.
Proof.
  induction bs as [|b bs IH]; intros i n; cbn [map push_bucket k_push]; [reflexivity|].
  destruct i as [|i]; [reflexivity|]. rewrite IH. now destruct (k_push bs i n).
Qed.
Lemma k_push_perm bs : forall i n bs', k_push bs i n = Ok bs' -> Permutation (concat bs') (n :: concat bs) /\ List.length bs' = List.length bs.
Proof.
  induction bs as [|b bs IH]; intros i n bs' E; cbn [k_push] in E; [discriminate|].
  destruct i as [|i]; [injection E as <-; split; reflexivity|].
  destruct (k_push bs i n) as [t'| | |] eqn:P; try discriminate. injection E as <-. destruct (IH _ _ _ P) as (Pm & Ln).
  split; [|cbn; congruence]. cbn [concat]. rewrite Pm. perm.
Qed.
Lemma k_addnode_er bs n : addnode (er_bs bs) (kn_node n) =
  match k_addnode bs n with Ok b => Ok (er_bs b) | Abort => Abort | UB => UB | Fuel => Fuel end.
Proof. unfold addnode, k_addnode. rewrite map_length. apply k_push_er. Qed.
Lemma k_addnode_perm bs n bs' : k_addnode bs n = Ok bs' -> Permutation (concat bs') (n :: concat bs) /\ List.length bs' = List.length bs.
Proof. apply k_push_perm. Qed.
Lemma k_add_all_er l : forall bs, add_all (er_bs bs) (map kn_node l) =
  match k_add_all bs l with Ok b => Ok (er_bs b) | Abort => Abort | UB => UB | Fuel => Fuel end.
Proof.
  induction l as [|n l IH]; intros bs; cbn [map add_all k_add_all]; [reflexivity|].
  rewrite k_addnode_er. destruct (k_addnode bs n); cbn [bind]; try reflexivity. apply IH.
Qed.
Lemma k_add_all_perm l : forall bs bs', k_add_all bs l = Ok bs' -> Permutation (concat bs') (l ++ concat bs) /\ List.length bs' = List.length bs.
Proof.
  induction l as [|n l IH]; intros bs bs' E; cbn [k_add_all] in E; [injection E as <-; split; reflexivity|].
  destruct (k_addnode bs n) as [b| | |] eqn:A; try discriminate. cbn [bind] in E.
  destruct (k_addnode_perm _ _ _ A) as (P1 & L1). destruct (IH _ _ E) as (P2 & L2). split; [|congruence].
  rewrite P2, P1. perm.
Qed.
Lemma push_all_rev l : forall acc, push_all l acc = rev_append l acc.
Proof. induction l as [|n l IH]; intros acc; [reflexivity|]. apply IH. Qed.
Lemma map_rev_append {A B} (f : A -> B) l : forall acc, map f (rev_append l acc) = rev_append (map f l) (map f acc).
Proof. induction l as [|n l IH]; intros acc; [reflexivity|]. cbn [rev_append map]. apply IH. Qed.
Lemma k_chain_er bs : chain (er_bs bs) = map kn_node (k_chain bs).
Proof. induction bs as [|b bs IH]; [reflexivity|]. cbn [map chain k_chain]. now rewrite IH, push_all_rev, map_rev_append. Qed.
Lemma k_chain_perm bs : Permutation (k_chain bs) (concat bs).
Proof.
  induction bs as [|b bs IH]; [reflexivity|]. cbn [k_chain concat]. rewrite rev_append_rev, <- IH.
  apply Permutation_app_tail. apply Permutation_sym, Permutation_rev.
Qed.
Lemma er_repeat n : repeat (@nil mnode) n = er_bs (repeat [] n).
Proof. induction n; cbn; congruence. Qed.
Lemma concat_nils {A} n : concat (repeat (@nil A) n) = [].
Proof. now induction n. Qed.

Lemma each_use_nodes l0 : forall m l (Q : unit -> ledger -> Prop), holds m l -> incl (map kn_at l0) l -> Q tt m ->
  wp (each (fun x => use (kn_at x)) l0) m Q.
Proof.
  induction l0 as [|a t IH]; intros m l Q H I HQ; cbn [each map] in *; [now lstep|].
  lstep. apply wp_use with l; [exact H|apply I; now left|]. apply IH with l; [exact H|intros x Hx; apply I; now right|exact HQ].
Qed.
Lemma k_resize_ok t n M m l (Q : ktable -> ledger -> Prop) : resize (er_table t) n true = Ok (true, M) -> 0 < n ->
  holds m (bl_table t ++ l) ->
  (forall t' m', er_table t' = M -> kt_buckets t' <> [] -> holds m' (bl_table t' ++ l) -> Q t' m') ->
  wp (k_resize t n) m Q.
Proof.
  intros E Pn H HQ. unfold resize, er_table in E. cbn [negb andb m_buckets m_nnodes] in E.
  rewrite k_chain_er, er_repeat, k_add_all_er in E.
  destruct (k_add_all (repeat [] (Z.to_nat n)) (k_chain (kt_buckets t))) as [bs| | |] eqn:A; try discriminate. cbn [bind] in E. injection E as <-.
  destruct (k_add_all_perm _ _ _ A) as (Pm & Ln). rewrite concat_nils, app_nil_r, k_chain_perm in Pm. rewrite repeat_length in Ln.
  assert (NE : bs <> []) by (intros ->; cbn in Ln; lia).
  unfold k_resize. lstep.
  assert (U : forall Q' : unit -> ledger -> Prop, Q' tt m -> wp (match kt_buckets t with [] => ret tt | _ => use (kt_arr t) end) m Q').
  { intros Q' HQ'. destruct (kt_buckets t) as [|b bs0] eqn:B; [now lstep|].
    apply wp_use with (bl_table t ++ l); [exact H| |exact HQ']. unfold bl_table. rewrite B. apply in_or_app. left. now left. }
  apply U. lstep. apply each_use_nodes with (bl_table t ++ l); [exact H| |].
  { intros x Hx. apply (Permutation_in x (Permutation_map kn_at (k_chain_perm (kt_buckets t)))) in Hx.
    unfold bl_table. apply in_or_app. left. apply in_or_app. now right. }
  assert (F : forall (Q' : Z -> ledger -> Prop),
    (forall b m', b <> 0 -> holds m' (b :: map kn_at (concat (kt_buckets t)) ++ l) -> Q' b m') ->
    wp (if kt_arr t =? 0 then malloc else realloc (kt_arr t)) m Q').
  { intros Q' HQ'. unfold bl_table in H. destruct (Z.eqb_spec (kt_arr t) 0) as [Z0|Z0].
    - apply wp_malloc with (map kn_at (concat (kt_buckets t)) ++ l); [|exact HQ'].
      destruct (kt_buckets t) as [|b bs0]; [rewrite Z0 in H; exact H|].
      exfalso. assert (I : In (kt_arr t) ((bl_arr (b :: bs0) (kt_arr t) ++ map kn_at (concat (b :: bs0))) ++ l)) by (now left).
      pose proof (holds_pos _ _ _ H I). lia.
    - apply wp_realloc with (kt_arr t :: map kn_at (concat (kt_buckets t)) ++ l) (map kn_at (concat (kt_buckets t)) ++ l); [|reflexivity|exact HQ'].
      eapply holds_perm; [exact H|]. destruct (kt_buckets t); cbn [bl_arr]; [rewrite opt_at_some by exact Z0|]; perm. }
  lstep. apply F. intros b m' Nb H'. lstep. eapply wp_fail; [exact A|]. lstep. apply HQ; [reflexivity|exact NE|].
  unfold bl_table. cbn [kt_buckets kt_arr]. eapply holds_perm; [exact H'|].
  rewrite (Permutation_map kn_at Pm). destruct bs; [easy|]. cbn [bl_arr]. perm.
Qed.
Lemma k_grow_ok t M m l (Q : ktable -> ledger -> Prop) : grow (er_table t) true = Ok (true, M) ->
  holds m (bl_table t ++ l) -> 0 <= kt_nnodes t ->
  (forall t' m', er_table t' = M -> kt_buckets t' <> [] -> holds m' (bl_table t' ++ l) -> Q t' m') ->
  wp (k_grow t) m Q.
Proof.
  intros E H P HQ. unfold grow, nbuckets in E. cbn [er_table m_buckets m_nnodes] in E. rewrite map_length in E. unfold k_grow.
  destruct (kt_nnodes t >=? Z.of_nat (List.length (kt_buckets t))) eqn:G.
  - cbv zeta in E |- *. set (n := if Z.of_nat (List.length (kt_buckets t)) >? 0 then _ else 1) in *.
    destruct (n >? 2 ^ 30); [discriminate|]. apply k_resize_ok with M l; [exact E| |exact H|exact HQ].
    subst n. destruct (Z.of_nat (List.length (kt_buckets t)) >? 0) eqn:Z0; [|lia]. rewrite Z.shiftl_mul_pow2 by lia. lia.
  - injection E as E. lstep. apply HQ; [exact E| |exact H]. intros Z0. rewrite Z0 in G. cbn in G. lia.
Qed.

Lemma k_set_ok t s v M m l (Q : ktable -> ledger -> Prop) :
  map_get (er_table t) (hs_text s) = Ok None -> map_set (er_table t) (hs_text s) v true true = Ok (true, M) ->
  holds m (bl_table t ++ l) -> In (hs_at s) l -> 0 <= kt_nnodes t ->
  (forall t' m', er_table t' = M -> holds m' (bl_table t' ++ l) -> Q t' m') ->
  wp (k_set t s v) m Q.
Proof.
  intros G E H I P HQ. unfold map_set in E. rewrite G in E. cbn [bind negb] in E.
  destruct (grow (er_table t) true) as [(ok, M1)| | |] eqn:GE; try discriminate. cbn [bind] in E.
  destruct ok; cbn [negb] in E; [|discriminate].
  unfold k_set. lstep. apply (k_get_ok t s None m l); [exact G|exact H|exact I|].
  lstep. apply wp_use with (bl_table t ++ l); [exact H|apply in_or_app; now right|].
  lstep. lstep. lstep. eapply k_grow_ok with (l := a :: l); [exact GE|eapply holds_perm; [exact H0|perm]|exact P|].
  intros t' m' E1 NE H1. subst M1. cbn [er_table m_buckets m_nnodes] in E.
  lstep. apply wp_use with (bl_table t' ++ a :: l); [exact H1| |].
  { unfold bl_table. apply in_or_app. left. apply in_or_app. left. now apply bl_arr_in. }
  change (mkN (map_hash (hs_text s)) (hs_text s) v) with (kn_node (mkKN a (mkN (map_hash (hs_text s)) (hs_text s) v))) in E.
  rewrite k_addnode_er in E. destruct (k_addnode (kt_buckets t') _) as [bs| | |] eqn:A; try discriminate. cbn [bind] in E. injection E as <-.
  lstep. lstep. lstep. apply HQ; [reflexivity|].
  destruct (k_addnode_perm _ _ _ A) as (Pm & Ln). unfold bl_table in *. cbn [kt_buckets kt_arr].
  rewrite (bl_arr_len bs (kt_buckets t')) by exact Ln. eapply holds_perm; [exact H1|].
  rewrite (Permutation_map kn_at Pm). cbn [map kn_at]. perm.
Qed.

Lemma free_nodes_ok b : forall m l l' (Q : unit -> ledger -> Prop), holds m l -> Permutation l (map kn_at b ++ l') ->
  (forall m', holds m' l' -> Q tt m') -> wp (each (fun x => then_ (use (kn_at x)) (fun _ => free (kn_at x))) b) m Q.
Proof.
  induction b as [|x b IH]; intros m l l' Q H P HQ; cbn [each map] in *.
  - lstep. apply HQ. now apply holds_perm with l.
  - apply (holds_perm _ _ _ H) in P. clear H. cbn [app] in P. lstep. lstep. lstep. lstep.
    now apply IH with (map kn_at b ++ l') l'.
Qed.
Lemma k_deinit_ok t m l l' (Q : unit -> ledger -> Prop) : holds m l -> Permutation l (bl_table t ++ l') ->
  (forall m', holds m' l' -> Q tt m') -> wp (k_deinit t) m Q.
Proof.
  intros H P HQ. apply (holds_perm _ _ _ H) in P. clear H. unfold k_deinit. lstep.
  assert (U : forall Q' : unit -> ledger -> Prop, Q' tt m -> wp (match kt_buckets t with [] => ret tt | _ => use (kt_arr t) end) m Q').
  { intros Q' HQ'. destruct (kt_buckets t) as [|b bs0] eqn:B; [now lstep|].
    apply wp_use with (bl_table t ++ l'); [exact P| |exact HQ']. unfold bl_table. rewrite B. apply in_or_app. left. now left. }
  apply U. lstep.
  apply (each_free_ok _ (map kn_at) free_nodes_ok) with (l := bl_table t ++ l') (l' := bl_arr (kt_buckets t) (kt_arr t) ++ l'); [exact P| |].
  - unfold bl_table. assert (X : Permutation (map kn_at (concat (kt_buckets t))) (flat_map (map kn_at) (rev (kt_buckets t)))).
    { rewrite concat_map, <- flat_map_concat_map. apply Permutation_flat_map, Permutation_rev. }
    rewrite X. perm.
  - intros m' H'. eapply (free_bl_arr (kt_buckets t)) with (l' := l'); [exact H'|reflexivity|exact HQ].
Qed.
