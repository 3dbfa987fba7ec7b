(** The configuration in memory does what the configuration of Config.v does. *)
From Coq Require Import ZArith NArith String Bool List Lia Permutation.
From Coq Require Import ZifyBool ZifyNat ZifyN.
From Verif Require Import Base Float Value Ast Config BaseProofs InternProofs HashMap HashProofs Ledger HeapExpr HeapSpec HeapEventSpec.
From Verif Require Import HeapConf HeapConfSpec PermTac LedgerProofs HeapProofs HeapEventProofs HeapFill HeapTable.
Import ListNotations.
Local Open Scope Z_scope.
Local Open Scope list_scope.

(** ** The strings of a table *)
Lemma find_key_node C n : NoDup (map n_key C) -> In n C -> find_key C (n_key n) = Some (n_val n).
Proof.
  induction C as [|x C IH]; intros ND I; [contradiction|]. cbn [map] in ND. inversion ND as [|? ? N1 N2]; subst. cbn [find_key].
  destruct I as [->|I]; [now rewrite String.eqb_refl|].
  destruct (String.eqb_spec (n_key x) (n_key n)) as [E|E]; [|now apply IH].
  exfalso. apply N1. rewrite E. now apply in_map.
Qed.
Lemma find_key_some C s v : find_key C s = Some v -> exists n, In n C /\ n_key n = s /\ n_val n = v.
Proof.
  induction C as [|x C IH]; cbn [find_key]; [discriminate|]. destruct (String.eqb_spec (n_key x) s) as [E|E]; intros H.
  - injection H as H. exists x. split; [now left|]. now split.
  - destruct (IH H) as (n & I & P). exists n. split; [now right|exact P].
Qed.
Lemma nth_seq {A} (d : A) l : map (fun i => nth i l d) (seq 0 (List.length l)) = l.
Proof.
  induction l as [|x l IH]; [reflexivity|]. cbn [List.length seq map nth]. f_equal. rewrite <- seq_shift, map_map. exact IH.
Qed.
Lemma keys_of_ok C vals : NoDup (map n_key C) -> NoDup vals -> (forall s, find_key C s = str_index vals s) ->
  keys_of C (Z.of_nat (List.length vals)) = vals.
Proof.
  intros NC NV F. unfold keys_of. rewrite Nat2Z.id. rewrite <- (nth_seq EmptyString vals) at 2.
  apply map_ext_in. intros i Hi. apply in_seq in Hi. cbn in Hi.
  pose proof (nth_error_nth' vals EmptyString (proj2 Hi)) as Ei.
  assert (X : str_index vals (nth i vals EmptyString) = Some (Z.of_nat i)).
  { pose proof (str_index_spec vals (nth i vals EmptyString)) as S. destruct (str_index vals (nth i vals EmptyString)) as [j|].
    - destruct S as (B & E). f_equal. assert (Z.to_nat j = i); [|lia]. apply (proj1 (NoDup_nth_error vals)); [exact NV|lia|congruence].
    - exfalso. apply S. now apply nth_error_In with i. }
  rewrite <- F in X. apply find_key_some in X. destruct X as (n & In_n & Kn & Vn).
  unfold key_of. destruct (find (fun n0 => n_val n0 =? Z.of_nat i) C) as [n'|] eqn:Fi.
  - apply find_some in Fi. destruct Fi as (I' & V'). apply Z.eqb_eq in V'.
    pose proof (find_key_node C n' NC I') as K. rewrite F, V' in K. pose proof (str_index_spec vals (n_key n')) as S. rewrite K in S.
    destruct S as (_ & S). rewrite Nat2Z.id in S. rewrite Ei in S. now injection S.
  - exfalso. pose proof (find_none _ _ Fi n In_n) as Z0. cbv beta in Z0. lia.
Qed.

(** ** Tables of strings *)
(** A table without strings has no memory; the others are hash tables that know their strings. *)
Definition strs_inv (x : kstrs) : Prop :=
  (ks_count x = 0 /\ (ks_map x = None \/ ks_map x = Some k_init)) \/
  (0 < ks_count x /\ exists t, ks_map x = Some t /\ wf (er_table t) /\ NoDup (ks_vals x) /\ kt_nnodes t = ks_count x
     /\ forall s, find_key (contents (er_table t)) s = str_index (ks_vals x) s).
Definition strs_ok (x : kstrs) : Prop := strs_inv x /\ ks_map x <> None.
(** An array without elements is NULL. *)
Definition null {A} (s : list A) (a : Z) : Prop := s = [] -> a = 0.
Definition ints_ok (x : kints) : Prop := null (ki_vals x) (ki_arr x).
Definition conf_nulls (k : kconf) : Prop :=
  Forall ints_ok (k_ints k) /\ null (k_doms k) (k_doms_at k) /\ null (k_strs k) (k_strs_at k) /\ null (k_ints k) (k_ints_at k).
Definition conf_ok (k : kconf) : Prop := Forall strs_ok (k_strs k) /\ conf_nulls k.

Lemma strs_len x : strs_inv x -> Z.of_nat (List.length (ks_vals x)) = ks_count x.
Proof.
  unfold ks_vals. intros [(C & [M|M])|(P & t & M & _)]; rewrite M; [rewrite C; reflexivity|rewrite C; reflexivity|].
  unfold keys_of. rewrite map_length, seq_length. lia.
Qed.
Lemma strs_table x t : strs_inv x -> ks_map x = Some t -> wf (er_table t) /\ NoDup (ks_vals x) /\ kt_nnodes t = ks_count x
     /\ (forall s, find_key (contents (er_table t)) s = str_index (ks_vals x) s).
Proof.
  intros [(C & [M|M])|(P & t' & M & W)] E; rewrite M in E; try discriminate; injection E as <-; [|exact W].
  split; [exact wf_init|]. unfold ks_vals. rewrite M, C. split; [constructor|]. split; [reflexivity|]. reflexivity.
Qed.
Lemma lookup_ok x s m l (Q : option Z -> ledger -> Prop) : strs_ok x -> holds m (bl_kstrs x ++ l) -> In (hs_at s) l ->
  Q (str_index (ks_vals x) (hs_text s)) m -> wp (k_lookup x s) m Q.
Proof.
  intros (V & NN) H I HQ. unfold k_lookup. destruct (ks_map x) as [t|] eqn:M; [|easy].
  destruct (strs_table x t V M) as (W & ND & NC & F). unfold bl_kstrs in H. rewrite M in H.
  eapply (k_get_ok t s _ m (bl_var (ks_attr x) ++ l)); [rewrite (get_spec _ _ W), F; reflexivity| | |exact HQ].
  - eapply holds_perm; [exact H|perm].
  - apply in_or_app. now right.
Qed.
Lemma str_index_app l s x : ~ In s l -> str_index (l ++ [s]) x = if String.eqb s x then Some (Z.of_nat (List.length l)) else str_index l x.
Proof.
  intros NI. destruct (String.eqb_spec s x) as [<-|NE].
  - apply index_of_last; [apply String.eqb_eq|exact NI].
  - unfold str_index. destruct (index_of String.eqb l x 0) as [i|] eqn:E; [now apply index_of_app|].
    assert (N : ~ In x (l ++ [s])).
    { intros I. apply in_app_or in I. destruct I as [I|[I|[]]]; [|now apply NE].
      apply (index_of_In String.eqb String.eqb_eq) in I. now apply I. }
    destruct (index_of String.eqb (l ++ [s]) x 0) as [i|] eqn:E2; [|reflexivity].
    exfalso. apply N. apply (index_of_In String.eqb String.eqb_eq). congruence.
Qed.
Lemma NoDup_snoc {A} (l : list A) x : NoDup l -> ~ In x l -> NoDup (l ++ [x]).
Proof. intros ND NI. apply (Permutation_NoDup (l := x :: l)); [perm|now constructor]. Qed.
Lemma add_to_strs_ok x s m l (Q : kstrs -> ledger -> Prop) : strs_inv x -> ks_count x < 2 ^ 30 ->
  str_index (ks_vals x) (hs_text s) = None ->
  holds m (bl_kstrs x ++ l) -> In (hs_at s) l ->
  (forall y m', strs_ok y -> ks_attr y = ks_attr x -> ks_vals y = ks_vals x ++ [hs_text s] -> holds m' (bl_kstrs y ++ l) -> Q y m') ->
  wp (k_add_to_strs x s) m Q.
Proof.
  intros V LT NS H I HQ. unfold k_add_to_strs.
  assert (X : exists t, (if ks_count x =? 0 then Some k_init else ks_map x) = Some t /\ wf (er_table t) /\ NoDup (ks_vals x)
     /\ kt_nnodes t = ks_count x /\ (forall s, find_key (contents (er_table t)) s = str_index (ks_vals x) s)
     /\ holds m (bl_table t ++ bl_var (ks_attr x) ++ l)).
  { unfold bl_kstrs in H. pose proof V as V0. destruct V as [(C & M)|(P & t & M & _)].
    - exists k_init. rewrite C. split; [reflexivity|]. split; [exact wf_init|].
      assert (Z0 : ks_vals x = []) by (pose proof (strs_len x V0) as L; destruct (ks_vals x); [reflexivity|cbn in L; lia]).
      rewrite Z0. split; [constructor|]. split; [reflexivity|]. split; [reflexivity|].
      destruct M as [M|M]; rewrite M in H; cbn in H |- *; [|]; eapply holds_perm; try exact H; cbn; perm.
    - exists t. destruct (Z.eqb_spec (ks_count x) 0) as [Z0|_]; [lia|]. split; [exact M|].
      destruct (strs_table x t V0 M) as (W & ND & NC & F). rewrite M in H. repeat (split; [assumption|]). eapply holds_perm; [exact H|perm]. }
  destruct X as (t & -> & W & ND & NC & F & H'). clear H. pose proof (strs_len x V) as LV.
  assert (Pc : 0 <= ks_count x) by (destruct V as [(C & _)|(P & _)]; lia).
  destruct (set_spec (er_table t) (hs_text s) (ks_count x) true true W) as (ok & M' & ES & W' & _ & OK & F'); [cbn [er_table m_nnodes]; lia|].
  specialize (OK eq_refl eq_refl). subst ok.
  assert (NI : ~ In (hs_text s) (ks_vals x)) by (pose proof (str_index_spec (ks_vals x) (hs_text s)) as S; now rewrite NS in S).
  lstep. eapply (k_set_ok t s (ks_count x) M' m (bl_var (ks_attr x) ++ l)); [rewrite (get_spec _ _ W), F, NS; reflexivity|exact ES|exact H'|apply in_or_app; now right|lia|].
  intros t' m' Et H1. lstep.
  assert (F2 : forall k, find_key (contents (er_table t')) k = str_index (ks_vals x ++ [hs_text s]) k).
  { intros k. rewrite Et, F', (str_index_app _ _ _ NI), LV, F. now destruct (String.eqb (hs_text s) k). }
  assert (KV : ks_vals (mkKS (ks_attr x) (ks_count x + 1) (Some t')) = ks_vals x ++ [hs_text s]).
  { unfold ks_vals at 1. cbn [ks_map ks_count].
    replace (ks_count x + 1) with (Z.of_nat (List.length (ks_vals x ++ [hs_text s]))) by (rewrite app_length; cbn; lia).
    apply keys_of_ok; [rewrite Et; exact (wf_keys _ W')|now apply NoDup_snoc|exact F2]. }
  apply HQ.
  - split; [|discriminate]. right. cbn [ks_count ks_map]. split; [lia|]. exists t'. split; [reflexivity|]. rewrite KV.
    split; [rewrite Et; exact W'|]. split; [now apply NoDup_snoc|]. split; [|exact F2].
    assert (C1 : m_nnodes M' = ks_count x + 1); [|rewrite <- Et in C1; exact C1].
    (* the number of nodes, from the keys *)
    rewrite (wf_count _ W').
    assert (Pk : Permutation (map n_key (contents M')) (ks_vals x ++ [hs_text s])).
    { apply NoDup_Permutation; [exact (wf_keys _ W')|now apply NoDup_snoc|]. intros k. rewrite Et in F2. split; intros Hk.
      - apply (index_of_In String.eqb String.eqb_eq). fold (str_index (ks_vals x ++ [hs_text s]) k). rewrite <- F2. intros Z0. now apply find_key_In in Z0.
      - apply (index_of_In String.eqb String.eqb_eq) in Hk. fold (str_index (ks_vals x ++ [hs_text s]) k) in Hk. rewrite <- F2 in Hk.
        destruct (find_key (contents M') k) as [v|] eqn:E; [|easy]. apply find_key_some in E. destruct E as (n & I1 & <- & _). now apply in_map. }
    apply Permutation_length in Pk. rewrite map_length, app_length in Pk. cbn in Pk. lia.
  - reflexivity.
  - exact KV.
  - unfold bl_kstrs. cbn [ks_attr ks_map]. eapply holds_perm; [exact H1|perm].
Qed.

(** ** Finding tables *)
Lemma find_strs_split l v x : k_find_strs l v = Some x -> exists l1 l2, l = l1 ++ x :: l2 /\ hv_var (ks_attr x) = v
  /\ find_strmap (map er_smap l) v = Some (er_smap x)
  /\ (forall y, k_put_strs l v y = l1 ++ y :: l2)
  /\ forall s, push_str (map er_smap l) v s = map er_smap l1 ++ mkSM (sm_attr (er_smap x)) (sm_var (er_smap x)) (ks_vals x ++ [s]) :: map er_smap l2.
Proof.
  induction l as [|y l IH]; cbn [k_find_strs]; [discriminate|]. destruct (N.eqb_spec (hv_var (ks_attr y)) v) as [E|E]; intros H.
  - injection H as ->. exists [], l. split; [reflexivity|]. split; [exact E|]. cbn [map find_strmap push_str k_put_strs sm_var er_smap].
    rewrite (proj2 (N.eqb_eq _ _) E). cbn [er_smap sm_attr sm_var sm_vals app map]. repeat split.
  - destruct (IH H) as (l1 & l2 & -> & Ev & F & P & S). exists (y :: l1), l2. split; [reflexivity|]. split; [exact Ev|].
    cbn [map find_strmap push_str k_put_strs app]. cbn [er_smap sm_var]. rewrite (proj2 (N.eqb_neq _ _) E).
    split; [exact F|]. split; [intros z; now rewrite P|intros s; now rewrite S].
Qed.
Lemma find_strs_none l v : k_find_strs l v = None -> find_strmap (map er_smap l) v = None
  /\ forall x, hv_var (ks_attr x) = v -> k_find_strs (l ++ [x]) v = Some x.
Proof.
  induction l as [|y l IH]; cbn [k_find_strs map find_strmap app].
  - intros _. split; [reflexivity|]. intros x E. now rewrite (proj2 (N.eqb_eq _ _) E).
  - cbn [er_smap sm_var]. destruct (N.eqb (hv_var (ks_attr y)) v); [discriminate|]. exact IH.
Qed.
Lemma find_ints_split l v x : k_find_ints l v = Some x -> exists l1 l2, l = l1 ++ x :: l2 /\ hv_var (ki_attr x) = v
  /\ find_intmap (map er_imap l) v = Some (er_imap x)
  /\ (forall y, k_put_ints l v y = l1 ++ y :: l2)
  /\ forall s, push_int (map er_imap l) v s = map er_imap l1 ++ mkIM (im_attr (er_imap x)) (im_var (er_imap x)) (ki_vals x ++ [s]) :: map er_imap l2.
Proof.
  induction l as [|y l IH]; cbn [k_find_ints]; [discriminate|]. destruct (N.eqb_spec (hv_var (ki_attr y)) v) as [E|E]; intros H.
  - injection H as ->. exists [], l. split; [reflexivity|]. split; [exact E|]. cbn [map find_intmap push_int k_put_ints im_var er_imap].
    rewrite (proj2 (N.eqb_eq _ _) E). cbn [er_imap im_attr im_var im_vals app map]. repeat split.
  - destruct (IH H) as (l1 & l2 & -> & Ev & F & P & S). exists (y :: l1), l2. split; [reflexivity|]. split; [exact Ev|].
    cbn [map find_intmap push_int k_put_ints app]. cbn [er_imap im_var]. rewrite (proj2 (N.eqb_neq _ _) E).
    split; [exact F|]. split; [intros z; now rewrite P|intros s; now rewrite S].
Qed.
Lemma find_ints_none l v : k_find_ints l v = None -> find_intmap (map er_imap l) v = None
  /\ forall x, hv_var (ki_attr x) = v -> k_find_ints (l ++ [x]) v = Some x.
Proof.
  induction l as [|y l IH]; cbn [k_find_ints map find_intmap app].
  - intros _. split; [reflexivity|]. intros x E. now rewrite (proj2 (N.eqb_eq _ _) E).
  - cbn [er_imap im_var]. destruct (N.eqb (hv_var (ki_attr y)) v); [discriminate|]. exact IH.
Qed.

(** ** Reading *)
Lemma walk_ok {A} a (s : list A) m l (Q : unit -> ledger -> Prop) : holds m l -> incl (bl_arr s a) l -> Q tt m -> wp (walk a s) m Q.
Proof.
  intros H I HQ. unfold walk. destruct s; [now lstep|]. apply wp_use with l; [exact H|apply I; now left|exact HQ].
Qed.
Lemma conf_pieces k l : incl (bl_arr (k_doms k) (k_doms_at k)) (bl_conf k ++ l) /\ incl (flat_map bl_kdom (k_doms k)) (bl_conf k ++ l)
  /\ incl (bl_arr (k_strs k) (k_strs_at k)) (bl_conf k ++ l) /\ incl (bl_arr (k_ints k) (k_ints_at k)) (bl_conf k ++ l).
Proof.
  unfold bl_conf. repeat split; intros z Hz; cbn [app]; right; right; rewrite <- !app_assoc.
  - apply in_or_app. now left.
  - apply in_or_app. right. apply in_or_app. now left.
  - apply in_or_app. right. apply in_or_app. right. apply in_or_app. now left.
  - do 4 (apply in_or_app; right). apply in_or_app. now left.
Qed.
Lemma nthN_map {A B} (f : A -> B) l n : nthN (map f l) n = option_map f (nthN l n).
Proof. rewrite !nthN_nth. apply nth_error_map. Qed.
Lemma domain_ok k v d m l (Q : kdom -> ledger -> Prop) : get_domain (er_conf k) v = Ok d -> holds m (bl_conf k ++ l) ->
  (forall d', er_dom d' = d -> Q d' m) -> wp (k_domain k v) m Q.
Proof.
  intros E H HQ. unfold get_domain, er_conf in E. cbn [c_domains] in E. rewrite nthN_map in E.
  unfold k_domain. destruct (conf_pieces k l) as (P1 & P2 & _ & _).
  lstep. apply walk_ok with (bl_conf k ++ l); [exact H|exact P1|].
  destruct (nthN (k_doms k) v) as [d'|] eqn:N; [|discriminate]. injection E as <-.
  lstep. apply wp_use with (bl_conf k ++ l); [exact H| |lstep; now apply HQ].
  apply P2. apply in_flat_map. exists d'. split; [now apply nthN_In with v|now left].
Qed.
Definition is_full (d : domain) (n : Z) (always : bool) : result bool :=
  (if always then Ok false else do smax <- dom_smax (d_bound d); Ok (to_uint 64 (smax + 1) =? n))%res.
Lemma full_ok k v d n always b m l (Q : bool -> ledger -> Prop) : get_domain (er_conf k) v = Ok d -> is_full d n always = Ok b ->
  holds m (bl_conf k ++ l) -> Q b m -> wp (k_full k v n always) m Q.
Proof.
  intros D F H HQ. unfold k_full. lstep. apply (domain_ok k v d m l); [exact D|exact H|]. intros d' <-.
  unfold is_full in F. cbn [er_dom d_bound] in F. destruct always; [injection F as <-; now lstep|].
  destruct (dom_smax (kd_bound d')) as [smax| | |]; try discriminate. cbn [bind] in F. injection F as <-. lstep. lstep. now lstep.
Qed.

(** ** Strings *)
(** The configuration without its tables of strings. *)
Definition rest_strs (k : kconf) : list Z :=
  k_at k :: k_pm k :: bl_arr (k_doms k) (k_doms_at k) ++ flat_map bl_kdom (k_doms k)
  ++ bl_arr (k_ints k) (k_ints_at k) ++ flat_map bl_kints (k_ints k).
Lemma conf_strs k l1 x l2 : k_strs k = l1 ++ x :: l2 ->
  Permutation (bl_conf k) (bl_kstrs x ++ k_strs_at k :: flat_map bl_kstrs l1 ++ flat_map bl_kstrs l2 ++ rest_strs k).
Proof.
  intros E. unfold bl_conf, rest_strs. rewrite E, flat_map_app. cbn [flat_map].
  assert (X : bl_arr (l1 ++ x :: l2) (k_strs_at k) = [k_strs_at k]) by (now destruct l1). rewrite X. perm.
Qed.
(** The string is new. *)
Lemma new_string_ok k x v s always d b m l (Q : Z * kconf -> ledger -> Prop) :
  k_find_strs (k_strs k) v = Some x -> strs_inv x -> (forall y, strs_ok y -> Forall strs_ok (k_put_strs (k_strs k) v y)) -> conf_nulls k ->
  str_index (ks_vals x) (hs_text s) = None -> get_domain (er_conf k) v = Ok d -> is_full d (ks_count x) always = Ok b ->
  (b = false -> ks_count x < 2 ^ 30) ->
  holds m (bl_conf k ++ l) -> In (hs_at s) l ->
  (b = true -> Q (INVALID_STR, k) m) ->
  (b = false -> forall k' m', conf_ok k' -> er_conf k' = set_strs (er_conf k) (push_str (c_strs (er_conf k)) v (hs_text s)) ->
    holds m' (bl_conf k' ++ l) -> Q (ks_count x, k') m') ->
  wp (k_new_string k x v s always) m Q.
Proof.
  intros FX V OT NU NS D F LT H I QT QF. unfold k_new_string. lstep.
  apply (full_ok k v d (ks_count x) always b m l); [exact D|exact F|exact H|].
  destruct b; [lstep; now apply QT|].
  destruct (find_strs_split _ _ _ FX) as (l1 & l2 & EL & EV & _ & PUT & PUSH). pose proof (conf_strs k l1 x l2 EL) as PC.
  assert (H1 : holds m (bl_kstrs x ++ k_strs_at k :: flat_map bl_kstrs l1 ++ flat_map bl_kstrs l2 ++ rest_strs k ++ l))
    by (eapply holds_perm; [exact H|rewrite PC; perm]).
  lstep. eapply wp_use; [exact H1|apply in_or_app; right; now left|].
  lstep. eapply (add_to_strs_ok x s m); [exact V|now apply LT|exact NS|exact H1| |].
  { right. do 3 (apply in_or_app; right). exact I. }
  intros y m' OKy Ay Vy H2. lstep. apply (QF eq_refl).
  - split; [cbn [k_strs k_set_strs]; now apply OT|]. unfold conf_nulls in *. cbn [k_set_strs k_doms k_doms_at k_strs k_strs_at k_ints k_ints_at].
    rewrite PUT. destruct NU as (N1 & N2 & N3 & N4). repeat split; try assumption. unfold null. intros Z0. now destruct l1.
  - unfold er_conf, set_strs. cbn [k_set_strs k_doms k_cap k_minpart k_maxsplit k_strs k_ints c_domains c_cap c_minpart c_maxsplit c_strs c_ints].
    rewrite PUT, PUSH, map_app. cbn [map]. do 4 f_equal. unfold er_smap. now rewrite Ay, Vy.
  - eapply holds_perm; [exact H2|].
    rewrite (conf_strs (k_set_strs k (k_strs_at k) (k_put_strs (k_strs k) v y)) l1 y l2) by (cbn [k_strs k_set_strs]; apply PUT).
    unfold rest_strs. cbn [k_set_strs k_at k_pm k_doms k_doms_at k_ints k_ints_at k_strs_at]. perm.
Qed.

Lemma dup_ok s m l (Q : hstr -> ledger -> Prop) : holds m l -> In (hs_at s) l ->
  (forall x m', hs_text x = hs_text s -> hs_at x <> 0 -> holds m' (hs_at x :: l) -> Q x m') -> wp (bstrdup s) m Q.
Proof.
  intros H I HQ. unfold bstrdup. lstep. eapply wp_use; [exact H|exact I|]. lstep. eapply wp_malloc; [exact H|]. intros a m' N H1. lstep. now apply HQ.
Qed.

(** The configuration has a new, empty table. *)
Lemma conf_push_strs k a x : Permutation (bl_conf (k_set_strs k a (k_strs k ++ [x])))
  (bl_kstrs x ++ a :: flat_map bl_kstrs (k_strs k) ++ rest_strs k).
Proof.
  rewrite (conf_strs _ (k_strs k) x []) by reflexivity. unfold rest_strs.
  cbn [k_set_strs k_at k_pm k_doms k_doms_at k_ints k_ints_at k_strs_at flat_map]. perm.
Qed.
Lemma add_strs_ok k v m l (Q : kconf * kstrs -> ledger -> Prop) : null (k_strs k) (k_strs_at k) -> holds m (bl_conf k ++ l) -> In (hs_at (hv_attr v)) l ->
  (forall a x m', ks_count x = 0 -> ks_map x = (match k_strs k with [] => Some k_init | _ => None end) -> er_var (ks_attr x) = er_var v ->
    holds m' (bl_conf (k_set_strs k a (k_strs k ++ [x])) ++ l) -> Q (k_set_strs k a (k_strs k ++ [x]), x) m') ->
  wp (k_add_strs k v) m Q.
Proof.
  intros NU H I HQ. unfold k_add_strs.
  assert (U : forall a m1, holds m1 (a :: flat_map bl_kstrs (k_strs k) ++ rest_strs k ++ l) ->
    wp (on s <- bstrdup (hv_attr v);
        ret (k_set_strs k a (k_strs k ++ [mkKS (mkHV s (hv_var v)) 0 (match k_strs k with [] => Some k_init | _ => None end)]),
          mkKS (mkHV s (hv_var v)) 0 (match k_strs k with [] => Some k_init | _ => None end)))%led m1 Q).
  { intros a m1 H1. lstep. eapply dup_ok; [exact H1|right; apply in_or_app; right; apply in_or_app; now right|].
    intros s' m2 Es Ns H2. lstep. apply HQ; try reflexivity.
    - unfold er_var. cbn [ks_attr hv_attr hv_var]. now rewrite Es.
    - eapply holds_perm; [exact H2|]. rewrite conf_push_strs. unfold bl_kstrs, bl_var. cbn [ks_attr ks_map hv_attr]. rewrite (opt_at_some _ Ns).
      destruct (k_strs k); [change (bl_table k_init) with (@nil Z)|]; cbn [flat_map]; perm. }
  lstep. destruct (k_strs k) as [|y t] eqn:EK.
  - eapply wp_malloc; [exact H|]. intros a m1 _ H1. apply U. eapply holds_perm; [exact H1|].
    unfold bl_conf, rest_strs. rewrite EK. cbn [bl_arr flat_map]. rewrite (NU eq_refl). change (opt_at 0) with (@nil Z). perm.
  - eapply wp_realloc; [exact H| |].
    { unfold bl_conf. rewrite EK. cbn [bl_arr]. instantiate (1 := flat_map bl_kstrs (y :: t) ++ rest_strs k ++ l). unfold rest_strs. perm. }
    intros a m1 _ H1. apply U. exact H1.
Qed.

Lemma roomy_small c m : roomy c = true -> In m (c_strs c) -> Z.of_nat (List.length (sm_vals m)) <= 2 ^ 30.
Proof.
  unfold roomy. intros R I. apply andb_true_iff in R. destruct R as (R & _). rewrite forallb_forall in R. specialize (R _ I). unfold small in R. lia.
Qed.
Lemma roomy_last c ms m : roomy c = true -> c_strs c = ms ++ [m] -> ms <> [] -> sm_vals m <> [].
Proof.
  unfold roomy. intros R E N. apply andb_true_iff in R. destruct R as (_ & R). rewrite E in R. destruct ms as [|x ms]; [easy|].
  cbn [app tl] in R. rewrite forallb_app in R. apply andb_true_iff in R. destruct R as (_ & R). cbn [forallb] in R. unfold some in R.
  destruct (sm_vals m); [discriminate|easy].
Qed.
Lemma push_in l1 (x : strmap) l2 : In x (l1 ++ x :: l2).
Proof. apply in_or_app. right. now left. Qed.
Lemma put_ok l v y : Forall strs_ok l -> strs_ok y -> Forall strs_ok (k_put_strs l v y).
Proof.
  intros F Y. induction F as [|x l X F IH]; [constructor|]. cbn [k_put_strs]. destruct (hv_var (ks_attr x) =? v)%N; now constructor.
Qed.
Lemma put_last l v x y : k_find_strs l v = None -> hv_var (ks_attr x) = v -> k_put_strs (l ++ [x]) v y = l ++ [y].
Proof.
  intros F E. induction l as [|z l IH]; cbn [app k_put_strs k_find_strs] in *.
  - now rewrite (proj2 (N.eqb_eq _ _) E).
  - destruct (hv_var (ks_attr z) =? v)%N; [discriminate|]. now rewrite (IH F).
Qed.

Lemma get_string_ok k v s always i c' m l (Q : Z * kconf -> ledger -> Prop) :
  get_id_for_string (er_conf k) (er_var v) (hs_text s) always = Ok (i, c') -> roomy c' = true -> conf_ok k ->
  holds m (bl_conf k ++ l) -> In (hs_at s) l -> In (hs_at (hv_attr v)) l ->
  (forall k' m', er_conf k' = c' -> conf_ok k' -> holds m' (bl_conf k' ++ l) -> Q (i, k') m') ->
  wp (k_get_string k v s always) m Q.
Proof.
  intros G R OK H I Iv HQ. unfold k_get_string. destruct (conf_pieces k l) as (_ & _ & P3 & _).
  lstep. eapply wp_use; [exact H|now left|]. lstep. apply walk_ok with (bl_conf k ++ l); [exact H|exact P3|].
  unfold get_id_for_string in G. change (c_strs (er_conf k)) with (map er_smap (k_strs k)) in G. change (av_var (er_var v)) with (hv_var v) in G.
  destruct (k_find_strs (k_strs k) (hv_var v)) as [x|] eqn:FX.
  - destruct (find_strs_split _ _ _ FX) as (l1 & l2 & EL & EV & EF & _ & PUSH). rewrite EF in G. cbn [er_smap sm_vals] in G.
    assert (OKx : strs_ok x) by (destruct OK as (OK & _); rewrite Forall_forall in OK; apply OK; rewrite EL; apply in_or_app; right; now left).
    pose proof (conf_strs k l1 x l2 EL) as PC. pose proof (strs_len x (proj1 OKx)) as LV.
    lstep. eapply (lookup_ok x s m); [exact OKx|eapply holds_perm; [exact H|rewrite PC; rewrite <- app_assoc; reflexivity]| |].
    { right. rewrite <- !app_assoc. do 3 (apply in_or_app; right). exact I. }
    destruct (str_index (ks_vals x) (hs_text s)) as [j|] eqn:SI.
    + injection G as <- <-. lstep. now apply HQ.
    + destruct (get_domain (er_conf k) (hv_var v)) as [d| | |] eqn:D; cbn [bind] in G; try discriminate. cbn [bind] in G.
      rewrite LV in G. fold (is_full d (ks_count x) always) in G. destruct (is_full d (ks_count x) always) as [b| | |] eqn:F; try discriminate. cbn [bind] in G.
      eapply (new_string_ok k x (hv_var v) s always d b m l); [exact FX|exact (proj1 OKx)|intros y Y; apply put_ok; [exact (proj1 OK)|exact Y]|exact (proj2 OK)|exact SI|exact D|exact F| |exact H|exact I| |].
      * intros ->. injection G as <- <-.
        assert (X : Z.of_nat (List.length (ks_vals x ++ [hs_text s])) <= 2 ^ 30); [|rewrite app_length in X; cbn in X; lia].
        apply (roomy_small _ (mkSM (sm_attr (er_smap x)) (sm_var (er_smap x)) (ks_vals x ++ [hs_text s])) R).
        cbn [set_strs c_strs]. cbn [er_conf c_strs]. rewrite PUSH. apply push_in.
      * intros ->. injection G as <- <-. now apply HQ.
      * intros ->. injection G as <- <-. intros k' m' K1 K2 K3. now apply HQ.
  - destruct (find_strs_none _ _ FX) as (EF & FL). rewrite EF in G.
    assert (NS : null (k_strs k) (k_strs_at k)) by apply OK.
    lstep. apply (add_strs_ok k v m l); [exact NS|exact H|exact Iv|]. intros a x m' C0 MX EX H1. cbv beta iota.
    assert (EVx : hv_var (ks_attr x) = hv_var v) by (unfold er_var in EX; congruence).
    assert (EAx : hs_text (hv_attr (ks_attr x)) = hs_text (hv_attr v)) by (unfold er_var in EX; congruence).
    set (k1 := k_set_strs k a (k_strs k ++ [x])) in *.
    assert (Vx : strs_inv x) by (left; split; [exact C0|rewrite MX; destruct (k_strs k); [now right|now left]]).
    assert (Zx : ks_vals x = []) by (pose proof (strs_len x Vx) as L; destruct (ks_vals x); [reflexivity|cbn in L; lia]).
    assert (E1 : er_conf k1 = set_strs (er_conf k) (map er_smap (k_strs k) ++ [mkSM (hs_text (hv_attr v)) (hv_var v) []])).
    { unfold k1, er_conf, set_strs. cbn [k_set_strs k_doms k_cap k_minpart k_maxsplit k_strs k_ints c_domains c_cap c_minpart c_maxsplit c_strs c_ints].
      rewrite map_app. cbn [map]. unfold er_smap at 2. now rewrite EVx, EAx, Zx. }
    cbn [er_var av_attr] in G. rewrite <- E1 in G.
    destruct (get_domain (er_conf k1) (hv_var v)) as [d| | |] eqn:D; try discriminate. cbn [bind] in G.
    replace (to_uint 64) with (to_uint 64) in G by reflexivity.
    assert (F0 : exists b, is_full d (ks_count x) always = Ok b /\
      (if b : bool then Ok (INVALID_STR, er_conf k1) else Ok (0, set_strs (er_conf k1) (push_str (c_strs (er_conf k1)) (hv_var v) (hs_text s)))) = Ok (i, c')).
    { unfold is_full. rewrite C0. destruct always; [exists false; now split|]. destruct (dom_smax (d_bound d)) as [smax| | |]; try discriminate.
      cbn [bind] in G |- *. eexists. split; [reflexivity|exact G]. }
    clear G. destruct F0 as (b & F & G).
    assert (NU1 : conf_nulls k1).
    { destruct OK as (_ & N1 & N2 & N3 & N4). unfold k1, conf_nulls. cbn [k_set_strs k_doms k_doms_at k_strs k_strs_at k_ints k_ints_at].
      repeat split; try assumption. unfold null. intros Z0. now destruct (k_strs k). }
    assert (FX1 : k_find_strs (k_strs k1) (hv_var v) = Some x) by (apply FL; exact EVx).
    eapply (new_string_ok k1 x (hv_var v) s always d b m' l); [exact FX1|exact Vx| | |rewrite Zx; reflexivity|exact D|exact F|intros _; lia|exact H1|exact I| |].
    + intros y Y. unfold k1. cbn [k_set_strs k_strs]. rewrite put_last; [|exact FX|exact EVx]. apply Forall_app. split; [exact (proj1 OK)|]. now constructor.
    + exact NU1.
    + intros ->. injection G as <- <-. apply HQ; [reflexivity| |exact H1]. split; [|exact NU1]. unfold k1. cbn [k_set_strs k_strs]. apply Forall_app. split; [exact (proj1 OK)|].
      constructor; [|constructor]. split; [exact Vx|]. rewrite MX. destruct (k_strs k) as [|y t] eqn:EK; [discriminate|].
      exfalso. rewrite E1 in R. refine (roomy_last _ (map er_smap (y :: t)) _ R eq_refl _ _); [discriminate|reflexivity].
    + intros ->. injection G as <- <-. rewrite C0. intros k' m2 K1 K2 K3. now apply HQ.
Qed.
Lemma try_str_ok k v s m l (Q : Z -> ledger -> Prop) : conf_ok k -> holds m (bl_conf k ++ l) -> In (hs_at s) l ->
  Q (try_get_str (er_conf k) v (hs_text s)) m -> wp (k_try_str k v s) m Q.
Proof.
  intros OK H I HQ. unfold k_try_str. destruct (conf_pieces k l) as (_ & _ & P3 & _).
  lstep. eapply wp_use; [exact H|now left|]. lstep. apply walk_ok with (bl_conf k ++ l); [exact H|exact P3|].
  unfold try_get_str in HQ. cbn [er_conf c_strs] in HQ. destruct (k_find_strs (k_strs k) v) as [x|] eqn:FX.
  - destruct (find_strs_split _ _ _ FX) as (l1 & l2 & EL & EV & EF & _). rewrite EF in HQ. cbn [er_smap sm_vals] in HQ.
    assert (OKx : strs_ok x) by (destruct OK as (OK & _); rewrite Forall_forall in OK; apply OK; rewrite EL; apply in_or_app; right; now left).
    pose proof (conf_strs k l1 x l2 EL) as PC.
    lstep. eapply (lookup_ok x s m); [exact OKx|eapply holds_perm; [exact H|rewrite PC; rewrite <- app_assoc; reflexivity]| |].
    { right. rewrite <- !app_assoc. do 3 (apply in_or_app; right). exact I. }
    now lstep.
  - destruct (find_strs_none _ _ FX) as (EF & _). rewrite EF in HQ. now lstep.
Qed.

(** ** Integers *)
Definition rest_ints (k : kconf) : list Z :=
  k_at k :: k_pm k :: bl_arr (k_doms k) (k_doms_at k) ++ flat_map bl_kdom (k_doms k)
  ++ bl_arr (k_strs k) (k_strs_at k) ++ flat_map bl_kstrs (k_strs k).
Lemma conf_ints k l1 x l2 : k_ints k = l1 ++ x :: l2 ->
  Permutation (bl_conf k) (bl_kints x ++ k_ints_at k :: flat_map bl_kints l1 ++ flat_map bl_kints l2 ++ rest_ints k).
Proof.
  intros E. unfold bl_conf, rest_ints. rewrite E, flat_map_app. cbn [flat_map].
  assert (X : bl_arr (l1 ++ x :: l2) (k_ints_at k) = [k_ints_at k]) by (now destruct l1). rewrite X. perm.
Qed.
Lemma add_to_ints_ok x z m l (Q : kints -> ledger -> Prop) : ints_ok x -> holds m (bl_kints x ++ l) ->
  (forall y m', ints_ok y -> ki_attr y = ki_attr x -> ki_vals y = ki_vals x ++ [z] -> holds m' (bl_kints y ++ l) -> Q y m') ->
  wp (k_add_to_ints x z) m Q.
Proof.
  intros NU H HQ. unfold k_add_to_ints. unfold bl_kints in H. lstep. unfold ints_ok, null in NU. destruct (ki_vals x) as [|w t] eqn:EV.
  - rewrite (NU eq_refl) in H. change (bl_arr (@nil Z) 0) with (@nil Z) in H. eapply wp_malloc; [exact H|]. intros b m1 _ H1. lstep. apply HQ; [discriminate|reflexivity|reflexivity|]. eapply holds_perm; [exact H1|].
    unfold bl_kints. cbn [ki_attr ki_vals ki_arr bl_arr app]. perm.
  - eapply wp_realloc; [exact H|cbn [bl_arr]; instantiate (1 := bl_var (ki_attr x) ++ l); perm|]. intros b m1 _ H1. lstep.
    apply HQ; [discriminate|reflexivity|reflexivity|]. eapply holds_perm; [exact H1|]. unfold bl_kints. cbn [ki_attr ki_vals ki_arr bl_arr app]. perm.
Qed.
Lemma new_ienum_ok k x v z always d b m l (Q : Z * kconf -> ledger -> Prop) :
  k_find_ints (k_ints k) v = Some x -> get_domain (er_conf k) v = Ok d -> is_full d (Z.of_nat (List.length (ki_vals x))) always = Ok b ->
  conf_ok k -> holds m (bl_conf k ++ l) ->
  (b = true -> Q (INVALID_IENUM, k) m) ->
  (b = false -> forall k' m', conf_ok k' -> er_conf k' = set_ints (er_conf k) (push_int (c_ints (er_conf k)) v z) ->
    holds m' (bl_conf k' ++ l) -> Q (Z.of_nat (List.length (ki_vals x)), k') m') ->
  wp (k_new_ienum k x v z always) m Q.
Proof.
  intros FX D F OK H QT QF. unfold k_new_ienum. lstep.
  apply (full_ok k v d (Z.of_nat (List.length (ki_vals x))) always b m l); [exact D|exact F|exact H|].
  destruct b; [lstep; now apply QT|].
  destruct (find_ints_split _ _ _ FX) as (l1 & l2 & EL & EV & _ & PUT & PUSH). pose proof (conf_ints k l1 x l2 EL) as PC.
  assert (H1 : holds m (bl_kints x ++ k_ints_at k :: flat_map bl_kints l1 ++ flat_map bl_kints l2 ++ rest_ints k ++ l))
    by (eapply holds_perm; [exact H|rewrite PC; perm]).
  lstep. eapply wp_use; [exact H1|apply in_or_app; right; now left|].
  destruct OK as (OK & N1 & N2 & N3 & N4). rewrite EL in N1. apply Forall_app in N1. destruct N1 as (N1 & N5). pose proof (Forall_inv N5) as N6. pose proof (Forall_inv_tail N5) as N7.
  lstep. eapply (add_to_ints_ok x z m); [exact N6|exact H1|].
  intros y m' Ny Ay Vy H2. lstep. apply (QF eq_refl).
  - unfold conf_ok, conf_nulls. cbn [k_set_ints k_doms k_doms_at k_strs k_strs_at k_ints k_ints_at]. rewrite PUT. repeat split; try assumption.
    + apply Forall_app. split; [exact N1|]. now constructor.
    + unfold null. intros Z0. now destruct l1.
  - unfold er_conf, set_ints. cbn [k_set_ints k_doms k_cap k_minpart k_maxsplit k_strs k_ints c_domains c_cap c_minpart c_maxsplit c_strs c_ints].
    rewrite PUT, PUSH, map_app. cbn [map]. do 3 f_equal. unfold er_imap. now rewrite Ay, Vy.
  - eapply holds_perm; [exact H2|].
    rewrite (conf_ints (k_set_ints k (k_ints_at k) (k_put_ints (k_ints k) v y)) l1 y l2) by (cbn [k_ints k_set_ints]; apply PUT).
    unfold rest_ints. cbn [k_set_ints k_at k_pm k_doms k_doms_at k_strs k_strs_at k_ints_at]. perm.
Qed.
Lemma conf_push_ints k a x : Permutation (bl_conf (k_set_ints k a (k_ints k ++ [x])))
  (bl_kints x ++ a :: flat_map bl_kints (k_ints k) ++ rest_ints k).
Proof.
  rewrite (conf_ints _ (k_ints k) x []) by reflexivity. unfold rest_ints.
  cbn [k_set_ints k_at k_pm k_doms k_doms_at k_strs k_strs_at k_ints_at flat_map]. perm.
Qed.
Lemma add_ints_ok k v m l (Q : kconf * kints -> ledger -> Prop) : null (k_ints k) (k_ints_at k) -> holds m (bl_conf k ++ l) -> In (hs_at (hv_attr v)) l ->
  (forall a x m', ints_ok x -> ki_vals x = [] -> er_var (ki_attr x) = er_var v ->
    holds m' (bl_conf (k_set_ints k a (k_ints k ++ [x])) ++ l) -> Q (k_set_ints k a (k_ints k ++ [x]), x) m') ->
  wp (k_add_ints k v) m Q.
Proof.
  intros NU H I HQ. unfold k_add_ints.
  assert (U : forall a m1, holds m1 (a :: flat_map bl_kints (k_ints k) ++ rest_ints k ++ l) ->
    wp (on s <- bstrdup (hv_attr v);
        ret (k_set_ints k a (k_ints k ++ [mkKI (mkHV s (hv_var v)) 0 []]), mkKI (mkHV s (hv_var v)) 0 []))%led m1 Q).
  { intros a m1 H1. lstep. eapply dup_ok; [exact H1|right; apply in_or_app; right; apply in_or_app; now right|].
    intros s' m2 Es Ns H2. lstep. apply HQ; [intros _; reflexivity|reflexivity| |].
    - unfold er_var. cbn [ki_attr hv_attr hv_var]. now rewrite Es.
    - eapply holds_perm; [exact H2|]. rewrite conf_push_ints. unfold bl_kints, bl_var. cbn [ki_attr ki_vals ki_arr hv_attr bl_arr]. rewrite (opt_at_some _ Ns). change (opt_at 0) with (@nil Z). perm. }
  lstep. destruct (k_ints k) as [|y t] eqn:EK.
  - eapply wp_malloc; [exact H|]. intros a m1 _ H1. apply U. eapply holds_perm; [exact H1|].
    unfold bl_conf, rest_ints. rewrite EK. cbn [bl_arr flat_map]. rewrite (NU eq_refl). change (opt_at 0) with (@nil Z). perm.
  - eapply wp_realloc; [exact H| |].
    { unfold bl_conf. rewrite EK. cbn [bl_arr]. instantiate (1 := flat_map bl_kints (y :: t) ++ rest_ints k ++ l). unfold rest_ints. perm. }
    intros a m1 _ H1. apply U. exact H1.
Qed.
Lemma ints_walk k l x : In x (k_ints k) -> incl (bl_arr (ki_vals x) (ki_arr x)) (bl_conf k ++ l).
Proof.
  intros I z Hz. unfold bl_conf. cbn [app]. right. right. apply in_or_app. left. do 5 (apply in_or_app; right).
  apply in_flat_map. exists x. split; [exact I|]. unfold bl_kints. apply in_or_app. now right.
Qed.
Lemma get_ienum_ok k v z always i c' m l (Q : Z * kconf -> ledger -> Prop) :
  get_id_for_ienum (er_conf k) (er_var v) z always = Ok (i, c') -> conf_ok k ->
  holds m (bl_conf k ++ l) -> In (hs_at (hv_attr v)) l ->
  (forall k' m', er_conf k' = c' -> conf_ok k' -> holds m' (bl_conf k' ++ l) -> Q (i, k') m') ->
  wp (k_get_ienum k v z always) m Q.
Proof.
  intros G OK H Iv HQ. unfold k_get_ienum. destruct (conf_pieces k l) as (_ & _ & _ & P4).
  lstep. eapply wp_use; [exact H|now left|]. lstep. apply walk_ok with (bl_conf k ++ l); [exact H|exact P4|].
  unfold get_id_for_ienum in G. change (c_ints (er_conf k)) with (map er_imap (k_ints k)) in G. change (av_var (er_var v)) with (hv_var v) in G.
  destruct (k_find_ints (k_ints k) (hv_var v)) as [x|] eqn:FX.
  - destruct (find_ints_split _ _ _ FX) as (l1 & l2 & EL & EV & EF & _ & PUSH). rewrite EF in G. cbn [er_imap im_vals] in G.
    lstep. apply walk_ok with (bl_conf k ++ l); [exact H|apply ints_walk; rewrite EL; apply in_or_app; right; now left|].
    destruct (int_index (ki_vals x) z) as [j|] eqn:SI.
    + injection G as <- <-. lstep. now apply HQ.
    + destruct (get_domain (er_conf k) (hv_var v)) as [d| | |] eqn:D; cbn [bind] in G; try discriminate. cbn [bind] in G.
      fold (is_full d (Z.of_nat (List.length (ki_vals x))) always) in G.
      destruct (is_full d (Z.of_nat (List.length (ki_vals x))) always) as [b| | |] eqn:F; try discriminate. cbn [bind] in G.
      eapply (new_ienum_ok k x (hv_var v) z always d b m l); [exact FX|exact D|exact F|exact OK|exact H| |].
      * intros ->. injection G as <- <-. now apply HQ.
      * intros ->. injection G as <- <-. intros k' m' K1 K2 K3. now apply HQ.
  - destruct (find_ints_none _ _ FX) as (EF & FL). rewrite EF in G.
    lstep. apply (add_ints_ok k v m l); [apply OK|exact H|exact Iv|]. intros a x m' Nx Zx EX H1. cbv beta iota.
    assert (EVx : hv_var (ki_attr x) = hv_var v) by (unfold er_var in EX; congruence).
    assert (EAx : hs_text (hv_attr (ki_attr x)) = hs_text (hv_attr v)) by (unfold er_var in EX; congruence).
    set (k1 := k_set_ints k a (k_ints k ++ [x])) in *.
    assert (E1 : er_conf k1 = set_ints (er_conf k) (map er_imap (k_ints k) ++ [mkIM (hs_text (hv_attr v)) (hv_var v) []])).
    { unfold k1, er_conf, set_ints. cbn [k_set_ints k_doms k_cap k_minpart k_maxsplit k_strs k_ints c_domains c_cap c_minpart c_maxsplit c_strs c_ints].
      rewrite map_app. cbn [map]. unfold er_imap at 2. now rewrite EVx, EAx, Zx. }
    cbn [er_var av_attr] in G. rewrite <- E1 in G.
    destruct (get_domain (er_conf k1) (hv_var v)) as [d| | |] eqn:D; try discriminate. cbn [bind] in G.
    assert (F0 : exists b, is_full d (Z.of_nat (List.length (ki_vals x))) always = Ok b /\
      (if b : bool then Ok (INVALID_IENUM, er_conf k1) else Ok (0, set_ints (er_conf k1) (push_int (c_ints (er_conf k1)) (hv_var v) z))) = Ok (i, c')).
    { unfold is_full. rewrite Zx. destruct always; [exists false; now split|]. destruct (dom_smax (d_bound d)) as [smax| | |]; try discriminate.
      cbn [bind List.length] in G |- *. eexists. split; [reflexivity|exact G]. }
    clear G. destruct F0 as (b & F & G).
    assert (OK1 : conf_ok k1).
    { destruct OK as (OK & N1 & N2 & N3 & N4). unfold k1, conf_ok, conf_nulls. cbn [k_set_ints k_doms k_doms_at k_strs k_strs_at k_ints k_ints_at].
      repeat split; try assumption; [apply Forall_app; split; [exact N1|now constructor]|]. unfold null. intros Z0. now destruct (k_ints k). }
    assert (FX1 : k_find_ints (k_ints k1) (hv_var v) = Some x) by (apply FL; exact EVx).
    eapply (new_ienum_ok k1 x (hv_var v) z always d b m' l); [exact FX1|exact D|exact F|exact OK1|exact H1| |].
    + intros ->. injection G as <- <-. apply HQ; [reflexivity|exact OK1|exact H1].
    + intros ->. injection G as <- <-. rewrite Zx. intros k' m2 K1 K2 K3. now apply HQ.
Qed.
Lemma try_ie_ok k v z m l (Q : Z -> ledger -> Prop) : holds m (bl_conf k ++ l) ->
  Q (try_get_ie (er_conf k) v z) m -> wp (k_try_ie k v z) m Q.
Proof.
  intros H HQ. unfold k_try_ie. destruct (conf_pieces k l) as (_ & _ & _ & P4).
  lstep. eapply wp_use; [exact H|now left|]. lstep. apply walk_ok with (bl_conf k ++ l); [exact H|exact P4|].
  unfold try_get_ie in HQ. cbn [er_conf c_ints] in HQ. destruct (k_find_ints (k_ints k) v) as [x|] eqn:FX.
  - destruct (find_ints_split _ _ _ FX) as (l1 & l2 & EL & EV & EF & _). rewrite EF in HQ. cbn [er_imap im_vals] in HQ.
    lstep. apply walk_ok with (bl_conf k ++ l); [exact H|apply ints_walk; rewrite EL; apply in_or_app; right; now left|]. now lstep.
  - destruct (find_ints_none _ _ FX) as (EF & _). rewrite EF in HQ. now lstep.
Qed.

(** ** Making, declaring, releasing *)
Lemma make_ok cap minpart m l (Q : kconf -> ledger -> Prop) : holds m l ->
  (forall k m', er_conf k = make_config cap minpart -> conf_ok k -> holds m' (bl_conf k ++ l) -> Q k m') -> wp (k_make cap minpart) m Q.
Proof.
  intros H HQ. unfold k_make. lstep. eapply wp_malloc; [exact H|]. intros a m1 _ H1. lstep. eapply wp_malloc; [exact H1|]. intros p m2 _ H2. lstep.
  apply HQ; [reflexivity| |].
  - unfold conf_ok, conf_nulls, null. cbn. repeat split; constructor.
  - eapply holds_perm; [exact H2|]. unfold bl_conf. cbn [k_at k_pm k_doms k_doms_at k_strs k_strs_at k_ints k_ints_at bl_arr flat_map].
    change (opt_at 0) with (@nil Z). perm.
Qed.
Lemma declare_ok k d m l (Q : kconf -> ledger -> Prop) : conf_ok k -> holds m (bl_conf k ++ l) ->
  (forall k' m', er_conf k' = add_domain (er_conf k) d -> conf_ok k' -> holds m' (bl_conf k' ++ l) -> Q k' m') -> wp (k_declare k d) m Q.
Proof.
  intros OK H HQ. unfold k_declare. lstep. eapply wp_use; [exact H|now left|]. lstep. eapply wp_malloc; [exact H|]. intros a m1 _ H1.
  lstep. unfold bstrdup_lit. lstep. eapply wp_malloc; [exact H1|]. intros s m2 _ H2. lstep. clear H H1.
  set (rest := k_at k :: k_pm k :: bl_arr (k_strs k) (k_strs_at k) ++ flat_map bl_kstrs (k_strs k)
     ++ bl_arr (k_ints k) (k_ints_at k) ++ flat_map bl_kints (k_ints k)).
  assert (U : forall b m3, holds m3 (b :: s :: a :: flat_map bl_kdom (k_doms k) ++ rest ++ l) ->
     Q (k_set_doms k b (k_doms k ++ [mkKD a (mkHS s (d_attr d)) (d_bound d) (d_undef d)])) m3).
  { intros b m3 H3. apply HQ.
    - unfold er_conf, add_domain. cbn [k_set_doms k_doms k_cap k_minpart k_maxsplit k_strs k_ints c_domains c_cap c_minpart c_maxsplit c_strs c_ints].
      rewrite map_app. cbn [map]. unfold er_dom at 2. cbn [kd_attr kd_bound kd_undef hs_text]. now destruct d.
    - destruct OK as (OK & N1 & N2 & N3 & N4). unfold conf_ok, conf_nulls. cbn [k_set_doms k_doms k_doms_at k_strs k_strs_at k_ints k_ints_at].
      repeat split; try assumption. unfold null. intros Z0. now destruct (k_doms k).
    - eapply holds_perm; [exact H3|]. unfold bl_conf. cbn [k_set_doms k_at k_pm k_doms k_doms_at k_strs k_strs_at k_ints k_ints_at].
      rewrite flat_map_app. cbn [flat_map]. unfold bl_kdom at 3. cbn [kd_at kd_attr hs_at].
      assert (X : forall z, bl_arr (k_doms k ++ [z]) b = [b]) by (intros z; now destruct (k_doms k)). rewrite X. unfold rest. perm. }
  lstep. assert (ND : null (k_doms k) (k_doms_at k)) by apply OK. unfold bl_conf in H2. destruct (k_doms k) as [|y t] eqn:EK.
  - rewrite (ND eq_refl) in H2. cbn [bl_arr flat_map] in H2. change (opt_at 0) with (@nil Z) in H2.
    eapply wp_malloc; [exact H2|]. intros b m3 _ H3. lstep. apply U. eapply holds_perm; [exact H3|]. unfold rest. cbn [flat_map]. perm.
  - eapply wp_realloc; [exact H2| |].
    { cbn [bl_arr]. instantiate (1 := s :: a :: flat_map bl_kdom (y :: t) ++ rest ++ l). unfold rest. perm. }
    intros b m3 _ H3. lstep. now apply U.
Qed.

Lemma free_dom_ok d m l l' (Q : unit -> ledger -> Prop) :
  holds m l -> Permutation l (bl_kdom d ++ l') -> (forall m', holds m' l' -> Q tt m') -> wp (k_free_dom d) m Q.
Proof.
  intros H P HQ. apply (holds_perm _ _ _ H) in P. clear H. unfold bl_kdom in P. cbn [app] in P. unfold k_free_dom. lstep. lstep. lstep. lstep. lstep. now apply HQ.
Qed.
Lemma free_ints_ok x m l l' (Q : unit -> ledger -> Prop) :
  holds m l -> Permutation l (bl_kints x ++ l') -> (forall m', holds m' l' -> Q tt m') -> wp (k_free_ints x) m Q.
Proof.
  intros H P HQ. apply (holds_perm _ _ _ H) in P. clear H. unfold bl_kints, bl_var in P. unfold k_free_ints, h_free_var. lstep.
  eapply wp_free_opt; [exact P|rewrite <- app_assoc; reflexivity|]. intros m1 H1.
  eapply (free_bl_arr (ki_vals x)); [exact H1|reflexivity|exact HQ].
Qed.
Lemma free_strs_ok x m l l' (Q : unit -> ledger -> Prop) : ks_map x <> None ->
  holds m l -> Permutation l (bl_kstrs x ++ l') -> (forall m', holds m' l' -> Q tt m') -> wp (k_free_strs x) m Q.
Proof.
  intros NN H P HQ. apply (holds_perm _ _ _ H) in P. clear H. unfold bl_kstrs, bl_var in P. unfold k_free_strs, h_free_var. lstep.
  eapply wp_free_opt; [exact P|rewrite <- app_assoc; reflexivity|]. intros m1 H1.
  destruct (ks_map x) as [t|]; [|easy]. eapply k_deinit_ok; [exact H1|reflexivity|exact HQ].
Qed.
Lemma free_all_strs s : Forall strs_ok s -> forall m l l' (Q : unit -> ledger -> Prop),
  holds m l -> Permutation l (flat_map bl_kstrs s ++ l') -> (forall m', holds m' l' -> Q tt m') -> wp (each k_free_strs s) m Q.
Proof.
  induction 1 as [|x s X F IH]; intros m l l' Q H P HQ; cbn [each flat_map] in *.
  - lstep. apply HQ. now apply holds_perm with l.
  - lstep. eapply free_strs_ok; [exact (proj2 X)|exact H|rewrite P, <- app_assoc; reflexivity|]. intros m1 H1. now eapply IH; [exact H1|reflexivity|].
Qed.
Lemma conf_free_ok k m l (Q : unit -> ledger -> Prop) : conf_ok k -> holds m (bl_conf k ++ l) -> (forall m', holds m' l -> Q tt m') -> wp (k_free k) m Q.
Proof.
  intros (OK & _) H HQ. unfold k_free. destruct (conf_pieces k l) as (P1 & _).
  lstep. eapply wp_use; [exact H|now left|]. lstep. apply walk_ok with (bl_conf k ++ l); [exact H|exact P1|]. clear P1. unfold bl_conf in H.
  lstep. eapply (each_free_ok k_free_dom bl_kdom free_dom_ok); [exact H| |].
  { instantiate (1 := bl_arr (k_doms k) (k_doms_at k) ++ k_at k :: k_pm k :: bl_arr (k_strs k) (k_strs_at k) ++ flat_map bl_kstrs (k_strs k)
      ++ bl_arr (k_ints k) (k_ints_at k) ++ flat_map bl_kints (k_ints k) ++ l). perm. }
  clear m H. intros m H. lstep. eapply (free_bl_arr (k_doms k)); [exact H|reflexivity|]. clear m H. intros m H.
  lstep. eapply walk_ok; [exact H| |]. { intros z Hz. right. right. do 2 (apply in_or_app; right). apply in_or_app. now left. }
  lstep. eapply (each_free_ok k_free_ints bl_kints free_ints_ok); [exact H| |].
  { instantiate (1 := bl_arr (k_ints k) (k_ints_at k) ++ k_at k :: k_pm k :: bl_arr (k_strs k) (k_strs_at k) ++ flat_map bl_kstrs (k_strs k) ++ l). perm. }
  clear m H. intros m H. lstep. eapply (free_bl_arr (k_ints k)); [exact H|reflexivity|]. clear m H. intros m H.
  lstep. eapply walk_ok; [exact H| |]. { intros z Hz. right. right. apply in_or_app. now left. }
  lstep. eapply free_all_strs; [exact OK|exact H| |].
  { instantiate (1 := bl_arr (k_strs k) (k_strs_at k) ++ k_at k :: k_pm k :: l). perm. }
  clear m H. intros m H. lstep. eapply (free_bl_arr (k_strs k)); [exact H|reflexivity|]. clear m H. intros m H.
  lstep. lstep. lstep. now apply HQ.
Qed.

(** ** Programs *)
Lemma op_ok k o i c' m l (Q : Z * kconf -> ledger -> Prop) : c_op (er_conf k) o = Ok (i, c') -> roomy c' = true -> conf_ok k -> holds m (bl_conf k ++ l) ->
  (forall k' m', er_conf k' = c' -> conf_ok k' -> holds m' (bl_conf k' ++ l) -> Q (i, k') m') -> wp (k_op k o) m Q.
Proof.
  intros G R OK H HQ. destruct o as [d|a v s al|a v z al|v s|v z]; cbn [c_op k_op] in *.
  - injection G as <- <-. lstep. apply (declare_ok k d m l); [exact OK|exact H|]. intros k' m' E O' H'. lstep. now apply HQ.
  - unfold bstrdup_lit. lstep. lstep. eapply wp_malloc; [exact H|]. intros n m1 _ H1. lstep. lstep. lstep. eapply wp_malloc; [exact H1|]. intros x m2 _ H2. lstep.
    lstep. eapply (get_string_ok k (mkHV (mkHS n a) v) (mkHS x s) al i c' m2 (x :: n :: l)); [exact G|exact R|exact OK| |now left|right; now left|].
    { eapply holds_perm; [exact H2|perm]. }
    cbn [hs_at]. intros k' m3 E O' H3. lstep. eapply wp_free with (l' := n :: bl_conf k' ++ l); [exact H3|perm|]. intros m4 H4. lstep. lstep. lstep. now apply HQ.
  - unfold bstrdup_lit. lstep. lstep. eapply wp_malloc; [exact H|]. intros n m1 _ H1. lstep.
    lstep. eapply (get_ienum_ok k (mkHV (mkHS n a) v) z al i c' m1 (n :: l)); [exact G|exact OK| |now left|].
    { eapply holds_perm; [exact H1|perm]. }
    cbn [hs_at]. intros k' m3 E O' H3. lstep. eapply wp_free with (l' := bl_conf k' ++ l); [exact H3|perm|]. intros m4 H4. lstep. now apply HQ.
  - injection G as <- <-. unfold bstrdup_lit. lstep. lstep. eapply wp_malloc; [exact H|]. intros x m1 _ H1. lstep. lstep.
    eapply (try_str_ok k v (mkHS x s) m1 (x :: l)); [exact OK|eapply holds_perm; [exact H1|perm]|now left|]. cbn [hs_at hs_text].
    lstep. lstep. lstep. now apply HQ.
  - injection G as <- <-. lstep. eapply (try_ie_ok k v z m l); [exact H|]. lstep. now apply HQ.
Qed.
Lemma run_ok os : forall k is c' m l (Q : list Z * kconf -> ledger -> Prop), c_run (er_conf k) os = Ok (is, c') -> c_roomy (er_conf k) os = true ->
  conf_ok k -> holds m (bl_conf k ++ l) ->
  (forall k' m', er_conf k' = c' -> conf_ok k' -> holds m' (bl_conf k' ++ l) -> Q (is, k') m') -> wp (k_run k os) m Q.
Proof.
  induction os as [|o os IH]; intros k is c' m l Q G R OK H HQ; cbn [c_run c_roomy k_run] in *.
  - injection G as <- <-. lstep. now apply HQ.
  - destruct (c_op (er_conf k) o) as [(i & c1)| | |] eqn:E; try discriminate. cbn [bind] in G.
    apply andb_true_iff in R. destruct R as (R1 & R2).
    destruct (c_run c1 os) as [(r & c2)| | |] eqn:E2; try discriminate. cbn [bind] in G. injection G as <- <-.
    lstep. eapply op_ok; [exact E|exact R1|exact OK|exact H|]. intros k1 m1 <- O1 H1. cbv beta iota.
    lstep. eapply IH; [exact E2|exact R2|exact O1|exact H1|]. intros k2 m2 F2 O2 H2. cbv beta iota. lstep. now apply HQ.
Qed.
