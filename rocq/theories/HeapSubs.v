(** What numbering predicates, making subscriptions and releasing the index do to memory. *)
From Coq Require Import ZArith NArith String Bool List Lia Permutation.
From Coq Require Import ZifyBool ZifyNat ZifyN.
From Verif Require Import Base Float Value Ast Config Assign Special Match Bound Tree RbTree PredMap Source Api Linked LinkedApi.
From Verif Require Import BisonTables Machine Ledger HeapExpr HeapSpec HeapEvent HeapEventSpec HeapConf HeapConfSpec HeapWorld.
From Verif Require Import BaseProofs PermTac LedgerProofs HeapProofs HeapEventProofs HeapRules HeapFill HeapConfProofs.
From Verif Require Import LinkedSpec LinkedHeap LinkedFrame HeapPasses HeapWorldSpec.
Import ListNotations.
Local Open Scope Z_scope.

(** ** Reading *)
Lemma read_ok e m l (Q : unit -> ledger -> Prop) : HeapSpec.holds m l -> incl (blocks e) l -> Q tt m -> wp (h_read e) m Q.
Proof. intros H I HQ. exact (each_use_ok _ m l Q H I HQ). Qed.
Lemma conf_read_ok k m l (Q : unit -> ledger -> Prop) : HeapSpec.holds m l -> incl (bl_conf k) l -> Q tt m -> wp (k_read k) m Q.
Proof. intros H I HQ. exact (each_use_ok _ m l Q H I HQ). Qed.
Lemma conf_read_all_ok k m l (Q : unit -> ledger -> Prop) : conf_ok k -> HeapSpec.holds m l -> incl (bl_conf k) l -> Q tt m -> wp (k_read_all k) m Q.
Proof.
  intros (OK & _) H I HQ. unfold k_read_all.
  assert (E : existsb (fun x => match ks_map x with None => true | Some _ => false end) (k_strs k) = false).
  { apply not_true_is_false. intros E. apply existsb_exists in E. destruct E as (x & J & E). rewrite Forall_forall in OK. destruct (OK x J) as (_ & N). now destruct (ks_map x). }
  rewrite E. exact (each_use_ok _ m l Q H I HQ).
Qed.
Lemma each_ok {A} (f : A -> cmd unit) s m : (forall x (Q : unit -> ledger -> Prop), In x s -> Q tt m -> wp (f x) m Q) ->
  forall Q : unit -> ledger -> Prop, Q tt m -> wp (each f s) m Q.
Proof.
  induction s as [|x t IH]; intros F Q HQ; cbn [each]; [now lstep|]. lstep. apply F; [now left|]. apply IH; [|exact HQ]. intros y R J. apply F. now right.
Qed.
Lemma in_flat {A B} (f : A -> list B) x s : In x s -> incl (f x) (flat_map f s).
Proof. intros I z Z. apply in_flat_map. now exists x. Qed.
Lemma read_subs_ok us m l (Q : unit -> ledger -> Prop) : HeapSpec.holds m l -> incl (bl_subs us) l -> Q tt m -> wp (w_read_subs us) m Q.
Proof.
  intros H I HQ. apply each_ok; [|exact HQ]. intros x R J HR. apply (each_use_ok _ m l R H); [|exact HR].
  intros z Z. apply I. exact (in_flat (fun x => bl_hsub (snd x)) x us J z Z).
Qed.
Lemma read_keys_ok rb keys m l (Q : unit -> ledger -> Prop) : HeapSpec.holds m l -> In rb l -> incl (map fst keys) l -> incl (key_blocks keys) l -> Q tt m -> wp (w_read_keys rb keys) m Q.
Proof.
  intros H J I1 I2 HQ. unfold w_read_keys. lstep. eapply wp_use; [exact H|exact J|]. apply each_ok; [|exact HQ]. intros x R K HR. lstep.
  eapply wp_use; [exact H|apply I1; now apply in_map|]. apply (read_ok _ m l R H); [|exact HR].
  intros z Z. apply I2. exact (in_flat (fun x => blocks (snd x)) x keys K z Z).
Qed.

(** ** Bounds *)
Lemma change_from_keep c e : forall ds v ds', change_from c v ds e = Ok ds' ->
  Forall2 (fun d d' => d_attr d' = d_attr d /\ d_undef d' = d_undef d) ds ds'.
Proof.
  induction ds as [|d ds IH]; intros v ds' H; cbn [change_from] in H; [injection H as <-; constructor|].
  apply bind_ok in H. destruct H as (d' & D & H). apply bind_ok in H. destruct H as (t' & T & H). injection H as <-.
  constructor; [|exact (IH _ _ T)]. destruct (skip_domain (d_bound d)); [injection D as <-; now split|].
  apply bind_ok in D. destruct D as ([b|] & _ & D); [|injection D as <-; now split]. apply bind_ok in D. destruct D as (b' & _ & D). injection D as <-. now split.
Qed.
Lemma set_bounds_ok s : forall ds, Forall2 (fun d d' => d_attr d' = d_attr d /\ d_undef d' = d_undef d) (map er_dom s) ds ->
  map er_dom (set_bounds s ds) = ds /\ flat_map bl_kdom (set_bounds s ds) = flat_map bl_kdom s /\ List.length (set_bounds s ds) = List.length s.
Proof.
  induction s as [|d t IH]; intros ds F; cbn [map] in F; inversion F as [|x y s1 s2 (E1 & E2) F' X Y]; subst; cbn [set_bounds]; [now repeat split|].
  destruct (IH _ F') as (I1 & I2 & I3). cbn [map flat_map List.length]. rewrite I1, I2, I3. repeat split. f_equal. unfold er_dom at 1.
  cbn [kd_attr kd_bound kd_undef]. cbn [er_dom d_attr d_undef] in E1, E2. rewrite <- E1, <- E2. now destruct y.
Qed.
Lemma change_ok k e c' m l (Q : kconf -> ledger -> Prop) : change_boundaries (er_conf k) (er_expr e) = Ok c' -> conf_ok k ->
  HeapSpec.holds m (bl_conf k ++ l) -> incl (blocks e) l ->
  (forall k', er_conf k' = c' -> conf_ok k' -> bl_conf k' = bl_conf k -> Q k' m) -> wp (k_change k e) m Q.
Proof.
  intros E OK H I HQ. unfold k_change. lstep. apply (conf_read_ok k m _ _ H); [intros z Z; apply in_or_app; now left|].
  lstep. apply (read_ok e m _ _ H); [intros z Z; apply in_or_app; right; now apply I|]. lstep. eapply wp_fail; [exact E|]. lstep.
  unfold change_boundaries in E. apply bind_ok in E. destruct E as (ds & E & F). injection F as <-.
  apply change_from_keep in E. destruct (set_bounds_ok (k_doms k) ds E) as (S1 & S2 & S3). cbn [set_domains c_domains].
  apply HQ.
  - unfold er_conf, set_domains. cbn [k_set_doms k_doms k_cap k_minpart k_maxsplit k_strs k_ints c_cap c_minpart c_maxsplit c_strs c_ints]. now rewrite S1.
  - destruct OK as (O1 & O2 & O3 & O4 & O5). split; [exact O1|]. split; [exact O2|]. split; [|now split].
    intros N. apply O3. cbn [k_set_doms k_doms] in N. rewrite N in S3. now destruct (k_doms k).
  - unfold bl_conf. cbn [k_set_doms k_at k_pm k_doms_at k_doms k_strs_at k_strs k_ints_at k_ints]. rewrite S2.
    now rewrite (bl_arr_len _ (k_doms k) (k_doms_at k) S3).
Qed.

(** ** Predicates *)
Lemma assign_node_gid m e x m' : assign_node m e = Ok (x, m') -> x = set_gid (gid x) e.
Proof.
  unfold assign_node. destruct (rb_find _ _ _) as [f|].
  - destruct (nthN _ _) as [i|]; [|discriminate]. destruct (i =? INVALID_PRED)%N; intros [= <- _]; now destruct e.
  - intros E. apply bind_ok in E. destruct E as (t & _ & E). injection E as <- _. now destruct e.
Qed.
Lemma set_gid_er g e : er_expr (h_set_gid g e) = set_gid g (er_expr e) /\ blocks (h_set_gid g e) = blocks e.
Proof. now destruct e. Qed.
Lemma assign_node_ok rb pm keys e e' pm' m l g (Q : hexpr * preds -> ledger -> Prop) : assign_node pm (er_expr e) = Ok (e', pm') ->
  HeapSpec.holds m (blocks e ++ rb :: map fst keys ++ l) -> incl (key_blocks keys) (blocks e ++ g) -> incl g l ->
  (forall x keys' m', er_expr x = e' -> blocks x = blocks e -> HeapSpec.holds m' (blocks e ++ rb :: map fst keys' ++ l) ->
    incl (key_blocks keys') (blocks e ++ g) -> Q (x, (pm', keys')) m') -> wp (h_assign_node rb (pm, keys) e) m Q.
Proof.
  intros E H I GI HQ. unfold h_assign_node. lstep. apply (read_ok e m _ _ H); [intros z Z; apply in_or_app; now left|].
  lstep. apply (read_keys_ok rb keys m _ _ H); [apply in_or_app; right; now left|intros z Z; rewrite in_app_iff; cbn [In]; rewrite in_app_iff; tauto| |].
  { intros z Z. specialize (I z Z). specialize (GI z). rewrite in_app_iff in *. cbn [In]. rewrite in_app_iff. tauto. }
  lstep. eapply wp_fail; [exact E|]. cbv beta iota. pose proof (assign_node_gid _ _ _ _ E) as G. destruct (set_gid_er (gid e') e) as (G1 & G2).
  destruct (pm_count pm =? pm_count pm')%N; [lstep; apply HQ; try assumption; now rewrite G1|].
  lstep. eapply wp_malloc; [exact H|]. intros a m' _ H'. lstep. apply HQ; try assumption; [now rewrite G1| |].
  - eapply HeapSpec_perm; [exact H'|]. rewrite map_app. cbn [map fst]. perm.
  - unfold key_blocks. rewrite flat_map_app. intros z Z. apply in_app_or in Z. destruct Z as [Z|Z]; [exact (I z Z)|].
    cbn [flat_map snd] in Z. rewrite app_nil_r, G2 in Z. apply in_or_app. now left.
Qed.
Lemma assign_pred_ok rb : forall e pm keys e' pm' m l g (Q : hexpr * preds -> ledger -> Prop), assign_pred pm (er_expr e) = Ok (e', pm') ->
  HeapSpec.holds m (blocks e ++ rb :: map fst keys ++ l) -> incl (key_blocks keys) (blocks e ++ g) -> incl g l ->
  (forall x keys' m', er_expr x = e' -> blocks x = blocks e -> HeapSpec.holds m' (blocks e ++ rb :: map fst keys' ++ l) ->
    incl (key_blocks keys') (blocks e ++ g) -> Q (x, (pm', keys')) m') -> wp (h_assign_pred rb (pm, keys) e) m Q.
Proof.
  induction e as [a gg p|a gg x IHx y IHy|a gg x IHx y IHy|a gg x IHx]; intros pm keys e' pm' m l g Q E H I GI HQ; cbn [er_expr assign_pred h_assign_pred h_at blocks] in *.
  - lstep. lstep. exact (assign_node_ok rb pm keys (HLeaf a gg p) e' pm' m l g Q E H I GI HQ).
  - apply bind_ok in E. destruct E as ((x', p1) & E1 & E). apply bind_ok in E. destruct E as ((y', p2) & E2 & E). lstep. lstep. lstep.
    apply (IHx pm keys x' p1 m (a :: blocks y ++ l) (a :: blocks y ++ g) _ E1); [eapply HeapSpec_perm; [exact H|perm]| |intros z Z; specialize (GI z); cbn [In] in *; rewrite in_app_iff in *; tauto|].
    { intros z Z. specialize (I z Z). cbn [app In] in *. repeat rewrite in_app_iff in *. cbn [In] in *. repeat rewrite in_app_iff in *. tauto. }
    intros u k1 m1 U1 U2 H1 I1. lstep.
    apply (IHy p1 k1 y' p2 m1 (a :: blocks x ++ l) (a :: blocks x ++ g) _ E2); [eapply HeapSpec_perm; [exact H1|perm]| |intros z Z; specialize (GI z); cbn [In] in *; rewrite in_app_iff in *; tauto|].
    { intros z Z. specialize (I1 z Z). cbn [app In] in *. repeat rewrite in_app_iff in *. cbn [In] in *. repeat rewrite in_app_iff in *. tauto. }
    intros v k2 m2 V1 V2 H2 I2.
    assert (B : blocks (HAnd a gg u v) = a :: blocks x ++ blocks y) by (cbn [blocks]; now rewrite U2, V2).
    apply (assign_node_ok rb p2 k2 (HAnd a gg u v) e' pm' m2 l g); [cbn [er_expr]; now rewrite U1, V1| | | |]; try rewrite B.
    + eapply HeapSpec_perm; [exact H2|perm].
    + intros z Z. specialize (I2 z Z). cbn [app In] in *. repeat rewrite in_app_iff in *. cbn [In] in *. repeat rewrite in_app_iff in *. tauto.
    + exact GI.
    + rewrite ?B. exact HQ.
  - apply bind_ok in E. destruct E as ((x', p1) & E1 & E). apply bind_ok in E. destruct E as ((y', p2) & E2 & E). lstep. lstep. lstep.
    apply (IHx pm keys x' p1 m (a :: blocks y ++ l) (a :: blocks y ++ g) _ E1); [eapply HeapSpec_perm; [exact H|perm]| |intros z Z; specialize (GI z); cbn [In] in *; rewrite in_app_iff in *; tauto|].
    { intros z Z. specialize (I z Z). cbn [app In] in *. repeat rewrite in_app_iff in *. cbn [In] in *. repeat rewrite in_app_iff in *. tauto. }
    intros u k1 m1 U1 U2 H1 I1. lstep.
    apply (IHy p1 k1 y' p2 m1 (a :: blocks x ++ l) (a :: blocks x ++ g) _ E2); [eapply HeapSpec_perm; [exact H1|perm]| |intros z Z; specialize (GI z); cbn [In] in *; rewrite in_app_iff in *; tauto|].
    { intros z Z. specialize (I1 z Z). cbn [app In] in *. repeat rewrite in_app_iff in *. cbn [In] in *. repeat rewrite in_app_iff in *. tauto. }
    intros v k2 m2 V1 V2 H2 I2.
    assert (B : blocks (HOr a gg u v) = a :: blocks x ++ blocks y) by (cbn [blocks]; now rewrite U2, V2).
    apply (assign_node_ok rb p2 k2 (HOr a gg u v) e' pm' m2 l g); [cbn [er_expr]; now rewrite U1, V1| | | |]; try rewrite B.
    + eapply HeapSpec_perm; [exact H2|perm].
    + intros z Z. specialize (I2 z Z). cbn [app In] in *. repeat rewrite in_app_iff in *. cbn [In] in *. repeat rewrite in_app_iff in *. tauto.
    + exact GI.
    + rewrite ?B. exact HQ.
  - apply bind_ok in E. destruct E as ((x', p1) & E1 & E). lstep. lstep. lstep.
    apply (IHx pm keys x' p1 m (a :: l) (a :: g) _ E1); [eapply HeapSpec_perm; [exact H|perm]| |intros z Z; specialize (GI z); cbn [In] in *; tauto|].
    { intros z Z. specialize (I z Z). cbn [app In] in *. repeat rewrite in_app_iff in *. cbn [In] in *. tauto. }
    intros u k1 m1 U1 U2 H1 I1.
    assert (B : blocks (HNot a gg u) = a :: blocks x) by (cbn [blocks]; now rewrite U2).
    apply (assign_node_ok rb p1 k1 (HNot a gg u) e' pm' m1 l g); [cbn [er_expr]; now rewrite U1| | | |]; try rewrite B.
    + eapply HeapSpec_perm; [exact H1|perm].
    + intros z Z. specialize (I1 z Z). cbn [app In] in *. repeat rewrite in_app_iff in *. cbn [In] in *. tauto.
    + exact GI.
    + rewrite ?B. exact HQ.
Qed.
Lemma free_keys_ok rb keys m l l' (Q : unit -> ledger -> Prop) : HeapSpec.holds m l -> Permutation l (rb :: map fst keys ++ l') ->
  (forall m', HeapSpec.holds m' l' -> Q tt m') -> wp (w_free_keys rb keys) m Q.
Proof.
  intros H P HQ. unfold w_free_keys. lstep.
  apply (each_free_ok (fun x : Z * hexpr => free (fst x)) (fun x => [fst x])) with (l := l) (l' := rb :: l').
  - intros x m1 l1 l1' R H1 P1 HR. exact (wp_free m1 l1 (fst x) l1' R H1 P1 HR).
  - exact H.
  - rewrite P. rewrite <- (flat_map_single fst keys). perm.
  - intros m1 H1. eapply wp_free; [exact H1|reflexivity|]. exact HQ.
Qed.

(** ** Subscriptions *)
Lemma make_sub_ok k id e s h m l (Q : N * heap * hsub -> ledger -> Prop) : make_sub (er_conf k) id (er_expr e) = Ok s -> conf_ok k ->
  HeapSpec.holds m (bl_conf k ++ blocks e ++ l) ->
  (forall v p f m', HeapSpec.holds m' (bl_conf k ++ bl_hsub (mkHU e v p f) ++ l) -> Q (fst (alloc (OSub s) h), snd (alloc (OSub s) h), mkHU e v p f) m') ->
  wp (w_make_sub k id e h) m Q.
Proof.
  intros E OK H HQ. unfold w_make_sub. lstep. apply (conf_read_ok k m _ _ H); [intros z Z; apply in_or_app; now left|].
  lstep. eapply wp_malloc; [exact H|]. intros v m1 _ H1. lstep.
  apply (read_ok e m1 _ _ H1); [intros z Z; right; apply in_or_app; right; apply in_or_app; now left|].
  lstep. eapply wp_malloc; [exact H1|]. intros p m2 _ H2. lstep. eapply wp_malloc; [exact H2|]. intros f m3 _ H3. lstep. eapply wp_fail; [exact E|].
  destruct (alloc (OSub s) h) as (x, h') eqn:A. lstep. cbn [fst snd] in HQ. apply HQ. unfold bl_hsub. cbn [hu_expr hu_vars hu_pass hu_fail].
  eapply HeapSpec_perm; [exact H3|perm].
Qed.
Lemma make_sub_expr_is c id e s : make_sub c id e = Ok s -> s_expr s = e.
Proof. unfold make_sub. intros E. apply bind_ok in E. destruct E as (v & _ & E). destruct (fill_sc _ _ _ _ _) as (p, f). now injection E as <-. Qed.
Lemma insert_ok n k us x root h h' m l (Q : heap -> ledger -> Prop) : p_insert n (er_conf k) x root NULL h = Ok h' -> conf_ok k ->
  HeapSpec.holds m l -> incl (bl_conf k) l -> incl (bl_subs us) l -> Q h' m -> wp (w_insert n k us x root h) m Q.
Proof.
  intros E OK H I1 I2 HQ. unfold w_insert. lstep. apply (conf_read_ok k m l _ H I1). lstep. apply (read_subs_ok us m l _ H I2). eapply wp_fail; [exact E|exact HQ].
Qed.

(** ** Releasing the index *)
Lemma get_sub_cell h x s : get_sub h x = Ok s -> cell (h_cells h) x = Some (OSub s).
Proof. unfold get_sub, load. destruct (cell (h_cells h) x) as [o|]; [|discriminate]. cbn. destruct o; try discriminate. now intros [= ->]. Qed.
Lemma del_sub l x s : cell l x = Some (OSub s) -> Permutation (subs_of l) ((x, s) :: subs_of (del_cell l x)).
Proof.
  induction l as [|(b, o) t IH]; [discriminate|]. cbn [cell del_cell]. destruct (N.eqb_spec x b) as [->|N].
  - intros [= ->]. cbn [subs_of flat_map]. reflexivity.
  - intros C. cbn [subs_of flat_map]. rewrite (IH C). apply Permutation_sym, Permutation_middle.
Qed.
Lemma sub_at_some us x : In x (map fst us) -> exists u, sub_at us x = Some u /\ Permutation us ((x, u) :: sub_gone us x).
Proof.
  induction us as [|(a, u) t IH]; [intros []|]. cbn [map fst sub_at sub_gone]. destruct (N.eqb_spec x a) as [->|N]; [intros _; now exists u|].
  intros [E|I]; [now elim N|]. destruct (IH I) as (v & E & P). exists v. split; [exact E|]. rewrite P at 1. apply perm_swap.
Qed.
Lemma view_keys us : map fst (view us) = map fst us.
Proof. unfold view. rewrite map_map. reflexivity. Qed.
Lemma sview_keys h : map fst (sview h) = map fst (subs_of (h_cells h)).
Proof. unfold sview. rewrite map_map. reflexivity. Qed.
Lemma paired_keys us h : wfh h -> paired us h -> NoDup (map fst us).
Proof.
  intros (D & _) P. rewrite <- view_keys. eapply Permutation_NoDup; [apply Permutation_map, Permutation_sym, P|].
  rewrite sview_keys. now apply subs_keys.
Qed.
Lemma bl_subs_perm a b : Permutation a b -> Permutation (bl_subs a) (bl_subs b).
Proof. intros P. now apply Permutation_flat_map. Qed.

Definition frees (l : list Z) (r : heap -> result heap) (c : hus -> cmd hus) : Prop :=
  forall h us m h' (Q : hus -> ledger -> Prop), r h = Ok h' -> wfh h -> paired us h -> HeapSpec.holds m (bl_subs us ++ l) ->
  (forall us' m', wfh h' -> paired us' h' -> HeapSpec.holds m' (bl_subs us' ++ l) -> Q (h', us') m') -> wp (c (h, us)) m Q.

Lemma frees_ret l : frees l (fun h => Ok h) (fun s => ret s).
Proof. intros h us m h' Q E W P H HQ. injection E as <-. lstep. now apply HQ. Qed.
Lemma frees_bind l r c r' c' : frees l r c -> frees l r' c' -> frees l (fun h => bind (r h) r') (fun s => then_ (c s) c').
Proof.
  intros F1 F2 h us m h' Q E W P H HQ. apply bind_ok in E. destruct E as (h1 & E1 & E2). lstep.
  apply (F1 h us m h1 _ E1 W P H). intros us1 m1 W1 P1 H1. exact (F2 h1 us1 m1 h' Q E2 W1 P1 H1 HQ).
Qed.
Lemma frees_drop l a : frees l (fun h => drop h a) (fun s => w_drop s a).
Proof.
  intros h us m h' Q E W P H HQ. unfold w_drop. cbn [fst snd]. lstep. eapply wp_fail; [exact E|]. lstep.
  destruct (kept_drop (subs_of (h_cells h)) h a (conj W eq_refl) h' E) as (W' & K). apply HQ; [exact W'| |exact H].
  unfold paired, sview. rewrite K. exact P.
Qed.
Lemma frees_sub l x : frees l (fun h => if (x =? NULL)%N then Ok h else bind (get_sub h x) (fun _ => release h x)) (w_free_sub x).
Proof.
  intros h us m h' Q E W P H HQ. unfold w_free_sub. cbn [fst snd]. destruct (x =? NULL)%N eqn:N; [injection E as <-; lstep; now apply HQ|].
  apply bind_ok in E. destruct E as (s & G & R). lstep. eapply wp_fail; [exact G|]. pose proof (get_sub_cell _ _ _ G) as C.
  assert (I : In x (map fst us)).
  { rewrite <- view_keys. eapply Permutation_in; [apply Permutation_map, Permutation_sym, P|]. rewrite sview_keys. apply in_map_iff. exists (x, s).
    split; [reflexivity|]. apply subs_in. exact (cell_some _ _ _ C). }
  destruct (sub_at_some us x I) as (u & A & U). rewrite A. pose proof (bl_subs_perm _ _ U) as B. cbn [bl_subs flat_map snd] in B. fold (bl_subs (sub_gone us x)) in B.
  set (g := bl_subs (sub_gone us x)) in *. unfold bl_hsub in B.
  lstep. apply (wp_free m _ _ (blocks (hu_expr u) ++ [hu_pass u; hu_fail u] ++ g ++ l) _ H); [rewrite B; perm|]. intros m1 H1.
  lstep. eapply HeapProofs.free_ok; [exact H1|reflexivity|].
  intros m2 H2. cbn [app] in H2. lstep. eapply wp_free; [exact H2|reflexivity|]. intros m3 H3. lstep. eapply wp_free; [exact H3|reflexivity|]. intros m4 H4. lstep.
  eapply wp_fail; [exact R|]. lstep. apply HQ; [exact (wfh_release _ _ _ W R)| |exact H4].
  unfold release in R. rewrite N, C in R. injection R as <-.
  assert (V : Permutation (view us) ((x, er_expr (hu_expr u)) :: view (sub_gone us x))).
  { exact (Permutation_map (fun x => (fst x, er_expr (hu_expr (snd x)))) U). }
  pose proof (Permutation_map (fun x => (fst x, s_expr (snd x))) (del_sub _ _ _ C)) as D. cbn [map fst snd] in D.
  assert (X : er_expr (hu_expr u) = s_expr s).
  { apply (key_fun (view us) x); [rewrite view_keys; exact (paired_keys _ _ W P)|rewrite V; now left|].
    eapply Permutation_in; [apply Permutation_sym, P|]. unfold sview. rewrite D. now left. }
  apply (Permutation_cons_inv (a := (x, s_expr s))). unfold sview. cbn [h_cells]. rewrite <- D, <- X, <- V. exact P.
Qed.
Lemma frees_eq l r r' c : (forall h, r' h = r h) -> frees l r c -> frees l r' c.
Proof. intros E F h us m h' Q R. rewrite E in R. exact (F h us m h' Q R). Qed.
Lemma frees_subs l : forall s, frees l (free_subs s) (w_free_subs s).
Proof.
  induction s as [|x t IH]; [exact (frees_ret l)|].
  eapply frees_eq; [|exact (frees_bind l _ _ _ _ (frees_sub l x) IH)]. intros h. cbn [free_subs]. destruct (x =? NULL)%N; [reflexivity|].
  destruct (get_sub h x); reflexivity.
Qed.
Lemma frees_fail {A} l (g : heap -> result A) (r : A -> heap -> result heap) (c : A -> hus -> cmd hus) : (forall x, frees l (r x) (c x)) ->
  frees l (fun h => bind (g h) (fun x => r x h)) (fun s => then_ (fail (g (fst s))) (fun x => c x s)).
Proof.
  intros F h us m h' Q E W P H HQ. apply bind_ok in E. destruct E as (x & E1 & E2). lstep. cbn [fst]. eapply wp_fail; [exact E1|].
  exact (F x h us m h' Q E2 W P H HQ).
Qed.
Lemma frees_if l (b : bool) r c r' c' : frees l r c -> frees l r' c' -> frees l (fun h => if b then r h else r' h) (fun s => if b then c s else c' s).
Proof. now destruct b. Qed.
Lemma frees_lnode l a : frees l (free_lnode a) (w_free_lnode a).
Proof.
  unfold free_lnode, w_free_lnode. apply frees_if; [exact (frees_ret l)|]. apply frees_fail. intros (((b, n), sa), mx). apply frees_fail. intros s.
  apply (frees_bind l (free_subs s) (w_free_subs s)); [apply frees_subs|].
  apply (frees_bind l (fun h => drop h sa) (fun s => w_drop s sa)); apply frees_drop.
Qed.
Lemma frees_nodes l : forall n,
  (forall a, frees l (free_cnode n a) (w_free_cnode n a)) /\ (forall a, frees l (free_pdir n a) (w_free_pdir n a)) /\
  (forall a, frees l (free_pnodes n a) (w_free_pnodes n a)) /\ (forall a, frees l (free_pnode n a) (w_free_pnode n a)) /\
  (forall a, frees l (free_cdir n a) (w_free_cdir n a)).
Proof.
  induction n as [|n (I1 & I2 & I3 & I4 & I5)]; [repeat split; intros a h us m h' Q E; discriminate E|].
  split; [|split; [|split; [|split]]]; intros a; cbn [free_cnode free_pdir free_pnodes free_pnode free_cdir w_free_cnode w_free_pdir w_free_pnodes w_free_pnode w_free_cdir].
  - apply frees_if; [exact (frees_ret l)|]. apply frees_fail. intros ((b, la), pd).
    apply (frees_bind l (free_lnode la) (w_free_lnode la)); [apply frees_lnode|].
    apply (frees_bind l (free_pdir n pd) (w_free_pdir n pd)); [apply I2|apply frees_drop].
  - apply frees_if; [exact (frees_ret l)|]. apply frees_fail. intros ((b, k), pa). apply frees_fail. intros s.
    apply (frees_bind l (free_pnodes n s) (w_free_pnodes n s)); [apply I3|].
    apply (frees_bind l (fun h => drop h pa) (fun s => w_drop s pa)); apply frees_drop.
  - destruct a as [|a t]; [exact (frees_ret l)|]. apply (frees_bind l (free_pnode n a) (w_free_pnode n a)); [apply I4|apply I3].
  - apply frees_if; [exact (frees_ret l)|]. apply frees_fail. intros ((((b, c), sa), cd), f).
    apply (frees_bind l (fun h => drop h sa) (fun s => w_drop s sa)); [apply frees_drop|].
    apply (frees_bind l (free_cdir n cd) (w_free_cdir n cd)); [apply I5|apply frees_drop].
  - apply frees_if; [exact (frees_ret l)|]. apply frees_fail. intros (((((((b, c), d), sa), e), cn), x), y).
    apply (frees_bind l (fun h => drop h sa) (fun s => w_drop s sa)); [apply frees_drop|].
    apply (frees_bind l (free_cnode n cn) (w_free_cnode n cn)); [apply I1|].
    apply (frees_bind l (free_cdir n x) (w_free_cdir n x)); [apply I5|].
    apply (frees_bind l (free_cdir n y) (w_free_cdir n y)); [apply I5|apply frees_drop].
Qed.
