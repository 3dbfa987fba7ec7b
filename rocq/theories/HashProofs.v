(** The hash table of map.c behaves as a finite map. *)
From Coq Require Import ZArith NArith String Ascii Bool List Lia Permutation.
From Coq Require Import ZifyBool ZifyNat ZifyN.
From Verif Require Import Base Config BaseProofs HashMap.
Import ListNotations.
Local Open Scope Z_scope.

Definition contents (m : hmap) : list mnode := concat (m_buckets m).
Fixpoint find_key (l : list mnode) (key : string) : option Z :=
  match l with
  | [] => None
  | n :: t => if String.eqb (n_key n) key then Some (n_val n) else find_key t key
  end.
Definition hashed (n : mnode) : Prop := n_hash n = map_hash (n_key n).
Definition slot (len : nat) (key : string) : nat := Z.to_nat (bucketidx (Z.of_nat len) (map_hash key)).
Definition placed (bs : list (list mnode)) : Prop :=
  forall i b n, nth_error bs i = Some b -> In n b -> hashed n /\ slot (List.length bs) (n_key n) = i.
Definition pow (n : nat) : Prop := exists k, 0 <= k <= 30 /\ Z.of_nat n = 2 ^ k.
Record wf (m : hmap) : Prop := {
  wf_size : m_buckets m = [] \/ pow (List.length (m_buckets m));
  wf_placed : placed (m_buckets m);
  wf_keys : NoDup (map n_key (contents m));
  wf_count : m_nnodes m = Z.of_nat (List.length (contents m));
  wf_load : m_nnodes m <= nbuckets m }.

Lemma slot_lt n key : pow n -> (slot n key < n)%nat.
Proof.
  intros (k & K & E). unfold slot, bucketidx, to_uint. rewrite E.
  assert (0 < 2 ^ k) by (apply Z.pow_pos_nonneg; lia).
  assert (2 ^ k <= 2 ^ 30) by (apply Z.pow_le_mono_r; lia).
  rewrite (Z.mod_small (2 ^ k - 1)) by lia. replace (2 ^ k - 1) with (Z.ones k) by (rewrite Z.ones_equiv; lia). rewrite Z.land_ones by lia.
  pose proof (Z.mod_pos_bound (map_hash key) (2 ^ k)). lia.
Qed.
Lemma find_node_key l key : Forall hashed l -> find_node l (map_hash key) key = find_key l key.
Proof.
  induction 1 as [|n l H F IH]; [reflexivity|]. cbn [find_node find_key]. rewrite IH, H.
  destruct (String.eqb_spec (n_key n) key) as [->|E]; [now rewrite Z.eqb_refl|]. now rewrite andb_false_r.
Qed.
Lemma find_key_none l key : ~ In key (map n_key l) -> find_key l key = None.
Proof.
  induction l as [|n l IH]; [reflexivity|]. cbn [map In find_key]. intros H. destruct (String.eqb_spec (n_key n) key); [tauto|]. tauto.
Qed.
Lemma find_key_In l key : find_key l key = None -> ~ In key (map n_key l).
Proof.
  induction l as [|n l IH]; [easy|]. cbn [map In find_key]. destruct (String.eqb_spec (n_key n) key); [discriminate|]. tauto.
Qed.
Lemma find_key_app l l' key : find_key (l ++ l') key = match find_key l key with Some v => Some v | None => find_key l' key end.
Proof. induction l as [|n l IH]; [reflexivity|]. cbn [app find_key]. now destruct (String.eqb (n_key n) key). Qed.
Lemma find_key_perm l l' key : Permutation l l' -> NoDup (map n_key l) -> find_key l key = find_key l' key.
Proof.
  intros P. induction P as [|n l l' P IH|a b l|l l1 l2 P1 IH1 P2 IH2]; intros N.
  - reflexivity.
  - cbn [find_key]. inversion N; subst. now rewrite IH.
  - cbn [find_key]. inversion N as [|? ? N1 N2]; subst. cbn [map In] in N1.
    destruct (String.eqb_spec (n_key a) key) as [E|E]; destruct (String.eqb_spec (n_key b) key) as [F|F]; try reflexivity. exfalso. apply N1. left. congruence.
  - rewrite IH1 by assumption. apply IH2. eapply Permutation_NoDup; [|exact N]. now apply Permutation_map.
Qed.

Lemma split_nth {A} (l : list A) i : (i < List.length l)%nat -> exists pre b post,
  l = pre ++ b :: post /\ List.length pre = i /\ nth_error l i = Some b.
Proof.
  intros H. destruct (nth_error l i) as [b|] eqn:E; [|apply nth_error_None in E; lia].
  destruct (nth_error_split _ _ E) as (pre & post & -> & L). now exists pre, b, post.
Qed.
Lemma placed_keys pre b post key i : placed (pre ++ b :: post) -> List.length pre = i -> slot (List.length (pre ++ b :: post)) key = i ->
  ~ In key (map n_key (concat pre)) /\ ~ In key (map n_key (concat post)).
Proof.
  intros P L SL. split; intros K; apply in_map_iff in K; destruct K as (n & <- & K); apply in_concat in K; destruct K as (b' & B & K).
  - apply In_nth_error in B. destruct B as (j & B). assert (j < List.length pre)%nat by (apply nth_error_Some; congruence).
    destruct (P j b' n) as [_ Q]; [rewrite nth_error_app1; assumption|exact K|]. lia.
  - apply In_nth_error in B. destruct B as (j & B).
    destruct (P (List.length pre + S j)%nat b' n) as [_ Q]; [|exact K|lia].
    rewrite nth_error_app2 by lia. replace (List.length pre + S j - List.length pre)%nat with (S j) by lia. exact B.
Qed.
Lemma find_key_bucket bs key b : placed bs -> nth_error bs (slot (List.length bs) key) = Some b ->
  find_key (concat bs) key = find_key b key.
Proof.
  intros P E. destruct (nth_error_split _ _ E) as (pre & post & Q & L). subst bs. symmetry in L.
  destruct (placed_keys _ _ _ key _ P eq_refl L) as [A B].
  rewrite concat_app. cbn [concat]. rewrite !find_key_app, (find_key_none _ _ A). destruct (find_key b key); [reflexivity|]. now apply find_key_none.
Qed.
Theorem get_spec m key : wf m -> map_get m key = Ok (find_key (contents m) key).
Proof.
  intros W. unfold map_get, nbuckets. destruct (wf_size _ W) as [E|P].
  - unfold contents. rewrite E. reflexivity.
  - assert (Z.of_nat (List.length (m_buckets m)) > 0). { destruct P as (k & K & ->). apply Z.lt_gt. apply Z.pow_pos_nonneg; lia. }
    destruct (_ >? 0) eqn:G; [|lia].
    pose proof (slot_lt _ key P) as SB. fold (slot (List.length (m_buckets m)) key).
    destruct (split_nth _ _ SB) as (pre & b & post & E & L & N). rewrite N. f_equal. unfold contents.
    rewrite (find_key_bucket _ _ _ (wf_placed _ W) N). apply find_node_key.
    apply Forall_forall. intros n I. exact (proj1 (wf_placed _ W _ _ _ N I)).
Qed.

(** Adding a node. *)
Lemma push_bucket_spec bs : forall i n, (i < List.length bs)%nat -> exists bs', push_bucket bs i n = Ok bs'
  /\ List.length bs' = List.length bs /\ Permutation (concat bs') (n :: concat bs)
  /\ forall j b, nth_error bs' j = Some b -> exists b0, nth_error bs j = Some b0 /\ b = if Nat.eqb j i then n :: b0 else b0.
Proof.
  induction bs as [|b0 bs IH]; intros i n H; [cbn in H; lia|]. destruct i as [|i]; cbn [push_bucket].
  - eexists. split; [reflexivity|]. split; [reflexivity|]. split; [apply Permutation_refl|].
    intros [|j] b E; cbn in *; [injection E as <-; eauto|]. eauto.
  - cbn [List.length] in H. destruct (IH i n) as (bs' & -> & L & P & J); [lia|]. cbn [bind]. eexists. split; [reflexivity|].
    split; [cbn [List.length]; lia|]. split.
    + cbn [concat]. rewrite P. apply Permutation_sym, Permutation_middle.
    + intros [|j] b E; cbn [nth_error Nat.eqb] in *; [injection E as <-; eauto|]. eauto.
Qed.
Lemma addnode_spec bs n : pow (List.length bs) -> placed bs -> hashed n -> exists bs', addnode bs n = Ok bs'
  /\ List.length bs' = List.length bs /\ Permutation (concat bs') (n :: concat bs) /\ placed bs'.
Proof.
  intros P PL H. unfold addnode. rewrite H. fold (slot (List.length bs) (n_key n)).
  destruct (push_bucket_spec bs (slot (List.length bs) (n_key n)) n) as (bs' & E & L & PP & J); [now apply slot_lt|].
  exists bs'. split; [exact E|]. split; [exact L|]. split; [exact PP|]. intros j b x B I. rewrite L.
  destruct (J j b B) as (b0 & B0 & ->). destruct (Nat.eqb_spec j (slot (List.length bs) (n_key n))) as [->|Q].
  - destruct I as [<-|I]; [now split|]. eapply PL; eauto.
  - eapply PL; eauto.
Qed.
Lemma add_all_spec l : forall bs, pow (List.length bs) -> placed bs -> Forall hashed l -> exists bs', add_all bs l = Ok bs'
  /\ List.length bs' = List.length bs /\ Permutation (concat bs') (l ++ concat bs) /\ placed bs'.
Proof.
  induction l as [|n l IH]; intros bs P PL F; cbn [add_all].
  - exists bs. split; [reflexivity|]. split; [reflexivity|]. split; [apply Permutation_refl|exact PL].
  - inversion F; subst. destruct (addnode_spec bs n) as (b1 & -> & L1 & P1 & PL1); auto. cbn [bind].
    destruct (IH b1) as (b2 & -> & L2 & P2 & PL2); auto; [now rewrite L1|]. exists b2. split; [reflexivity|]. split; [congruence|]. split; [|exact PL2].
    rewrite P2, P1. cbn [app]. apply Permutation_sym, Permutation_middle.
Qed.
Lemma push_all_perm l : forall acc, Permutation (push_all l acc) (l ++ acc).
Proof.
  induction l as [|n l IH]; intros acc; cbn [push_all app]; [apply Permutation_refl|]. rewrite IH. apply Permutation_sym, Permutation_middle.
Qed.
Lemma chain_perm bs : Permutation (chain bs) (concat bs).
Proof. induction bs as [|b bs IH]; cbn [chain concat]; [apply Permutation_refl|]. rewrite push_all_perm. now apply Permutation_app_head. Qed.
Lemma concat_empty n : concat (repeat (@nil mnode) n) = [].
Proof. induction n as [|n IH]; cbn; auto. Qed.
Lemma placed_empty n : placed (repeat [] n).
Proof.
  intros i b x B I. apply nth_error_In in B. apply repeat_spec in B. subst b. destruct I.
Qed.
Lemma wf_hashed m : wf m -> Forall hashed (contents m).
Proof.
  intros W. apply Forall_forall. intros n I. apply in_concat in I. destruct I as (b & B & I). apply In_nth_error in B. destruct B as (i & B).
  exact (proj1 (wf_placed _ W _ _ _ B I)).
Qed.
Lemma resize_spec m n a : wf m -> 0 < n <= 2 ^ 30 -> pow (Z.to_nat n) -> nbuckets m <= n -> exists m', resize m n a = Ok (a, m')
  /\ wf m' /\ Permutation (contents m') (contents m) /\ m_nnodes m' = m_nnodes m /\ (a = true -> nbuckets m' = n).
Proof.
  intros W N PN LE. unfold resize. destruct (negb a && (nbuckets m =? 0)) eqn:E.
  - destruct a; [discriminate|]. exists m. repeat (split; try assumption; try reflexivity). discriminate.
  - set (size := if a then n else nbuckets m).
    assert (pow (Z.to_nat size)) as PS.
    { subst size. destruct a; [exact PN|]. cbn [negb andb] in E. unfold nbuckets in *. rewrite Nat2Z.id.
      destruct (wf_size _ W) as [Q|Q]; [rewrite Q in E; discriminate|exact Q]. }
    destruct (add_all_spec (chain (m_buckets m)) (repeat [] (Z.to_nat size))) as (bs & -> & L & P & PL).
    + now rewrite repeat_length.
    + apply placed_empty.
    + eapply Permutation_Forall; [apply Permutation_sym, chain_perm|]. now apply wf_hashed.
    + cbn [bind]. eexists. split; [reflexivity|]. rewrite concat_empty, app_nil_r in P. rewrite chain_perm in P. rewrite repeat_length in L.
      assert (List.length (m_buckets m) <= List.length bs)%nat as LL. { rewrite L. subst size. unfold nbuckets in *. destruct a; lia. }
      split; [|split; [exact P|split; [reflexivity|]]].
      * constructor; cbn [m_buckets m_nnodes].
        -- right. now rewrite L.
        -- exact PL.
        -- eapply Permutation_NoDup; [apply Permutation_map, Permutation_sym, P|]. exact (wf_keys _ W).
        -- unfold contents. cbn [m_buckets]. rewrite (Permutation_length P). exact (wf_count _ W).
        -- pose proof (wf_load _ W). unfold nbuckets in *. cbn [m_buckets]. lia.
      * intros ->. unfold nbuckets. cbn [m_buckets]. rewrite L. subst size. lia.
Qed.

(** Changing one bucket in place. *)
Lemma upd_split m key f : wf m -> m_buckets m <> [] -> exists pre b post,
  m_buckets m = pre ++ b :: post /\ List.length pre = slot (List.length (m_buckets m)) key
  /\ upd_bucket m (map_hash key) f = pre ++ f b :: post
  /\ ~ In key (map n_key (concat pre)) /\ ~ In key (map n_key (concat post)).
Proof.
  intros W NE. destruct (wf_size _ W) as [|P]; [easy|]. pose proof (slot_lt _ key P) as SB.
  destruct (split_nth _ _ SB) as (pre & b & post & E & L & N). exists pre, b, post. split; [exact E|]. split; [exact L|].
  assert (slot (List.length (pre ++ b :: post)) key = List.length pre) as SL by (rewrite <- E; now symmetry).
  pose proof (wf_placed _ W) as PL. rewrite E in PL. destruct (placed_keys _ _ _ key _ PL eq_refl SL) as [A B]. split; [|now split].
  unfold upd_bucket, nbuckets. fold (slot (List.length (m_buckets m)) key). rewrite N. rewrite <- L, E.
  rewrite firstn_app, firstn_all, Nat.sub_diag. cbn [firstn]. rewrite app_nil_r. f_equal. cbn [app]. f_equal.
  rewrite skipn_app, skipn_all2 by lia. replace (S (List.length pre) - List.length pre)%nat with 1%nat by lia. reflexivity.
Qed.
Lemma set_node_spec l key v : Forall hashed l -> Forall hashed (set_node l (map_hash key) key v)
  /\ map n_key (set_node l (map_hash key) key v) = map n_key l
  /\ forall k, In key (map n_key l) -> find_key (set_node l (map_hash key) key v) k = if String.eqb key k then Some v else find_key l k.
Proof.
  induction 1 as [|n l H F (I1 & I2 & I3)]; cbn [set_node].
  - split; [constructor|]. split; [reflexivity|]. intros k [].
  - destruct (String.eqb_spec (n_key n) key) as [E|E].
    + unfold hashed in H. rewrite H, E, Z.eqb_refl. cbn [andb]. split; [constructor; [reflexivity|exact F]|]. split; [cbn [map n_key]; now rewrite E|].
      intros k _. cbn [find_key n_key n_val]. rewrite ?E. destruct (String.eqb key k) eqn:Q; reflexivity.
    + rewrite andb_false_r. split; [constructor; assumption|]. split; [cbn [map]; congruence|]. intros k K. cbn [find_key].
      cbn [map In] in K. destruct K as [K|K]; [easy|]. rewrite (I3 k K). destruct (String.eqb_spec (n_key n) k) as [Q|Q]; [|reflexivity].
      destruct (String.eqb_spec key k); [congruence|reflexivity].
Qed.
Lemma drop_node_spec l key : Forall hashed l -> NoDup (map n_key l) -> Forall hashed (drop_node l (map_hash key) key)
  /\ incl (drop_node l (map_hash key) key) l
  /\ (In key (map n_key l) -> List.length l = S (List.length (drop_node l (map_hash key) key)))
  /\ NoDup (map n_key (drop_node l (map_hash key) key))
  /\ forall k, find_key (drop_node l (map_hash key) key) k = if String.eqb key k then None else find_key l k.
Proof.
  induction 1 as [|n l H F IH]; cbn [drop_node map]; intros ND.
  - split; [constructor|]. split; [apply incl_refl|]. split; [intros []|]. split; [constructor|]. intros k. now destruct (String.eqb key k).
  - inversion ND as [|? ? N1 N2]; subst. destruct (IH N2) as (I1 & I2 & I3 & I4 & I5).
    destruct (String.eqb_spec (n_key n) key) as [E|E].
    + rewrite H, E, Z.eqb_refl. cbn [andb]. split; [exact F|]. split; [intros z Z; now right|]. split; [reflexivity|]. split; [exact N2|].
      intros k. cbn [find_key]. rewrite E. destruct (String.eqb_spec key k) as [Q|Q]; [|reflexivity]. subst k. apply find_key_none. now rewrite <- E.
    + rewrite andb_false_r. split; [constructor; assumption|]. split; [intros z [Z|Z]; [now left|right; auto]|]. split; [|split].
      * intros [Q|Q]; [easy|]. cbn [List.length]. now rewrite (I3 Q).
      * cbn [map]. constructor; [|exact I4]. intros Q. apply N1. apply in_map_iff in Q. destruct Q as (z & Q & Z). apply in_map_iff. exists z. split; [exact Q|auto].
      * intros k. cbn [find_key]. rewrite I5. destruct (String.eqb_spec (n_key n) k) as [Q|Q]; [|reflexivity].
        destruct (String.eqb_spec key k); [congruence|reflexivity].
Qed.
Lemma find_concat3 pre b post key : find_key (concat (pre ++ b :: post)) key
  = match find_key (concat pre) key with Some v => Some v | None => match find_key b key with Some v => Some v | None => find_key (concat post) key end end.
Proof. rewrite concat_app. cbn [concat]. now rewrite !find_key_app. Qed.
Lemma placed_upd pre b b' post : placed (pre ++ b :: post) ->
  (forall n, In n b' -> hashed n /\ slot (List.length (pre ++ b :: post)) (n_key n) = List.length pre) -> placed (pre ++ b' :: post).
Proof.
  intros P H i c n N I. assert (List.length (pre ++ b' :: post) = List.length (pre ++ b :: post)) as -> by (rewrite !app_length; reflexivity).
  destruct (Nat.lt_ge_cases i (List.length pre)) as [Q|Q].
  - rewrite nth_error_app1 in N by exact Q. apply (P i c n); [now rewrite nth_error_app1|exact I].
  - rewrite nth_error_app2 in N by exact Q. destruct (i - List.length pre)%nat as [|j] eqn:J; cbn [nth_error] in N.
    + injection N as <-. replace i with (List.length pre) by lia. now apply H.
    + apply (P i c n); [rewrite nth_error_app2 by exact Q; now rewrite J|exact I].
Qed.

Theorem set_spec m key v a1 a2 : wf m -> m_nnodes m < 2 ^ 30 -> exists ok m', map_set m key v a1 a2 = Ok (ok, m') /\ wf m'
  /\ m_nnodes m' <= m_nnodes m + 1 /\ (a1 = true -> a2 = true -> ok = true)
  /\ forall k, find_key (contents m') k = if ok && String.eqb key k then Some v else find_key (contents m) k.
Proof.
  intros W C. unfold map_set. rewrite (get_spec _ _ W). cbn [bind]. destruct (find_key (contents m) key) as [old|] eqn:G.
  - assert (m_buckets m <> []) as NE by (intros Q; unfold contents in G; rewrite Q in G; discriminate).
    destruct (upd_split m key (fun b => set_node b (map_hash key) key v) W NE) as (pre & b & post & E & L & -> & A & B).
    exists true. eexists. split; [reflexivity|].
    assert (Forall hashed b) as HB.
    { pose proof (wf_hashed _ W) as HB. unfold contents in HB. rewrite E, concat_app in HB. cbn [concat] in HB. rewrite !Forall_app in HB. tauto. }
    destruct (set_node_spec b key v HB) as (S1 & S2 & S3).
    assert (In key (map n_key b)) as IK.
    { unfold contents in G. rewrite E, find_concat3, (find_key_none _ _ A), (find_key_none _ _ B) in G.
      destruct (in_dec string_dec key (map n_key b)) as [I|I]; [exact I|]. rewrite (find_key_none _ _ I) in G. discriminate. }
    assert (map n_key (concat (pre ++ set_node b (map_hash key) key v :: post)) = map n_key (contents m)) as MK.
    { unfold contents. rewrite E, !concat_app. cbn [concat]. now rewrite !map_app, S2. }
    split; [constructor; cbn [m_buckets m_nnodes]|].
    + right. destruct (wf_size _ W) as [Q|Q]; [easy|]. rewrite E in Q. rewrite app_length in *. exact Q.
    + pose proof (wf_placed _ W) as PL. rewrite E in PL. eapply placed_upd; [exact PL|]. intros n I. split; [rewrite Forall_forall in S1; auto|].
      assert (In (n_key n) (map n_key b)) as J by (rewrite <- S2; now apply in_map). apply in_map_iff in J. destruct J as (n' & <- & J).
      eapply (PL (List.length pre) b); [|exact J]. rewrite nth_error_app2, Nat.sub_diag by lia. reflexivity.
    + unfold contents at 1. cbn [m_buckets]. rewrite MK. exact (wf_keys _ W).
    + rewrite (wf_count _ W). f_equal. unfold contents at 2. cbn [m_buckets]. rewrite <- (map_length n_key (concat _)), MK, map_length. reflexivity.
    + pose proof (wf_load _ W). unfold nbuckets in *. cbn [m_buckets]. rewrite E in *. rewrite !app_length in *. exact H.
    + cbn [m_nnodes]. split; [lia|]. split; [reflexivity|]. intros k. unfold contents at 1. cbn [m_buckets]. unfold contents. rewrite E, !find_concat3, (S3 k IK). cbn [andb].
      destruct (String.eqb_spec key k) as [<-|Q]; [now rewrite (find_key_none _ _ A)|reflexivity].
  - apply find_key_In in G. destruct a1; cbn [negb].
    2: { exists false, m. split; [reflexivity|]. split; [exact W|]. split; [lia|]. split; [discriminate|]. intros k. reflexivity. }
    assert (exists ok m1, grow m a2 = Ok (ok, m1)
      /\ wf m1 /\ Permutation (contents m1) (contents m) /\ m_nnodes m1 = m_nnodes m /\ (ok = true -> m_nnodes m1 < nbuckets m1) /\ (a2 = true -> ok = true)) as R.
    { unfold grow. destruct (m_nnodes m >=? nbuckets m) eqn:Q.
      - cbv zeta. rewrite Z.shiftl_mul_pow2 by lia. change (2 ^ 1) with 2.
        pose proof (wf_load _ W) as LD. unfold nbuckets in *.
        set (n := if Z.of_nat (List.length (m_buckets m)) >? 0 then Z.of_nat (List.length (m_buckets m)) * 2 else 1).
        assert (0 < n <= 2 ^ 30 /\ pow (Z.to_nat n) /\ Z.of_nat (List.length (m_buckets m)) < n) as (N1 & N2 & N3).
        { subst n. destruct (wf_size _ W) as [Z0|(k & K & P)].
          - rewrite Z0. cbn [List.length Z.of_nat Z.gtb Z.compare]. split; [lia|]. split; [|lia]. exists 0. split; [lia|reflexivity].
          - rewrite P in *. assert (0 < 2 ^ k) by (apply Z.pow_pos_nonneg; lia). destruct (2 ^ k >? 0) eqn:Y; [|lia].
            assert (k < 30). { destruct (Z.eq_dec k 30) as [->|]; lia. }
            assert (2 ^ (k + 1) = 2 ^ k * 2) as PK by (rewrite Z.pow_add_r by lia; reflexivity).
            assert (2 ^ (k + 1) <= 2 ^ 30) by (apply Z.pow_le_mono_r; lia).
            split; [lia|]. split; [|lia]. exists (k + 1). split; [lia|]. lia. }
        destruct (n >? 2 ^ 30) eqn:Y; [lia|]. destruct (resize_spec m n a2 W N1 N2) as (m' & -> & W' & P & C' & NB); [unfold nbuckets; lia|].
        exists a2, m'. split; [reflexivity|]. split; [exact W'|]. split; [exact P|]. split; [exact C'|]. split; [|easy].
        intros ->. specialize (NB eq_refl). unfold nbuckets in NB. lia.
      - exists true, m. split; [reflexivity|]. split; [exact W|]. split; [apply Permutation_refl|]. split; [reflexivity|]. split; [lia|reflexivity]. }
    destruct R as (ok & m1 & -> & W1 & P1 & C1 & L1 & A2). cbn [bind]. destruct ok; cbn [negb].
    2: { exists false, m1. split; [reflexivity|]. split; [exact W1|]. split; [lia|]. split; [intros _ Q; specialize (A2 Q); discriminate|]. intros k.
         cbn [andb]. apply find_key_perm; [exact P1|exact (wf_keys _ W1)]. }
    specialize (L1 eq_refl). pose proof (wf_count _ W1) as CT.
    assert (pow (List.length (m_buckets m1))) as PW. { destruct (wf_size _ W1) as [Q|Q]; [unfold nbuckets in L1; rewrite Q in L1; cbn in L1; lia|exact Q]. }
    destruct (addnode_spec (m_buckets m1) (mkN (map_hash key) key v) PW (wf_placed _ W1) eq_refl) as (bs & -> & LB & PB & PLB). cbn [bind].
    assert (0 <= m_nnodes m1 + 1 < 2 ^ 32) as SM by lia.
    exists true. eexists. split; [reflexivity|]. unfold to_uint. rewrite (Z.mod_small (m_nnodes m1 + 1)) by exact SM.
    assert (NoDup (map n_key (mkN (map_hash key) key v :: contents m1))) as ND.
    { cbn [map n_key]. constructor; [|exact (wf_keys _ W1)]. intros Q. apply G. eapply Permutation_in; [|exact Q]. now apply Permutation_map. }
    split; [constructor; cbn [m_buckets m_nnodes]|].
    + right. now rewrite LB.
    + exact PLB.
    + eapply Permutation_NoDup; [|exact ND]. apply Permutation_map, Permutation_sym. exact PB.
    + unfold contents at 1. cbn [m_buckets]. rewrite (Permutation_length PB). cbn [List.length]. fold (contents m1). lia.
    + unfold nbuckets in *. cbn [m_buckets]. lia.
    + cbn [m_nnodes]. split; [lia|]. split; [reflexivity|]. intros k.
      transitivity (find_key (mkN (map_hash key) key v :: contents m1) k).
      * symmetry. apply find_key_perm; [apply Permutation_sym; exact PB|exact ND].
      * cbn [find_key n_key n_val andb]. destruct (String.eqb key k); [reflexivity|]. apply find_key_perm; [exact P1|exact (wf_keys _ W1)].
Qed.
Theorem remove_spec m key : wf m -> m_nnodes m <= 2 ^ 30 -> exists m', map_remove m key = Ok m' /\ wf m' /\ m_nnodes m' <= m_nnodes m
  /\ forall k, find_key (contents m') k = if String.eqb key k then None else find_key (contents m) k.
Proof.
  intros W C. unfold map_remove. rewrite (get_spec _ _ W). cbn [bind]. destruct (find_key (contents m) key) as [old|] eqn:G.
  - assert (m_buckets m <> []) as NE by (intros Q; unfold contents in G; rewrite Q in G; discriminate).
    destruct (upd_split m key (fun b => drop_node b (map_hash key) key) W NE) as (pre & b & post & E & L & -> & A & B).
    eexists. split; [reflexivity|].
    pose proof (wf_keys _ W) as ND. unfold contents in ND. rewrite E, concat_app in ND. cbn [concat] in ND. rewrite !map_app in ND.
    assert (Forall hashed b) as HB.
    { pose proof (wf_hashed _ W) as HB. unfold contents in HB. rewrite E, concat_app in HB. cbn [concat] in HB. rewrite !Forall_app in HB. tauto. }
    assert (NoDup (map n_key b)) as NB.
    { revert ND. generalize (map n_key (concat pre)) as l1. induction l1 as [|z l1 IH]; cbn [app]; intros ND; [|inversion ND; auto].
      revert ND. generalize (map n_key (concat post)) as l3. induction (map n_key b) as [|z l2 IH]; intros l3 ND; [constructor|].
      inversion ND; subst. constructor; [|eapply IH; eauto]. intros Q. apply H1. apply in_or_app. now left. }
    destruct (drop_node_spec b key HB NB) as (S1 & S2 & S3 & S4 & S5).
    assert (In key (map n_key b)) as IK.
    { unfold contents in G. rewrite E, find_concat3, (find_key_none _ _ A), (find_key_none _ _ B) in G.
      destruct (in_dec string_dec key (map n_key b)) as [I|I]; [exact I|]. rewrite (find_key_none _ _ I) in G. discriminate. }
    specialize (S3 IK). pose proof (wf_count _ W) as CT. pose proof (wf_load _ W) as LD.
    assert (List.length (contents m) = S (List.length (concat (pre ++ drop_node b (map_hash key) key :: post)))) as LC.
    { unfold contents. rewrite E, !concat_app. cbn [concat]. rewrite !app_length. lia. }
    unfold to_uint. rewrite Z.mod_small by lia.
    split; [constructor; cbn [m_buckets m_nnodes]|].
    + right. destruct (wf_size _ W) as [Q|Q]; [easy|]. rewrite E in Q. rewrite app_length in *. exact Q.
    + pose proof (wf_placed _ W) as PL. rewrite E in PL. eapply placed_upd; [exact PL|]. intros n I. split; [rewrite Forall_forall in S1; auto|].
      eapply (PL (List.length pre) b); [|exact (S2 _ I)]. rewrite nth_error_app2, Nat.sub_diag by lia. reflexivity.
    + unfold contents. cbn [m_buckets]. rewrite concat_app. cbn [concat]. rewrite !map_app. clear - ND S2 S4.
      assert (forall z, In z (map n_key (drop_node b (map_hash key) key)) -> In z (map n_key b)) as S2'.
      { intros z Z. apply in_map_iff in Z. destruct Z as (n & <- & Z). apply in_map. auto. }
      revert ND. generalize (map n_key (concat pre)) as l1. induction l1 as [|z l1 IH]; cbn [app]; intros ND.
      * revert ND S2' S4. generalize (map n_key (drop_node b (map_hash key) key)) as l'. generalize (map n_key (concat post)) as l3. generalize (map n_key b) as l2.
        intros l2 l3 l' ND S2' S4. induction l' as [|z l' IH]; cbn [app].
        -- clear - ND. induction l2 as [|y l2 IH]; [exact ND|]. inversion ND; subst; auto.
        -- inversion S4; subst. constructor.
           ++ intros Q. apply in_app_or in Q. destruct Q as [Q|Q]; [easy|]. clear IH. specialize (S2' z (or_introl eq_refl)). clear - ND S2' Q.
              induction l2 as [|y l2 IH]; [destruct S2'|]. cbn [app] in ND. inversion ND; subst. destruct S2' as [->|S2']; [apply H1, in_or_app; now right|auto].
           ++ apply IH; [|assumption]. intros y Y. apply S2'. now right.
      * inversion ND; subst. constructor; [|auto]. intros Q. apply H1. apply in_app_or in Q. apply in_or_app. destruct Q as [Q|Q]; [now left|right].
        apply in_app_or in Q. apply in_or_app. destruct Q as [Q|Q]; [left; auto|now right].
    + unfold contents at 1. cbn [m_buckets]. lia.
    + unfold nbuckets in *. cbn [m_buckets]. rewrite E in *. rewrite !app_length in *. cbn [List.length] in *. lia.
    + cbn [m_nnodes]. split; [lia|]. intros k. unfold contents at 1. cbn [m_buckets]. unfold contents. rewrite E, !find_concat3, S5.
      destruct (String.eqb_spec key k) as [<-|Q]; [|reflexivity]. now rewrite (find_key_none _ _ A), (find_key_none _ _ B).
  - exists m. split; [reflexivity|]. split; [exact W|]. split; [lia|]. intros k. destruct (String.eqb_spec key k) as [<-|]; [exact G|reflexivity].
Qed.
Lemma wf_init : wf map_init.
Proof.
  constructor; cbn; try reflexivity; try lia.
  - now left.
  - intros i b n B. destruct i; discriminate.
  - constructor.
Qed.

Theorem run_spec ops : forall m, wf m -> m_nnodes m + Z.of_nat (List.length ops) <= 2 ^ 30 -> exists m' oks,
  map_run m ops = Ok (m', oks) /\ wf m' /\ List.length oks = List.length ops
  /\ (Forall no_failure ops -> Forall (fun b => b = true) oks)
  /\ forall key, find_key (contents m') key = last_stored ops oks key (find_key (contents m) key).
Proof.
  induction ops as [|[k v a1 a2|k] ops IH]; intros m W C; cbn [map_run].
  - exists m, []. split; [reflexivity|]. split; [exact W|]. split; [reflexivity|]. split; [constructor|]. reflexivity.
  - cbn [List.length] in C. destruct (set_spec m k v a1 a2 W) as (ok & m1 & -> & W1 & C1 & A & G); [lia|]. cbn [bind].
    destruct (IH m1 W1) as (m2 & oks & -> & W2 & L & A2 & G2); [lia|]. cbn [bind]. exists m2, (ok :: oks). split; [reflexivity|].
    split; [exact W2|]. split; [cbn [List.length]; lia|]. split.
    + intros F. inversion F as [|? ? F1 F3]; subst. cbn in F1. destruct F1 as [F1 F2]. constructor; auto.
    + intros key. cbn [last_stored]. rewrite G2, G. reflexivity.
  - cbn [List.length] in C. destruct (remove_spec m k W) as (m1 & -> & W1 & C1 & G); [lia|]. cbn [bind].
    destruct (IH m1 W1) as (m2 & oks & -> & W2 & L & A2 & G2); [lia|]. cbn [bind]. exists m2, (true :: oks). split; [reflexivity|].
    split; [exact W2|]. split; [cbn [List.length]; lia|]. split.
    + intros F. inversion F; subst. constructor; auto.
    + intros key. cbn [last_stored]. rewrite G2, G. reflexivity.
Qed.

(** Iteration. *)
Definition rest (m : hmap) (it : miter) : list mnode := tl (it_nodes it) ++ concat (skipn (Z.to_nat (to_uint 32 (it_bucket it + 1))) (m_buckets m)).
Lemma next_bucket_spec bs : forall i, match next_bucket bs i with
  | None => concat bs = []
  | Some (k, it) => exists n b j, i <= it_bucket it /\ it_nodes it = n :: b /\ k = n_key n /\ j = Z.to_nat (it_bucket it - i)
      /\ (j < List.length bs)%nat /\ concat bs = n :: b ++ concat (skipn (S j) bs)
  end.
Proof.
  induction bs as [|[|n b] bs IH]; intros i; cbn [next_bucket]; [reflexivity| |].
  - specialize (IH (i + 1)). destruct (next_bucket bs (i + 1)) as [[k it]|]; [|exact IH].
    destruct IH as (n & b & j & I1 & I2 & I3 & I4 & I5 & I6). exists n, b, (S j). split; [lia|]. split; [exact I2|]. split; [exact I3|].
    split; [lia|]. cbn [List.length]. split; [lia|]. exact I6.
  - exists n, b, 0%nat. cbn [it_bucket it_nodes]. split; [lia|]. split; [reflexivity|]. split; [reflexivity|]. split; [lia|]. cbn [List.length]. split; [lia|]. reflexivity.
Qed.
Lemma skipn_plus {A} i j (l : list A) : skipn j (skipn i l) = skipn (i + j) l.
Proof. revert l. induction i as [|i IH]; intros l; [reflexivity|]. destruct l as [|a l]; [now rewrite !skipn_nil|]. cbn [skipn Nat.add]. apply IH. Qed.
Lemma next_spec m it : nbuckets m <= 2 ^ 30 -> match map_next m it with
  | None => rest m it = []
  | Some (k, it') => exists n, rest m it = n :: rest m it' /\ k = n_key n
  end.
Proof.
  intros C. unfold map_next, rest. destruct (it_nodes it) as [|n0 [|n t]] eqn:E; cbn [tl].
  3: { exists n. cbn [it_bucket it_nodes tl app]. now split. }
  all: cbn [app]; set (i := to_uint 32 (it_bucket it + 1)); pose proof (next_bucket_spec (skipn (Z.to_nat i) (m_buckets m)) i) as N;
    destruct (next_bucket _ i) as [[k it']|]; [|exact N]; destruct N as (n & b & j & I1 & I2 & I3 & I4 & I5 & I6);
    exists n; split; [|exact I3]; rewrite I6, I2; cbn [tl]; f_equal; f_equal; rewrite skipn_plus; f_equal; f_equal;
    rewrite skipn_length in I5; unfold nbuckets in C;
    assert (0 <= i) by (subst i; unfold to_uint; apply Z.mod_pos_bound; lia);
    unfold to_uint; rewrite Z.mod_small; lia.
Qed.
Theorem iterate_spec m : nbuckets m <= 2 ^ 30 -> forall l it, rest m it = l -> forall n, (List.length l < n)%nat ->
  iterate n m it = (map n_key l, true).
Proof.
  intros C. induction l as [|x l IH]; intros it R n L; (destruct n as [|n]; [lia|]); cbn [iterate]; pose proof (next_spec m it C) as N;
    destruct (map_next m it) as [[k it']|].
  - destruct N as (y & N & _). congruence.
  - reflexivity.
  - destruct N as (y & N & ->). rewrite R in N. injection N as -> N. cbn [List.length] in L. rewrite (IH it' (eq_sym N) n) by lia. reflexivity.
  - congruence.
Qed.
Lemma wf_nbuckets m : wf m -> nbuckets m <= 2 ^ 30.
Proof.
  intros W. unfold nbuckets. destruct (wf_size _ W) as [->|(k & K & ->)]; [cbn; lia|]. apply Z.pow_le_mono_r; lia.
Qed.
Theorem iterate_all m : wf m -> forall n, (List.length (contents m) < n)%nat -> iterate n m map_iter = (map n_key (contents m), true).
Proof.
  intros W n L. apply iterate_spec; [now apply wf_nbuckets| |exact L]. unfold rest, map_iter, contents. cbn [it_nodes it_bucket tl app].
  replace (Z.to_nat (to_uint 32 (to_uint 32 (-1) + 1))) with 0%nat by reflexivity. reflexivity.
Qed.

(** The string tables of config.c. *)
Lemma string_table_spec l : forall m n, wf m -> m_nnodes m + Z.of_nat (List.length l) <= 2 ^ 30 -> NoDup l ->
  (forall s, In s l -> find_key (contents m) s = None) ->
  exists m', string_table_from m n l = Ok m' /\ wf m'
    /\ forall s, find_key (contents m') s = match Config.index_of String.eqb l s n with Some i => Some i | None => find_key (contents m) s end.
Proof.
  induction l as [|s l IH]; intros m n W C ND F; cbn [string_table_from].
  - exists m. split; [reflexivity|]. split; [exact W|]. reflexivity.
  - cbn [List.length] in C. destruct (set_spec m s n true true W) as (ok & m1 & -> & W1 & C1 & A & G); [lia|]. cbn [bind].
    rewrite (A eq_refl eq_refl) in G. cbn [andb] in G. inversion ND as [|? ? N1 N2]; subst.
    destruct (IH m1 (n + 1) W1) as (m2 & -> & W2 & G2); [lia|exact N2| |].
    + intros z Z. rewrite G. destruct (String.eqb_spec s z) as [->|]; [easy|]. apply F. now right.
    + exists m2. split; [reflexivity|]. split; [exact W2|]. intros z. rewrite G2, G. cbn [Config.index_of].
      destruct (String.eqb_spec s z) as [->|E]; [|reflexivity].
      assert (forall i, Config.index_of String.eqb l z i = None) as ->; [|reflexivity].
      clear - N1. induction l as [|y l IH]; intros i; [reflexivity|]. cbn [Config.index_of]. destruct (String.eqb_spec y z) as [->|]; [exfalso; apply N1; now left|].
      apply IH. intros Q. apply N1. now right.
Qed.
