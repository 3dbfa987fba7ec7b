(** Sorting, binary search and the merge loops of the list predicates. *)
From Coq Require Import ZArith NArith List Bool Lia Sorting.Sorted Sorting.Permutation.
From Coq Require Import ZifyBool ZifyNat ZifyN.
From Verif Require Import Base Value Match.
Import ListNotations.
Local Open Scope Z_scope.

Definition memb (z : Z) (l : list Z) : bool := existsb (Z.eqb z) l.

Lemma memb_In z l : memb z l = true <-> In z l.
Proof.
  unfold memb. rewrite existsb_exists. split.
  - intros (y & H & E). apply Z.eqb_eq in E. now subst.
  - intros H. exists z. split; [easy|apply Z.eqb_refl].
Qed.

Lemma memb_false z l : memb z l = false <-> ~ In z l.
Proof. rewrite <- memb_In. destruct (memb z l); split; congruence. Qed.

Lemma eq_bool_iff (a b : bool) : (a = true <-> b = true) -> a = b.
Proof. destruct a, b; intros [H1 H2]; try easy; [symmetry|]; auto. Qed.

(** Weakly and strictly increasing lists. *)
Definition incr (l : list Z) : Prop := StronglySorted Z.le l.
Definition sincr (l : list Z) : Prop := StronglySorted Z.lt l.

Lemma sincr_incr l : sincr l -> incr l.
Proof.
  induction 1 as [|x t H IH HF]; constructor; auto.
  eapply Forall_impl; [|exact HF]. intros; lia.
Qed.

Lemma sincr_NoDup l : sincr l -> NoDup l.
Proof.
  induction 1 as [|x t H IH HF]; constructor; auto.
  intros Hin. rewrite Forall_forall in HF. specialize (HF x Hin). lia.
Qed.

Lemma incr_NoDup_sincr l : incr l -> NoDup l -> sincr l.
Proof.
  induction 1 as [|x t H IH HF]; intros ND; constructor.
  - apply IH. now inversion ND.
  - inversion ND; subst. rewrite Forall_forall in *. intros y Hy.
    specialize (HF y Hy). assert (x <> y) by congruence. lia.
Qed.

(** *** Sorting *)
Section SortKey.
  Context {A : Type} (key : A -> Z).

  Lemma insert_key_perm x l : Permutation (insert_key key x l) (x :: l).
  Proof.
    induction l as [|y t IH]; simpl; [easy|].
    destruct (key x <=? key y); [easy|].
    rewrite IH. apply perm_swap.
  Qed.
  Lemma sort_key_perm l : Permutation (sort_key key l) l.
  Proof.
    induction l as [|x t IH]; simpl; [easy|]. rewrite insert_key_perm. now rewrite IH.
  Qed.
  Lemma sort_key_In x l : In x (sort_key key l) <-> In x l.
  Proof.
    split; apply Permutation_in; [apply sort_key_perm|apply Permutation_sym, sort_key_perm].
  Qed.
  Lemma length_sort_key l : length (sort_key key l) = length l.
  Proof. apply Permutation_length, sort_key_perm. Qed.

  Lemma insert_key_sorted x l : incr (map key l) -> incr (map key (insert_key key x l)).
  Proof.
    unfold incr. induction l as [|y t IH]; simpl; intros H; [repeat constructor|].
    inversion H as [|? ? Ht HF]; subst.
    destruct (Z.leb_spec (key x) (key y)); simpl.
    - constructor; [easy|]. constructor; [easy|].
      eapply Forall_impl; [|exact HF]. intros; simpl in *; lia.
    - constructor; [now apply IH|].
      apply Forall_forall. intros z Hz. apply in_map_iff in Hz. destruct Hz as (w & <- & Hw).
      apply (Permutation_in w (insert_key_perm x t)) in Hw. destruct Hw as [<-|Hw]; [lia|].
      rewrite Forall_forall in HF. apply HF. now apply in_map.
  Qed.
  Lemma sort_key_sorted l : incr (map key (sort_key key l)).
  Proof.
    induction l as [|x t IH]; simpl; [constructor|]. now apply insert_key_sorted.
  Qed.

  Lemma dedup_from_sub y l x : In x (dedup_from key y l) -> In x l.
  Proof.
    revert y; induction l as [|z t IH]; intros y; simpl; [easy|].
    destruct (key y =? key z); simpl; [intros H; right; eauto|].
    intros [->|H]; [now left|right; eauto].
  Qed.

  Lemma dedup_from_key y l k :
    In k (map key (y :: dedup_from key y l)) <-> In k (map key (y :: l)).
  Proof.
    revert y; induction l as [|z t IH]; intros y; [easy|].
    cbn [dedup_from]. destruct (Z.eqb_spec (key y) (key z)) as [E|E].
    - rewrite IH. simpl. intuition congruence.
    - specialize (IH z). simpl in *. tauto.
  Qed.

  Lemma dedup_from_sincr y l :
    incr (map key (y :: l)) -> sincr (map key (y :: dedup_from key y l)).
  Proof.
    revert y; induction l as [|z t IH]; intros y H.
    - simpl. repeat constructor.
    - cbn [dedup_from]. destruct (Z.eqb_spec (key y) (key z)) as [E|E].
      + apply IH. simpl in *. inversion H as [|? ? H1 H2]; subst.
        inversion H1 as [|? ? H3 H4]; subst. constructor; [easy|].
        inversion H2; subst. easy.
      + simpl in *. inversion H as [|? ? H1 H2]; subst.
        constructor; [now apply IH|].
        inversion H2 as [|? ? H3 H4]; subst.
        inversion H1 as [|? ? H5 H6]; subst.
        constructor; [lia|].
        apply Forall_forall. intros k Hk. apply in_map_iff in Hk. destruct Hk as (w & <- & Hw).
        apply dedup_from_sub in Hw.
        rewrite Forall_forall in H6. specialize (H6 (key w) (in_map key _ _ Hw)). lia.
  Qed.

  Lemma dedup_key l k : In k (map key (dedup key l)) <-> In k (map key l).
  Proof. destruct l as [|x t]; [easy|]. apply dedup_from_key. Qed.
  Lemma dedup_sincr l : incr (map key l) -> sincr (map key (dedup key l)).
  Proof. destruct l as [|x t]; [intros; constructor|]. apply dedup_from_sincr. Qed.
  Lemma dedup_sub l x : In x (dedup key l) -> In x l.
  Proof. destruct l as [|y t]; [easy|]. simpl. intros [H|H]; [now left|right; eapply dedup_from_sub; eauto]. Qed.
  Lemma length_dedup_from y l : (length (dedup_from key y l) <= length l)%nat.
  Proof.
    revert y; induction l as [|z t IH]; intros y; simpl; [easy|].
    destruct (key y =? key z); simpl; [specialize (IH y)|specialize (IH z)]; lia.
  Qed.
  Lemma length_dedup l : (length (dedup key l) <= length l)%nat.
  Proof. destruct l as [|y t]; simpl; [easy|]. pose proof (length_dedup_from y t). lia. Qed.
End SortKey.

Lemma sort_ints_In z l : In z (sort_ints l) <-> In z l.
Proof.
  unfold sort_ints.
  pose proof (dedup_key (fun z : Z => z) (sort_key (fun z => z) l) z) as H. rewrite !map_id in H.
  rewrite H. apply sort_key_In.
Qed.
Lemma sort_ints_sincr l : sincr (sort_ints l).
Proof.
  unfold sort_ints.
  pose proof (dedup_sincr (fun z : Z => z) (sort_key (fun z => z) l)) as H. rewrite !map_id in H.
  apply H. pose proof (sort_key_sorted (fun z : Z => z) l) as H'. now rewrite map_id in H'.
Qed.
Lemma sort_strs_key k l : In k (map sv_str (sort_strs l)) <-> In k (map sv_str l).
Proof.
  unfold sort_strs. rewrite dedup_key. rewrite !in_map_iff.
  split; intros (x & E & H); exists x; split; auto; now apply sort_key_In in H || apply sort_key_In.
Qed.
Lemma sort_strs_sincr l : sincr (map sv_str (sort_strs l)).
Proof. apply dedup_sincr, sort_key_sorted. Qed.
Lemma sort_strs_sub x l : In x (sort_strs l) -> In x l.
Proof. intros H. apply dedup_sub in H. now apply sort_key_In in H. Qed.

Lemma length_sort_ints l : (length (sort_ints l) <= length l)%nat.
Proof. unfold sort_ints. rewrite length_dedup, length_sort_key. easy. Qed.
Lemma length_sort_strs l : (length (sort_strs l) <= length l)%nat.
Proof. unfold sort_strs. rewrite length_dedup, length_sort_key. easy. Qed.

Lemma sort_key_id_incr l : incr (sort_key (fun z : Z => z) l).
Proof. pose proof (sort_key_sorted (fun z : Z => z) l) as H. now rewrite map_id in H. Qed.

(** *** Binary search *)
Lemma incr_nth l i j x y :
  incr l -> (i <= j)%nat -> nth_error l i = Some x -> nth_error l j = Some y -> x <= y.
Proof.
  intros H. revert i j; induction H as [|z t Ht IH HF]; intros i j Hij Hi Hj.
  - destruct i; discriminate.
  - destruct i as [|i], j as [|j]; simpl in *; try lia.
    + assert (x = y) by congruence. lia.
    + injection Hi as <-. apply nth_error_In in Hj. rewrite Forall_forall in HF. now apply HF.
    + eapply IH; [|exact Hi|exact Hj]; lia.
Qed.

Lemma bsearch_ok fuel l x imin imax :
  incr l -> 0 <= imin <= imax + 1 -> imax < Z.of_nat (length l) -> imax - imin + 1 < Z.of_nat fuel ->
  (forall i y, nth_error l i = Some y -> Z.of_nat i < imin -> y < x) ->
  (forall i y, nth_error l i = Some y -> imax < Z.of_nat i -> x < y) ->
  bsearch fuel l imin imax x = Ok (memb x l).
Proof.
  intros Hl. revert imin imax; induction fuel as [|fuel IH]; intros imin imax H0 Hmax Hf HL HR.
  { (* empty interval *)
    exfalso. lia. }
  simpl. rewrite Z.geb_leb. destruct (Z.leb_spec imin imax) as [Hle|Hgt].
  - set (imid := imin + (imax - imin) / 2).
    assert (imin <= imid <= imax) as Hmid.
    { unfold imid. assert (0 <= (imax - imin) / 2) by (apply Z.div_pos; lia).
      assert ((imax - imin) / 2 <= imax - imin) by (apply Z.div_le_upper_bound; lia). lia. }
    destruct (Z.ltb_spec imid 0); [lia|].
    destruct (nth_error l (Z.to_nat imid)) as [y|] eqn:Ey.
    2:{ apply nth_error_None in Ey. lia. }
    destruct (Z.eqb_spec y x) as [->|Hyx].
    + f_equal. symmetry. apply memb_In. eapply nth_error_In; eauto.
    + destruct (Z.ltb_spec y x).
      * apply IH; try lia; auto.
        intros i z Hi Hlt. destruct (Z.lt_ge_cases (Z.of_nat i) imin); [eauto|].
        assert (z <= y) by (eapply incr_nth; [exact Hl| |exact Hi|exact Ey]; lia). lia.
      * apply IH; try lia; auto.
        intros i z Hi Hlt. destruct (Z.lt_ge_cases imax (Z.of_nat i)); [eauto|].
        assert (y <= z) by (eapply incr_nth; [exact Hl| |exact Ey|exact Hi]; lia). lia.
  - f_equal. symmetry. apply memb_false. intros Hin.
    apply In_nth_error in Hin. destruct Hin as (i & Hi).
    destruct (Z.lt_ge_cases (Z.of_nat i) imin) as [Hc|Hc].
    + specialize (HL i x Hi Hc). lia.
    + specialize (HR i x Hi ltac:(lia)). lia.
Qed.

Lemma to_sint_small b z : 0 <= z < 2 ^ (b - 1) -> 0 < b -> to_sint b z = z.
Proof.
  intros H Hb. unfold to_sint.
  assert (2 ^ b = 2 * 2 ^ (b - 1)) as E.
  { replace b with (1 + (b - 1)) at 1 by lia. rewrite Z.pow_add_r by lia. reflexivity. }
  rewrite Z.mod_small by lia. destruct (Z.ltb_spec z (2 ^ (b - 1))); lia.
Qed.

Lemma binary_search_ok l x :
  incr l -> Z.of_nat (length l) < 2 ^ 31 -> binary_search l x = Ok (memb x l).
Proof.
  intros Hl Hlen. unfold binary_search.
  rewrite to_sint_small by (change (32 - 1) with 31; lia).
  apply bsearch_ok; try lia; auto.
  intros i y Hi Hgt. assert (nth_error l i <> None) as Hn by congruence.
  apply nth_error_Some in Hn. lia.
Qed.

(** *** Merge loops *)
Lemma incr_lt_notin x y t : incr (y :: t) -> x < y -> ~ In x (y :: t).
Proof.
  intros H Hlt [->|Hin]; [lia|]. inversion H as [|? ? ? HF]; subst.
  rewrite Forall_forall in HF. specialize (HF x Hin). lia.
Qed.

Lemma incr_tail x t : incr (x :: t) -> incr t.
Proof. now inversion 1. Qed.
Lemma sincr_tail x t : sincr (x :: t) -> sincr t.
Proof. now inversion 1. Qed.

Lemma merge_meet_nil_r xs : merge_meet xs [] = false.
Proof. now destruct xs. Qed.

Lemma merge_meet_ok xs ys :
  incr xs -> incr ys -> merge_meet xs ys = existsb (fun x => memb x ys) xs.
Proof.
  revert ys; induction xs as [|x xs IH]; intros ys Hx Hy; [now destruct ys|].
  induction ys as [|y ys IHy].
  - simpl. symmetry. apply not_true_is_false. intros H. apply existsb_exists in H.
    destruct H as (z & _ & H). discriminate.
  - change (existsb (fun z => memb z (y :: ys)) (x :: xs))
      with (memb x (y :: ys) || existsb (fun z => memb z (y :: ys)) xs).
    cbn [merge_meet]. destruct (Z.eqb_spec x y) as [->|Hne].
    + symmetry. apply orb_true_iff. left. apply memb_In. now left.
    + destruct (Z.ltb_spec y x) as [Hlt|Hge].
      * (* skip y *)
        change (merge_meet (x :: xs) ys = memb x (y :: ys) || existsb (fun z => memb z (y :: ys)) xs).
        rewrite IHy by (eapply incr_tail; eauto).
        apply eq_bool_iff. simpl existsb at 1.
        rewrite !orb_true_iff, !existsb_exists.
        assert (~ In y (x :: xs)) as Hn by now apply incr_lt_notin.
        split; intros [H|(z & Hz & H)].
        -- left. apply memb_In in H. apply memb_In. now right.
        -- right. exists z; split; auto. apply memb_In in H. apply memb_In. now right.
        -- left. apply memb_In in H. apply memb_In. destruct H as [->|H]; [exfalso; apply Hn; now left|easy].
        -- right. exists z; split; auto. apply memb_In in H. apply memb_In.
           destruct H as [->|H]; [exfalso; apply Hn; now right|easy].
      * rewrite IH; [|eapply incr_tail; eauto|easy].
        assert (memb x (y :: ys) = false) as Hn.
        { apply memb_false. apply incr_lt_notin; [easy|lia]. }
        rewrite Hn. reflexivity.
Qed.

Lemma existsb_memb_comm xs ys : existsb (fun x => memb x ys) xs = existsb (fun y => memb y xs) ys.
Proof.
  apply eq_bool_iff. rewrite !existsb_exists.
  split; intros (z & H1 & H2); apply memb_In in H2; exists z; (split; [easy|now apply memb_In]).
Qed.

Lemma match_not_all_of_ok var cst :
  incr var -> incr cst -> match_not_all_of var cst = existsb (fun x => memb x var) cst.
Proof.
  intros Hv Hc. unfold match_not_all_of.
  destruct (_ <? _)%nat; rewrite merge_meet_ok by easy; [apply existsb_memb_comm|easy].
Qed.

Lemma merge_all_ok ys xs :
  incr ys -> sincr xs -> merge_all ys xs = forallb (fun x => memb x ys) xs.
Proof.
  revert xs; induction ys as [|y ys IH]; intros xs Hy Hx.
  - destruct xs; easy.
  - destruct xs as [|x xs]; [easy|].
    simpl merge_all. destruct (Z.ltb_spec y x) as [Hlt|Hge].
    + rewrite IH; [|eapply incr_tail; eauto|easy].
      assert (~ In y (x :: xs)) as Hn.
      { apply incr_lt_notin; [now apply sincr_incr|lia]. }
      apply eq_bool_iff. rewrite !forallb_forall. split; intros H z Hz; specialize (H z Hz);
        rewrite memb_In in *; [now right|destruct H as [->|H]; [contradiction|easy]].
    + destruct (Z.eqb_spec x y) as [->|Hne].
      * rewrite IH; [|eapply incr_tail; eauto|eapply sincr_tail; eauto].
        apply eq_bool_iff. rewrite !forallb_forall. split.
        -- intros H z [<-|Hz]; [apply memb_In; now left|].
           specialize (H z Hz). rewrite memb_In in *. now right.
        -- intros H z Hz. specialize (H z (or_intror Hz)). rewrite memb_In in *.
           destruct H as [<-|H]; [|easy].
           apply sincr_NoDup in Hx. inversion Hx; contradiction.
      * symmetry. simpl forallb. apply andb_false_iff. left.
        change (memb x (y :: ys) = false). apply memb_false, incr_lt_notin; [easy|lia].
Qed.

Lemma match_all_of_ok var cst :
  incr var -> sincr cst -> match_all_of var cst = forallb (fun x => memb x var) cst.
Proof.
  intros Hv Hc. unfold match_all_of. destruct (Nat.leb_spec (length cst) (length var)) as [H|H].
  - now apply merge_all_ok.
  - symmetry. apply not_true_is_false. intros HF. rewrite forallb_forall in HF.
    assert (incl cst var) as Hi. { intros z Hz. apply memb_In. auto. }
    pose proof (NoDup_incl_length (sincr_NoDup _ Hc) Hi). lia.
Qed.
