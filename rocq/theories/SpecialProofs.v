(** The special predicates against their specification. *)
From Coq Require Import ZArith NArith String Ascii Bool List Lia.
From Coq Require Import ZifyBool ZifyNat ZifyN.
From Verif Require Import Base Float Value Special Ast Spec ListProofs.
Import ListNotations.
Local Open Scope Z_scope.

(** *** Frequency caps *)

(** The cap that decides: the first with the same id, namespace identifier and type. *)
Definition cap_matches (ty : ftype) (id : Z) (ns : Z) (k : fcap) : bool :=
  (fc_id k =? id) && (sv_str (fc_ns k) =? ns) && (ftype_num (fc_type k) =? ftype_num ty).

Definition cap_allows (value window now : Z) (k : fcap) : bool :=
  (fc_value k <? value)
  || ((0 <? window) && (negb (fc_tsdef k) || (window <? now - Z.quot (fc_ts k) 1000000))).

Lemma within_frequency_caps_ok caps ty id ns value window now :
  0 <= window < 2 ^ 63 ->
  within_frequency_caps caps ty id ns value window now =
  match find (cap_matches ty id (sv_str ns)) caps with
  | None => true
  | Some k => cap_allows value window now k
  end.
Proof.
  intros Hw. induction caps as [|k t IH]; [easy|]. simpl.
  unfold cap_matches at 1, ftype_eqb.
  destruct ((fc_id k =? id) && (sv_str (fc_ns k) =? sv_str ns) && (ftype_num (fc_type k) =? ftype_num ty));
    [|exact IH].
  unfold cap_allows. rewrite to_sint_small by (change (64 - 1) with 63; lia).
  rewrite !Z.gtb_ltb.
  destruct (Z.leb_spec window 0); destruct (Z.ltb_spec 0 window); try lia;
    destruct (fc_value k <? value), (fc_tsdef k), (window <? now - Z.quot (fc_ts k) 1000000); reflexivity.
Qed.

(** Equality of enum numbers is equality of types. *)
Lemma ftype_num_inj a b : ftype_num a = ftype_num b -> a = b.
Proof. destruct a, b; simpl; congruence. Qed.

(** *** Segments *)
Lemma segs_ordered_find id l :
  segs_ordered l ->
  forall (K : segment -> bool),
  (fix go (l : list segment) : bool :=
     match l with
     | [] => false
     | s :: rest => if sg_id s <? id then go rest else if sg_id s =? id then K s else false
     end) l
  = match find (fun s => sg_id s =? id) l with Some s => K s | None => false end.
Proof.
  intros H K. induction l as [|s t IH]; [easy|].
  simpl. destruct H as [H1 H2].
  destruct (Z.ltb_spec (sg_id s) id).
  - destruct (Z.eqb_spec (sg_id s) id); [lia|]. now apply IH.
  - destruct (Z.eqb_spec (sg_id s) id); [easy|].
    destruct (find (fun s => sg_id s =? id) t) eqn:E; [|easy].
    apply find_some in E. destruct E as [Hin E]. specialize (H1 _ Hin). lia.
Qed.

Lemma segment_within_ok id after segs now :
  segs_ordered segs -> segment_within id after segs now = sem_seg SegWithin segs id after now.
Proof.
  intros H. unfold sem_seg.
  rewrite <- (segs_ordered_find id segs H (fun s => now - after <=? Z.quot (sg_ts s) 1000000)).
  clear H. induction segs as [|s t IH]; [easy|]. simpl. now rewrite IH.
Qed.
Lemma segment_before_ok id before segs now :
  segs_ordered segs -> segment_before id before segs now = sem_seg SegBefore segs id before now.
Proof.
  intros H. unfold sem_seg.
  rewrite <- (segs_ordered_find id segs H (fun s => Z.quot (sg_ts s) 1000000 <? now - before)).
  clear H. induction segs as [|s t IH]; [easy|]. cbn [segment_before]. rewrite IH, Z.gtb_ltb. reflexivity.
Qed.

(** *** Strings *)
Local Open Scope string_scope.

Lemma strncmp_eq_iff v p : strncmp_eq v p = true <-> exists r, v = p ++ r.
Proof.
  revert v; induction p as [|c p IH]; intros v; simpl.
  - split; [intros _; now exists v|now destruct v].
  - destruct v as [|d v]; simpl.
    + split; [easy|]. intros (r & H). discriminate.
    + rewrite andb_true_iff, Ascii.eqb_eq, IH. split.
      * intros [-> (r & ->)]. now exists r.
      * intros (r & H). injection H as -> ->. split; [easy|now exists r].
Qed.

Lemma length_append s t : (String.length (s ++ t) = String.length s + String.length t)%nat.
Proof. induction s; simpl; auto. Qed.

Lemma contains_iff v p : contains v p = true <-> exists a b, v = a ++ p ++ b.
Proof.
  revert p; induction v as [|c v IH]; intros p; cbn [contains].
  - rewrite orb_false_r, strncmp_eq_iff. split.
    + intros (r & H). now exists EmptyString, r.
    + intros (a & b & H). destruct a; simpl in H; [now exists b|discriminate].
  - rewrite orb_true_iff, IH, strncmp_eq_iff. split.
    + intros [(r & H)|(a & b & ->)]; [now exists EmptyString, r|now exists (String c a), b].
    + intros (a & b & H). destruct a as [|d a]; simpl in H; [left; now exists b|].
      injection H as -> ->. right. now exists a, b.
Qed.

Lemma starts_with_iff v p : starts_with v p = true <-> exists b, v = p ++ b.
Proof.
  unfold starts_with. destruct (Nat.ltb_spec (String.length v) (String.length p)).
  - split; [easy|]. intros (b & ->). rewrite length_append in *. lia.
  - apply strncmp_eq_iff.
Qed.

Lemma string_drop_append a b : string_drop (String.length a) (a ++ b) = b.
Proof. induction a; simpl; auto. Qed.
Lemma string_drop_split n s : (n <= String.length s)%nat -> exists a, s = a ++ string_drop n s /\ String.length a = n.
Proof.
  revert s; induction n as [|n IH]; intros s H.
  - exists EmptyString. now destruct s.
  - destruct s as [|c s]; simpl in *; [lia|].
    destruct (IH s ltac:(lia)) as (a & E & L). exists (String c a). simpl. split; congruence.
Qed.
Lemma append_length_nil a r : String.length (a ++ r) = String.length a -> r = EmptyString.
Proof. rewrite length_append. intros H. destruct r; simpl in *; [easy|lia]. Qed.
Lemma append_nil_r s : s ++ EmptyString = s.
Proof. induction s; simpl; congruence. Qed.

Lemma ends_with_iff v p : ends_with v p = true <-> exists a, v = a ++ p.
Proof.
  unfold ends_with. destruct (Nat.ltb_spec (String.length v) (String.length p)).
  - split; [easy|]. intros (b & ->). rewrite length_append in *. lia.
  - rewrite strncmp_eq_iff. split.
    + intros (r & E).
      destruct (string_drop_split (String.length v - String.length p) v) as (a & Ea & La); [lia|].
      rewrite E in Ea. exists a.
      assert (r = EmptyString) as ->.
      { apply (f_equal String.length) in Ea. rewrite !length_append in Ea. destruct r; simpl in *; [easy|lia]. }
      now rewrite append_nil_r in Ea.
    + intros (a & ->). exists EmptyString. rewrite append_nil_r, length_append.
      replace (String.length a + String.length p - String.length p)%nat with (String.length a) by lia. apply string_drop_append.
Qed.

(** The library's [index], [prefix] and [substring] mean the same. *)
Lemma prefix_iff p s : prefix p s = true <-> exists b, s = p ++ b.
Proof.
  revert s; induction p as [|c p IH]; intros s; simpl.
  - split; [intros _; now exists s|now destruct s].
  - destruct s as [|d s]; simpl.
    + split; [easy|]. intros (b & H). discriminate.
    + destruct (ascii_dec c d) as [->|Hn].
      * rewrite IH. split; intros (b & H); exists b; congruence.
      * split; [easy|]. intros (b & H). congruence.
Qed.

Lemma index0_iff p s : (exists n, index 0 p s = Some n) <-> exists a b, s = a ++ p ++ b.
Proof.
  revert p; induction s as [|c s IH]; intros p.
  - simpl. destruct p; simpl.
    + split; [intros _; now exists EmptyString, EmptyString|eauto].
    + split; [intros (n & H); discriminate|].
      intros (a' & b & H). destruct a'; discriminate.
  - assert ((exists n, index 0 p (String c s) = Some n)
            <-> prefix p (String c s) = true \/ exists n, index 0 p s = Some n) as E.
    { cbn [index]. destruct (prefix p (String c s)) eqn:Ep.
      - split; [now left|eauto].
      - destruct (index 0 p s) as [k|]; split.
        + intros _. right; eauto.
        + intros _. eauto.
        + intros (n & H); discriminate.
        + intros [H|(n & H)]; discriminate. }
    rewrite E, prefix_iff, IH. split.
    + intros [(b & ->)|(a & b & ->)]; [now exists EmptyString, b|now exists (String c a), b].
    + intros (a & b & H). destruct a as [|d a]; simpl in H; [left; now exists b|].
      injection H as -> ->. right. now exists a, b.
Qed.

Lemma substring_all s : substring 0 (String.length s) s = s.
Proof. induction s as [|c s IH]; simpl; [easy|]. now rewrite IH. Qed.

Lemma substring_drop n s : (n <= String.length s)%nat -> substring n (String.length s - n) s = string_drop n s.
Proof.
  revert s; induction n as [|n IH]; intros s H.
  - rewrite PeanoNat.Nat.sub_0_r, substring_all. now destruct s.
  - destruct s as [|c s]; simpl in *; [lia|]. apply IH. lia.
Qed.

Lemma contains_sem v p : contains v p = sem_str StContains v p.
Proof.
  apply eq_bool_iff. rewrite contains_iff, <- index0_iff. simpl.
  destruct (index 0 p v); split; eauto; [intros (n & H)|]; discriminate.
Qed.
Lemma starts_with_sem v p : starts_with v p = sem_str StStartsWith v p.
Proof. apply eq_bool_iff. now rewrite starts_with_iff, <- prefix_iff. Qed.
Lemma ends_with_sem v p : ends_with v p = sem_str StEndsWith v p.
Proof.
  apply eq_bool_iff. rewrite ends_with_iff. simpl. rewrite andb_true_iff, Nat.leb_le, String.eqb_eq.
  split.
  - intros (a & ->). split; [rewrite length_append; lia|].
    pose proof (substring_drop (String.length a) (a ++ p)) as E.
    rewrite length_append in *.
    replace (String.length a + String.length p - String.length p)%nat with (String.length a) by lia.
    replace (String.length a + String.length p - String.length a)%nat with (String.length p) in E by lia.
    rewrite E by lia. apply string_drop_append.
  - intros [H E]. destruct (string_drop_split (String.length v - String.length p) v) as (a & Ea & La); [lia|].
    exists a. rewrite Ea at 1. f_equal. rewrite <- E at 2.
    rewrite <- substring_drop by lia. f_equal; lia.
Qed.

Lemma frequency_cap_iff caps ty id ns value window now :
  (0 <= window < 2 ^ 63)%Z ->
  within_frequency_caps caps ty id ns value window now = true <->
  match find (fun k => (fc_id k =? id) && (sv_str (fc_ns k) =? sv_str ns)
                       && (ftype_num (fc_type k) =? ftype_num ty))%Z caps with
  | None => True
  | Some k =>
      (fc_value k < value)%Z
      \/ ((0 < window)%Z /\ (fc_tsdef k = false \/ (window < now - Z.quot (fc_ts k) 1000000)%Z))
  end.
Proof.
  intros H. rewrite within_frequency_caps_ok by easy. unfold cap_matches.
  destruct (find _ caps) as [k|]; [|tauto]. unfold cap_allows.
  rewrite orb_true_iff, andb_true_iff, orb_true_iff, !Z.ltb_lt, negb_true_iff. tauto.
Qed.
Lemma segment_within_iff id seconds segs now :
  segs_ordered segs ->
  segment_within id seconds segs now = true <->
  exists s, find (fun s => sg_id s =? id)%Z segs = Some s
            /\ (now - seconds <= Z.quot (sg_ts s) 1000000)%Z.
Proof.
  intros H. rewrite segment_within_ok by easy. unfold sem_seg.
  destruct (find _ segs) as [s|]; [rewrite Z.leb_le|]; split.
  - eauto.
  - now intros (? & [= <-] & ?).
  - discriminate.
  - intros (? & ? & ?). discriminate.
Qed.
Lemma segment_before_iff id seconds segs now :
  segs_ordered segs ->
  segment_before id seconds segs now = true <->
  exists s, find (fun s => sg_id s =? id)%Z segs = Some s
            /\ (Z.quot (sg_ts s) 1000000 < now - seconds)%Z.
Proof.
  intros H. rewrite segment_before_ok by easy. unfold sem_seg.
  destruct (find _ segs) as [s|]; [rewrite Z.ltb_lt|]; split.
  - eauto.
  - now intros (? & [= <-] & ?).
  - discriminate.
  - intros (? & ? & ?). discriminate.
Qed.
