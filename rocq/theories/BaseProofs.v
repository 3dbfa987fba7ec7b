(** Facts about arrays, bit sets and outcomes. *)
From Coq Require Import ZArith NArith List Bool Lia.
From Coq Require Import ZifyBool ZifyNat ZifyN.
From Verif Require Import Base Match.
Import ListNotations.
Local Open Scope N_scope.

(** *** Outcomes *)
Lemma bind_ok {A B} (r : result A) (f : A -> result B) b :
  bind r f = Ok b -> exists a, r = Ok a /\ f a = Ok b.
Proof. destruct r; simpl; intros H; try discriminate; eauto. Qed.

(** Split every `do` of an equation [H : ... = Ok _]. *)
Ltac inv_do H :=
  match type of H with
  | bind ?r ?f = Ok _ =>
      let a := fresh "a" in let E := fresh "E" in
      apply bind_ok in H; destruct H as (a & E & H); cbn beta in H; try (inv_do H)
  end.

(** *** Arrays *)
Lemma nthN_nth {A} (l : list A) n : nthN l n = nth_error l (N.to_nat n).
Proof.
  revert n; induction l as [|x t IH]; intros n; simpl.
  - now destruct (N.to_nat n).
  - destruct (N.eqb_spec n 0) as [->|H]; [reflexivity|].
    rewrite IH. replace (N.to_nat n) with (S (N.to_nat (N.pred n))) by lia. reflexivity.
Qed.

Lemma nthN_Some_lt {A} (l : list A) n x : nthN l n = Some x -> n < N.of_nat (length l).
Proof.
  rewrite nthN_nth; intros H.
  assert (nth_error l (N.to_nat n) <> None) as H' by congruence.
  apply nth_error_Some in H'; lia.
Qed.

Lemma nthN_lt {A} (l : list A) n : n < N.of_nat (length l) -> exists x, nthN l n = Some x.
Proof.
  intros H. rewrite nthN_nth. destruct (nth_error l (N.to_nat n)) eqn:E; [eauto|].
  apply nth_error_None in E; lia.
Qed.

Lemma nthN_None {A} (l : list A) n : nthN l n = None <-> N.of_nat (length l) <= n.
Proof. rewrite nthN_nth, nth_error_None; lia. Qed.

Lemma nthN_In {A} (l : list A) n x : nthN l n = Some x -> In x l.
Proof. rewrite nthN_nth; apply nth_error_In. Qed.

Lemma In_nthN {A} (l : list A) x : In x l -> exists n, nthN l n = Some x.
Proof.
  intros H; apply In_nth_error in H; destruct H as (n & H).
  exists (N.of_nat n). now rewrite nthN_nth, Nnat.Nat2N.id.
Qed.

Lemma length_updN {A} (l : list A) n a : length (updN l n a) = length l.
Proof.
  revert n; induction l as [|x t IH]; intros n; simpl; [easy|].
  destruct (n =? 0); simpl; [easy|]; now rewrite IH.
Qed.

Lemma nthN_updN_eq {A} (l : list A) n a : n < N.of_nat (length l) -> nthN (updN l n a) n = Some a.
Proof.
  revert n; induction l as [|x t IH]; intros n H; simpl in *; [lia|].
  destruct (N.eqb_spec n 0) as [->|H']; simpl; [easy|].
  destruct (N.eqb_spec n 0); [lia|]. apply IH; lia.
Qed.

Lemma nthN_updN_neq {A} (l : list A) n m a : n <> m -> nthN (updN l n a) m = nthN l m.
Proof.
  revert n m; induction l as [|x t IH]; intros n m H; simpl; [easy|].
  destruct (N.eqb_spec n 0) as [->|H']; simpl;
    destruct (N.eqb_spec m 0) as [->|H'']; try easy; try lia.
  apply IH; lia.
Qed.

Lemma nthN_updN {A} (l : list A) n m a :
  n < N.of_nat (length l) -> nthN (updN l n a) m = if n =? m then Some a else nthN l m.
Proof.
  intros H; destruct (N.eqb_spec n m) as [->|E]; [now apply nthN_updN_eq|now apply nthN_updN_neq].
Qed.

Lemma nthN_app1 {A} (l l' : list A) n x : nthN l n = Some x -> nthN (l ++ l') n = Some x.
Proof.
  intros H; pose proof (nthN_Some_lt _ _ _ H). rewrite nthN_nth in *.
  now rewrite nth_error_app1 by lia.
Qed.

Lemma nthN_app2 {A} (l : list A) x : nthN (l ++ [x]) (N.of_nat (length l)) = Some x.
Proof.
  rewrite nthN_nth, Nnat.Nat2N.id, nth_error_app2, PeanoNat.Nat.sub_diag by lia. reflexivity.
Qed.

Lemma nthN_ext {A} (l l' : list A) :
  length l = length l' -> (forall n, nthN l n = nthN l' n) -> l = l'.
Proof.
  revert l'; induction l as [|x t IH]; intros [|y t'] HL H; simpl in *; try easy.
  f_equal.
  - specialize (H 0); simpl in H; congruence.
  - apply IH; [lia|]. intros n; specialize (H (n + 1)).
    destruct (N.eqb_spec (n + 1) 0); [lia|]. now replace (N.pred (n + 1)) with n in H by lia.
Qed.

Lemma nthN_repeat {A} (x : A) k n : nthN (repeat x k) n = if n <? N.of_nat k then Some x else None.
Proof.
  destruct (N.ltb_spec n (N.of_nat k)) as [H|H].
  - destruct (nthN_lt (repeat x k) n) as (y & Hy); [rewrite repeat_length; lia|].
    rewrite Hy. f_equal. apply nthN_In in Hy. now apply repeat_spec in Hy.
  - apply nthN_None. rewrite repeat_length; lia.
Qed.

Lemma nthN_map {A B} (f : A -> B) l n : nthN (map f l) n = option_map f (nthN l n).
Proof. rewrite !nthN_nth. apply nth_error_map. Qed.

(** *** Bit sets *)

(** What a bit set stands for: membership of index [k]. *)
Definition bit (A : bits) (k : N) : bool :=
  match nthN A (k / 64) with Some w => N.testbit w (k mod 64) | None => false end.

Lemma land_shift w n : (N.land w (N.shiftl 1 n) =? 0) = negb (N.testbit w n).
Proof.
  destruct (N.testbit w n) eqn:E; unfold negb.
  - apply N.eqb_neq. intros H.
    assert (N.testbit (N.land w (N.shiftl 1 n)) n = true) as H'.
    { rewrite N.land_spec, E, N.shiftl_spec_high' by lia. now rewrite N.sub_diag. }
    rewrite H, N.bits_0 in H'. discriminate.
  - apply N.eqb_eq. apply N.bits_inj. intros k. rewrite N.land_spec, N.bits_0.
    destruct (N.eq_dec k n) as [->|Hk]; [now rewrite E|].
    rewrite N.shiftl_1_l, N.pow2_bits_false by congruence. apply andb_false_r.
Qed.

Lemma test_bit_bit A k : test_bit A k = bit A k.
Proof.
  unfold test_bit, bit. destruct (nthN A (k / 64)); [|easy].
  now rewrite land_shift, negb_involutive.
Qed.

Lemma bit_in_lt A k : bit_in A k = true <-> k / 64 < N.of_nat (length A).
Proof. unfold bit_in. apply N.ltb_lt. Qed.

Lemma divmod_neq k i : k <> i -> k / 64 = i / 64 -> k mod 64 <> i mod 64.
Proof.
  intros H H1 H2. apply H.
  rewrite (N.div_mod k 64), (N.div_mod i 64) by easy. now rewrite H1, H2.
Qed.

Lemma bit_set A k i : bit_in A k = true -> bit (set_bit A k) i = (i =? k) || bit A i.
Proof.
  intros H. apply bit_in_lt in H. unfold set_bit, bit.
  destruct (nthN_lt A (k / 64) H) as (w & Hw). rewrite Hw.
  rewrite nthN_updN by easy.
  destruct (N.eqb_spec (k / 64) (i / 64)) as [E|E].
  - rewrite <- E, Hw, N.lor_spec, N.shiftl_1_l, N.pow2_bits_eqb.
    destruct (N.eqb_spec i k) as [->|Hk].
    + now rewrite N.eqb_refl, orb_true_r.
    + assert (k mod 64 <> i mod 64) as Hm by (apply divmod_neq; congruence).
      apply N.eqb_neq in Hm. now rewrite Hm, orb_false_r.
  - destruct (N.eqb_spec i k) as [->|Hk]; [congruence|reflexivity].
Qed.

Lemma bit_clear A k i : bit_in A k = true -> bit (clear_bit A k) i = negb (i =? k) && bit A i.
Proof.
  intros H. apply bit_in_lt in H. unfold clear_bit, bit.
  destruct (nthN_lt A (k / 64) H) as (w & Hw). rewrite Hw.
  rewrite nthN_updN by easy.
  destruct (N.eqb_spec (k / 64) (i / 64)) as [E|E].
  - rewrite <- E, Hw, N.ldiff_spec, N.shiftl_1_l, N.pow2_bits_eqb.
    destruct (N.eqb_spec i k) as [->|Hk].
    + rewrite N.eqb_refl. simpl. apply andb_false_r.
    + assert (k mod 64 <> i mod 64) as Hm by (apply divmod_neq; congruence).
      apply N.eqb_neq in Hm. rewrite Hm. simpl. apply andb_true_r.
  - destruct (N.eqb_spec i k) as [->|Hk]; [congruence|reflexivity].
Qed.

Lemma length_set_bit A k : length (set_bit A k) = length A.
Proof. unfold set_bit. destruct (nthN A (k / 64)); [apply length_updN|easy]. Qed.
Lemma length_clear_bit A k : length (clear_bit A k) = length A.
Proof. unfold clear_bit. destruct (nthN A (k / 64)); [apply length_updN|easy]. Qed.

Lemma bit_in_set A k i : bit_in (set_bit A k) i = bit_in A i.
Proof. unfold bit_in. now rewrite length_set_bit. Qed.

Lemma length_make_bits n : N.of_nat (length (make_bits n)) = n / 64 + 1.
Proof. unfold make_bits. rewrite repeat_length. lia. Qed.

Lemma bit_make n i : bit (make_bits n) i = false.
Proof.
  unfold bit, make_bits. rewrite nthN_repeat. destruct (_ <? _); [apply N.bits_0|easy].
Qed.

Lemma bit_in_make n i : i <= n -> bit_in (make_bits n) i = true.
Proof.
  intros H. apply bit_in_lt. rewrite length_make_bits.
  assert (i / 64 <= n / 64) by (apply N.div_le_mono; lia). lia.
Qed.

Lemma set_bit_as_set A k i :
  k / 64 < N.of_nat (length A) ->
  test_bit (set_bit A k) i = ((i =? k) || test_bit A i) /\ length (set_bit A k) = length A.
Proof.
  intros H. rewrite !test_bit_bit, length_set_bit. split; [|easy]. apply bit_set. now apply bit_in_lt.
Qed.
Lemma clear_bit_as_set A k i :
  k / 64 < N.of_nat (length A) ->
  test_bit (clear_bit A k) i = (negb (i =? k) && test_bit A i) /\ length (clear_bit A k) = length A.
Proof.
  intros H. rewrite !test_bit_bit, length_clear_bit. split; [|easy]. apply bit_clear. now apply bit_in_lt.
Qed.
Lemma make_bits_as_set n i :
  test_bit (make_bits n) i = false /\ (i <= n -> i / 64 < N.of_nat (length (make_bits n))).
Proof.
  rewrite test_bit_bit, bit_make. split; [easy|]. intros H. apply bit_in_lt. now apply bit_in_make.
Qed.
