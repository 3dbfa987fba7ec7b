(** Reasoning about the ledger. *)
From Coq Require Import ZArith List Bool Lia Permutation.
From Verif Require Import Base Ledger HeapExpr HeapSpec PermTac.
Import ListNotations.
Local Open Scope Z_scope.
Local Open Scope led_scope.

Lemma holds_perm m l l' : holds m l -> Permutation l l' -> holds m l'.
Proof.
  intros (N & P & D & B) H. split; [exact N|]. split; [now rewrite P|].
  split; [now apply (Permutation_NoDup H)|]. now rewrite <- H.
Qed.
Lemma holds_live m l a : holds m l -> In a l -> is_live m a = true.
Proof.
  intros (_ & P & _ & _) I. unfold is_live. apply existsb_exists. exists a. split; [now rewrite P|apply Z.eqb_refl].
Qed.
Lemma holds_pos m l a : holds m l -> In a l -> 0 < a.
Proof. intros (_ & _ & _ & B) I. rewrite Forall_forall in B. now apply B. Qed.
Lemma drop_one_perm a : forall l, In a l -> Permutation l (a :: drop_one a l).
Proof.
  induction l as [|b t IH]; intros I; [contradiction|]. cbn [drop_one].
  destruct (Z.eqb_spec a b) as [->|N]; [reflexivity|].
  destruct I as [->|I]; [easy|]. rewrite perm_swap. now rewrite <- IH.
Qed.

(** The command ends and its result satisfies Q. *)
Definition wp {A} (c : cmd A) (m : ledger) (Q : A -> ledger -> Prop) : Prop := exists a m', c m = Ok (a, m') /\ Q a m'.

Lemma wp_ret {A} (a : A) m (Q : A -> ledger -> Prop) : Q a m -> wp (ret a) m Q.
Proof. intros H. exists a, m. split; [reflexivity|exact H]. Qed.
Lemma wp_then {A B} (c : cmd A) (k : A -> cmd B) m (Q : B -> ledger -> Prop) :
  wp c m (fun a m' => wp (k a) m' Q) -> wp (then_ c k) m Q.
Proof.
  intros (a & m' & E & b & m'' & E' & H). exists b, m''. unfold then_. rewrite E. cbn [bind]. now split.
Qed.
Lemma wp_mono {A} (c : cmd A) m (Q Q' : A -> ledger -> Prop) : wp c m Q -> (forall a m', Q a m' -> Q' a m') -> wp c m Q'.
Proof. intros (a & m' & E & H) I. exists a, m'. split; [exact E|now apply I]. Qed.
Lemma wp_fail {A} (r : result A) a m (Q : A -> ledger -> Prop) : r = Ok a -> Q a m -> wp (fail r) m Q.
Proof. intros -> H. exists a, m. split; [reflexivity|exact H]. Qed.
Lemma wp_malloc m l (Q : Z -> ledger -> Prop) :
  holds m l -> (forall a m', a <> 0 -> holds m' (a :: l) -> Q a m') -> wp malloc m Q.
Proof.
  intros (N & P & D & B) H. eexists _, _. split; [reflexivity|]. apply H; [lia|].
  split; [cbn; lia|]. split; [now constructor|].
  split.
  - constructor; [|exact D]. intros I. rewrite Forall_forall in B. specialize (B _ I). lia.
  - constructor; [cbn; lia|]. eapply Forall_impl; [|exact B]. cbn. intros; lia.
Qed.
Lemma wp_use m l a (Q : unit -> ledger -> Prop) : holds m l -> In a l -> Q tt m -> wp (use a) m Q.
Proof.
  intros H I HQ. exists tt, m. split; [|exact HQ]. unfold use. now rewrite (holds_live m l a H I).
Qed.
Lemma wp_free m l a l' (Q : unit -> ledger -> Prop) :
  holds m l -> Permutation l (a :: l') -> (forall m', holds m' l' -> Q tt m') -> wp (free a) m Q.
Proof.
  intros H P HQ. assert (I : In a l) by (rewrite P; now left).
  pose proof (holds_pos _ _ _ H I) as Pa. pose proof (holds_live _ _ _ H I) as L.
  eexists _, _. split.
  - unfold free. rewrite (proj2 (Z.eqb_neq a 0)) by lia. rewrite L. reflexivity.
  - apply HQ. destruct H as (N & Pm & D & B). split; [exact N|]. cbn.
    split.
    + apply (Permutation_cons_inv (a := a)). rewrite <- drop_one_perm; [now rewrite Pm|]. now rewrite Pm.
    + apply (Permutation_NoDup P) in D. inversion D; subst. split; [assumption|].
      rewrite P in B. now inversion B.
Qed.
(** A pointer that may be NULL. *)
Lemma wp_free_opt m l a l' (Q : unit -> ledger -> Prop) :
  holds m l -> Permutation l (opt_at a ++ l') -> (forall m', holds m' l' -> Q tt m') -> wp (free a) m Q.
Proof.
  unfold opt_at. intros H P HQ. destruct (Z.eqb_spec a 0) as [->|N].
  - exists tt, m. split; [reflexivity|]. apply HQ. cbn [app] in P. now apply holds_perm with l.
  - now apply wp_free with l l'.
Qed.
Lemma wp_realloc m l a l' (Q : Z -> ledger -> Prop) :
  holds m l -> Permutation l (a :: l') -> (forall b m', b <> 0 -> holds m' (b :: l') -> Q b m') -> wp (realloc a) m Q.
Proof.
  intros H P HQ. apply wp_then. apply wp_use with l; [exact H|rewrite P; now left|].
  apply wp_then. apply wp_malloc with l; [exact H|]. intros b m' Nb Hb.
  apply wp_then. apply wp_free with (b :: l) (b :: l'); [exact Hb|rewrite P; apply perm_swap|].
  intros m'' H''. apply wp_ret. now apply HQ.
Qed.
Lemma opt_at_some a : a <> 0 -> opt_at a = [a].
Proof. intros N. unfold opt_at. now rewrite (proj2 (Z.eqb_neq a 0)). Qed.

(** ** Tactics *)
(** The list [L] without one [x]. *)
Ltac without x L :=
  match L with
  | x :: ?t => t
  | ?y :: ?t => let r := without x t in constr:(y :: r)
  | ?p ++ ?q => let r := without x p in constr:(r ++ q)
  | ?p ++ ?q => let r := without x q in constr:(p ++ r)
  end.
(** The list [L] without the part [x]. *)
Ltac apart x L :=
  match L with
  | x => constr:(@nil Z)
  | ?y :: ?t => let r := apart x t in constr:(y :: r)
  | ?p ++ ?q => let r := apart x p in constr:(r ++ q)
  | ?p ++ ?q => let r := apart x q in constr:(p ++ r)
  end.
Ltac is_in :=
  match goal with
  | |- In ?x (?x :: _) => now left
  | |- In ?x (_ :: ?t) => right; is_in
  | |- In ?x (?p ++ ?q) => apply in_or_app; first [left; is_in; fail|right; is_in]
  end.
(** One step. *)
Ltac lstep :=
  match goal with
  | |- wp (then_ _ _) _ _ => apply wp_then
  | |- wp (ret _) _ _ => apply wp_ret
  | |- wp (fail (Ok _)) _ _ => eapply wp_fail; [reflexivity|]
  | H : holds ?m ?l |- wp malloc ?m _ =>
      let a := fresh "a" in let m' := fresh "m" in let N := fresh "N" in let H' := fresh "H" in
      apply wp_malloc with l; [exact H|]; intros a m' N H'; clear H
  | H : holds ?m ?l |- wp (use ?a) ?m _ => apply wp_use with l; [exact H|is_in|]
  | H : holds ?m ?l |- wp (free ?a) ?m _ =>
      let l' := without a l in
      let m' := fresh "m" in let H' := fresh "H" in
      apply wp_free with l l'; [exact H|perm|]; intros m' H'; clear H
  | H : holds ?m ?l |- wp (free ?a) ?m _ =>
      let l' := apart constr:(opt_at a) l in
      let m' := fresh "m" in let H' := fresh "H" in
      apply wp_free_opt with l l'; [exact H|perm|]; intros m' H'; clear H
  | H : holds ?m ?l |- wp (realloc ?a) ?m _ =>
      let l' := without a l in
      let b := fresh "b" in let m' := fresh "m" in let N := fresh "N" in let H' := fresh "H" in
      apply wp_realloc with l l'; [exact H|perm|]; intros b m' N H'; clear H
  end.
