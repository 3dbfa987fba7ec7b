(** Making, copying and releasing expressions in memory. *)
From Coq Require Import ZArith NArith String Bool List Lia Permutation.
From Verif Require Import Base Float Value Ast Printer Ledger HeapExpr HeapSpec PermTac LedgerProofs.
Import ListNotations.
Local Open Scope Z_scope.
Local Open Scope list_scope.

(** ** Releasing *)
Lemma free_var_ok v m l l' (Q : unit -> ledger -> Prop) :
  holds m l -> Permutation l (bl_var v ++ l') -> (forall m', holds m' l' -> Q tt m') -> wp (h_free_var v) m Q.
Proof. apply wp_free_opt. Qed.
Lemma free_sval_ok s m l l' (Q : unit -> ledger -> Prop) :
  holds m l -> Permutation l (bl_sval s ++ l') -> (forall m', holds m' l' -> Q tt m') -> wp (h_free_sval s) m Q.
Proof. apply wp_free. Qed.
Lemma each_sval_ok s : forall m l l' (Q : unit -> ledger -> Prop),
  holds m l -> Permutation l (flat_map bl_sval s ++ l') -> (forall m', holds m' l' -> Q tt m') ->
  wp (each h_free_sval s) m Q.
Proof.
  induction s as [|x s IH]; intros m l l' Q H P HQ.
  - apply wp_ret. apply HQ. now apply holds_perm with l.
  - cbn [each flat_map] in *. apply wp_then. apply free_sval_ok with l (flat_map bl_sval s ++ l'); [exact H|rewrite P; perm|].
    intros m' H'. now apply IH with (flat_map bl_sval s ++ l') l'.
Qed.
Lemma free_arr_ok {A} (items : list A) a m l l' (Q : unit -> ledger -> Prop) :
  holds m l -> Permutation l (match items with [] => opt_at a | _ => [a] end ++ l') -> (forall m', holds m' l' -> Q tt m') ->
  wp (free a) m Q.
Proof. destruct items; [apply wp_free_opt|apply wp_free]. Qed.
Lemma free_ints_ok x m l l' (Q : unit -> ledger -> Prop) :
  holds m l -> Permutation l (bl_ints x ++ l') -> (forall m', holds m' l' -> Q tt m') -> wp (h_free_ints x) m Q.
Proof.
  unfold bl_ints, h_free_ints. intros H P HQ. apply (holds_perm _ _ _ H) in P. clear H. cbn [app] in P.
  lstep. lstep. lstep. eapply (free_arr_ok (hi_items x)) with (l' := hi_at x :: l'); [exact P|perm|].
  intros m' H'. lstep. now apply HQ.
Qed.
Lemma free_strs_ok x m l l' (Q : unit -> ledger -> Prop) :
  holds m l -> Permutation l (bl_strs x ++ l') -> (forall m', holds m' l' -> Q tt m') -> wp (h_free_strs x) m Q.
Proof.
  unfold bl_strs, h_free_strs. intros H P HQ. apply (holds_perm _ _ _ H) in P. clear H. cbn [app] in P.
  set (arr := match hl_items x with [] => opt_at (hl_arr x) | _ => [hl_arr x] end) in *.
  lstep. lstep. lstep. apply each_sval_ok with (hl_at x :: (arr ++ flat_map bl_sval (hl_items x)) ++ l') (hl_at x :: arr ++ l'); [exact P|perm|].
  intros m' H'. lstep. eapply (free_arr_ok (hl_items x)) with (l' := hl_at x :: l'); [exact H'|unfold arr; perm|].
  intros m2 H2. lstep. now apply HQ.
Qed.
Ltac lcall :=
  match goal with
  | H : holds ?m ?l |- wp (h_free_var ?v) ?m _ => let l' := apart constr:(bl_var v) l in
      let m' := fresh "m" in let H' := fresh "H" in apply free_var_ok with l l'; [exact H|perm|]; intros m' H'; clear H
  | H : holds ?m ?l |- wp (h_free_sval ?v) ?m _ => let l' := apart constr:(bl_sval v) l in
      let m' := fresh "m" in let H' := fresh "H" in apply free_sval_ok with l l'; [exact H|perm|]; intros m' H'; clear H
  | H : holds ?m ?l |- wp (h_free_ints ?v) ?m _ => let l' := apart constr:(bl_ints v) l in
      let m' := fresh "m" in let H' := fresh "H" in apply free_ints_ok with l l'; [exact H|perm|]; intros m' H'; clear H
  | H : holds ?m ?l |- wp (h_free_strs ?v) ?m _ => let l' := apart constr:(bl_strs v) l in
      let m' := fresh "m" in let H' := fresh "H" in apply free_strs_ok with l l'; [exact H|perm|]; intros m' H'; clear H
  end.
Ltac done_with HQ := apply HQ; match goal with H : holds _ _ |- _ => eapply holds_perm; [exact H|perm] end.
Lemma free_leaf_ok p m l l' (Q : unit -> ledger -> Prop) :
  holds m l -> Permutation l (bl_leaf p ++ l') -> (forall m', holds m' l' -> Q tt m') -> wp (h_free_leaf p) m Q.
Proof.
  intros H P HQ. apply (holds_perm _ _ _ H) in P. clear H.
  destruct p as [b|v|op v c|op v q|op x y|op v x|op v|v ty ns va n now id|op h v id s now|h a b c v w|op v s];
    cbn [h_free_leaf bl_leaf] in *;
    try (destruct q; cbn [bl_qval] in *); try (destruct x; cbn [bl_lval bl_left h_free_lval h_free_left] in *);
    try (destruct y; cbn [bl_right h_free_right] in *);
    repeat first [lstep|lcall]; done_with HQ.
Qed.
Lemma free_ok e : forall m l l' (Q : unit -> ledger -> Prop),
  holds m l -> Permutation l (blocks e ++ l') -> (forall m', holds m' l' -> Q tt m') -> wp (h_free e) m Q.
Proof.
  induction e as [a g p|a g x IHx y IHy|a g x IHx y IHy|a g x IHx]; intros m l l' Q H P HQ;
    apply (holds_perm _ _ _ H) in P; clear H; cbn [h_free blocks h_at] in *.
  - lstep. lstep. lstep. apply free_leaf_ok with ((a :: bl_leaf p) ++ l') (a :: l'); [exact P|perm|]. intros m' H'. lstep. now apply HQ.
  - lstep. lstep. lstep. lstep. apply IHx with ((a :: blocks x ++ blocks y) ++ l') (a :: blocks y ++ l'); [exact P|perm|].
    intros m' H'. apply IHy with (a :: blocks y ++ l') (a :: l'); [exact H'|perm|]. intros m2 H2. lstep. now apply HQ.
  - lstep. lstep. lstep. lstep. apply IHx with ((a :: blocks x ++ blocks y) ++ l') (a :: blocks y ++ l'); [exact P|perm|].
    intros m' H'. apply IHy with (a :: blocks y ++ l') (a :: l'); [exact H'|perm|]. intros m2 H2. lstep. now apply HQ.
  - lstep. lstep. lstep. apply IHx with ((a :: blocks x) ++ l') (a :: l'); [exact P|perm|]. intros m' H'. lstep. now apply HQ.
Qed.

(** ** Copying *)
(** [c] makes a value [x] with the blocks [bl x] beside what is there, and [R x]. *)
Definition makes {A} (c : cmd A) (need : list Z) (bl : A -> list Z) (R : A -> Prop) : Prop :=
  forall m l l', holds m l -> Permutation l (need ++ l') -> wp c m (fun x m' => R x /\ holds m' (bl x ++ l)).
Lemma bstrdup_ok s : makes (bstrdup s) [hs_at s] (fun x => [hs_at x]) (fun x => hs_text x = hs_text s /\ hs_at x <> 0).
Proof.
  intros m l l' H P. unfold bstrdup. lstep. apply wp_use with l; [exact H|rewrite P; now left|].
  lstep. lstep. lstep. repeat (split; [easy|]). exact H0.
Qed.
Lemma clone_var_ok v : has_name v ->
  makes (h_clone_var v) (bl_var v) bl_var (fun x => er_var x = er_var v /\ has_name x).
Proof.
  intros N m l l' H P. unfold bl_var in P. rewrite (opt_at_some _ N) in P. unfold h_clone_var. lstep.
  eapply wp_mono; [exact (bstrdup_ok _ m l l' H P)|]. cbn. intros x m' ((E & Nx) & H'). lstep.
  split; [split; [unfold er_var; cbn; congruence|exact Nx]|]. unfold bl_var. cbn. now rewrite (opt_at_some _ Nx).
Qed.
Lemma clone_sval_ok s : makes (h_clone_sval s) (bl_sval s) bl_sval (fun x => er_sval x = er_sval s).
Proof.
  intros m l l' H P. unfold h_clone_sval. lstep.
  eapply wp_mono; [exact (bstrdup_ok _ m l l' H P)|]. cbn. intros x m' ((E & Nx) & H'). lstep.
  split; [unfold er_sval; cbn; congruence|exact H'].
Qed.
Lemma collect_sval_ok s : forall m l l', holds m l -> Permutation l (flat_map bl_sval s ++ l') ->
  wp (collect h_clone_sval s) m (fun x m' => (map er_sval x = map er_sval s) /\ holds m' (flat_map bl_sval x ++ l)).
Proof.
  induction s as [|x s IH]; intros m l l' H P; cbn [collect flat_map map] in *.
  - lstep. split; [reflexivity|exact H].
  - lstep. eapply wp_mono; [apply (clone_sval_ok x m l (flat_map bl_sval s ++ l') H); rewrite P; perm|].
    intros y m' (E & H'). lstep.
    eapply wp_mono; [apply (IH m' (bl_sval y ++ l) (bl_sval x ++ bl_sval y ++ l') H'); rewrite P; perm|].
    intros ys m2 (E2 & H2). lstep. split; [cbn; congruence|]. cbn [flat_map]. eapply holds_perm; [exact H2|perm].
Qed.
Lemma clone_ints_ok x : makes (h_clone_ints x) (bl_ints x) bl_ints (fun y => hi_items y = hi_items x).
Proof.
  intros m l l' H P. unfold h_clone_ints, bl_ints in *. lstep. lstep. lstep.
  apply wp_use with (a :: l); [exact H0|right; rewrite P; now left|].
  lstep. lstep. lstep.
  assert (W : wp match hi_items x with [] => ret tt | _ => use (hi_arr x) end m1 (fun _ m' => m' = m1)).
  { destruct (hi_items x) eqn:E; [now apply wp_ret|].
    apply wp_use with (a0 :: a :: l); [exact H|right; right; rewrite P; right; now left|reflexivity]. }
  eapply wp_mono; [exact W|]. intros _ m2 ->. lstep. split; [reflexivity|]. cbn [hi_items hi_at hi_arr].
  eapply holds_perm; [exact H|]. destruct (hi_items x); [rewrite (opt_at_some _ N0)|]; perm.
Qed.
Lemma clone_strs_ok x : makes (h_clone_strs x) (bl_strs x) bl_strs (fun y => er_strs y = er_strs x).
Proof.
  intros m l l' H P. unfold h_clone_strs, bl_strs in *. lstep. lstep. lstep.
  apply wp_use with (a :: l); [exact H0|right; rewrite P; now left|].
  lstep. lstep. lstep.
  assert (W : wp match hl_items x with [] => ret tt | _ => use (hl_arr x) end m1 (fun _ m' => m' = m1)).
  { destruct (hl_items x) eqn:E; [now apply wp_ret|].
    apply wp_use with (a0 :: a :: l); [exact H|right; right; rewrite P; right; now left|reflexivity]. }
  eapply wp_mono; [exact W|]. intros _ m2 ->. lstep.
  eapply wp_mono; [eapply (collect_sval_ok (hl_items x) m1 (a0 :: a :: l)
    (a0 :: a :: hl_at x :: match hl_items x with [] => opt_at (hl_arr x) | _ => [hl_arr x] end ++ l') H);
    rewrite P; perm|].
  intros items m2 (E & H2). lstep. split; [exact E|]. cbn [hl_items hl_at hl_arr].
  eapply holds_perm; [exact H2|]. destruct items; [rewrite (opt_at_some _ N0)|]; perm.
Qed.

(** A value that was already there stays. *)
Ltac copy L need :=
  match goal with
  | H : holds ?m ?l |- wp _ ?m _ =>
      let l' := apart need l in
      let x := fresh "x" in let m' := fresh "m" in let E := fresh "E" in let H' := fresh "H" in
      eapply wp_mono; [apply (L m l l' H); perm|]; intros x m' (E & H'); clear H
  end.
Ltac copies :=
  match goal with
  | |- wp (h_clone_var ?v) _ _ => first [copy (clone_var_ok v ltac:(assumption)) constr:(bl_var v)]
  | |- wp (h_clone_sval ?s) _ _ => copy (clone_sval_ok s) constr:(bl_sval s)
  | |- wp (h_clone_ints ?s) _ _ => copy (clone_ints_ok s) constr:(bl_ints s)
  | |- wp (h_clone_strs ?s) _ _ => copy (clone_strs_ok s) constr:(bl_strs s)
  | |- wp (bstrdup ?s) _ _ => copy (bstrdup_ok s) constr:([hs_at s])
  end.
Lemma clone_leaf_ok p : named_leaf p ->
  makes (h_clone_leaf p) (bl_leaf p) bl_leaf (fun q => er_leaf q = clone_leaf (er_leaf p) /\ named_leaf q).
Proof.
  intros N m l l' H P. apply (holds_perm _ _ _ H) in P.
  assert (W : wp (h_clone_leaf p) m
    (fun x m' => (er_leaf x = clone_leaf (er_leaf p) /\ named_leaf x) /\ holds m' (bl_leaf x ++ bl_leaf p ++ l'))).
  2:{ apply wp_mono with (1 := W). intros x m' (E & H'). split; [exact E|].
      assert (Permutation l (bl_leaf p ++ l')).
      { destruct H as (_ & H & _). destruct P as (_ & P & _). now rewrite <- H. }
      eapply holds_perm; [exact H'|]. apply Permutation_app_head. symmetry. assumption. }
  clear H.
  destruct p as [b|v|op v c|op v q|op x y|op v x|op v|v ty ns va n now id|op h v id s now|h a b c v w|op v s];
    cbn [h_clone_leaf bl_leaf named_leaf er_leaf clone_leaf] in *.
  all: try (destruct q; cbn [bl_qval h_clone_qval er_qval] in *).
  all: try (destruct x; cbn [bl_lval bl_left h_clone_lval h_clone_left er_lval er_left] in *).
  all: try (destruct y; cbn [bl_right h_clone_right er_right] in *).
  all: try (destruct N as (N1 & N2)).
  all: repeat first [lstep|copies].
  all: repeat match goal with E : _ /\ _ |- _ => destruct E end.
  all: (split; [split; [cbn; unfold er_strs in *; try (change (er_var h_no_var) with no_var; congruence)|cbn; auto]
               |eapply holds_perm; [eassumption|cbn [bl_leaf bl_qval bl_left bl_right bl_lval]; change (bl_var h_no_var) with (@nil Z); perm]]).
Qed.

Lemma clone_ok e : named e -> makes (h_clone e) (blocks e) blocks (fun x => er_expr x = clone_node (er_expr e) /\ named x).
Proof.
  induction e as [a g p|a g x IHx y IHy|a g x IHx y IHy|a g x IHx]; intros N m l l' H P; cbn [h_clone blocks h_at named er_expr clone_node] in *.
  - lstep. apply wp_use with l; [exact H|rewrite P; now left|]. lstep. lstep. lstep.
    eapply wp_mono; [apply (clone_leaf_ok p N m0 (a0 :: l) (a0 :: a :: l') H0); rewrite P; perm|].
    intros q m2 ((E & Nq) & H2). lstep. split; [split; [cbn; congruence|exact Nq]|]. eapply holds_perm; [exact H2|cbn [blocks]; perm].
  - destruct N as (Nx & Ny). lstep. apply wp_use with l; [exact H|rewrite P; now left|]. lstep. lstep. lstep.
    eapply wp_mono; [apply (IHx Nx m0 (a0 :: l) (a0 :: a :: blocks y ++ l') H0); rewrite P; perm|].
    intros u m2 ((E & Nu) & H2). lstep.
    eapply wp_mono; [apply (IHy Ny m2 _ (a0 :: a :: blocks x ++ blocks u ++ l') H2); rewrite P; perm|].
    intros v m3 ((E' & Nv) & H3). lstep.
    split; [split; [cbn; congruence|now split]|]. eapply holds_perm; [exact H3|cbn [blocks]; perm].
  - destruct N as (Nx & Ny). lstep. apply wp_use with l; [exact H|rewrite P; now left|]. lstep. lstep. lstep.
    eapply wp_mono; [apply (IHx Nx m0 (a0 :: l) (a0 :: a :: blocks y ++ l') H0); rewrite P; perm|].
    intros u m2 ((E & Nu) & H2). lstep.
    eapply wp_mono; [apply (IHy Ny m2 _ (a0 :: a :: blocks x ++ blocks u ++ l') H2); rewrite P; perm|].
    intros v m3 ((E' & Nv) & H3). lstep.
    split; [split; [cbn; congruence|now split]|]. eapply holds_perm; [exact H3|cbn [blocks]; perm].
  - lstep. apply wp_use with l; [exact H|rewrite P; now left|]. lstep. lstep. lstep.
    eapply wp_mono; [apply (IHx N m0 (a0 :: l) (a0 :: a :: l') H0); rewrite P; perm|].
    intros u m2 ((E & Nu) & H2). lstep. split; [split; [cbn; congruence|exact Nu]|]. eapply holds_perm; [exact H2|cbn [blocks]; perm].
Qed.

(** ** Making *)
Lemma make_attr_ok s : makes (h_make_attr_var s) [hs_at s] bl_var (fun v => er_var v = mk_var (hs_text s) /\ has_name v).
Proof.
  intros m l l' H P. unfold h_make_attr_var. lstep.
  eapply wp_mono; [exact (bstrdup_ok _ m l l' H P)|]. cbn. intros x m' ((E & Nx) & H'). lstep.
  split; [split; [unfold er_var, mk_var; cbn; congruence|exact Nx]|]. unfold bl_var. cbn. now rewrite (opt_at_some _ Nx).
Qed.
Lemma make_lit_ok s : makes (h_make_attr_lit s) [] bl_var (fun v => er_var v = mk_var s /\ has_name v).
Proof.
  intros m l l' H P. unfold h_make_attr_lit, bstrdup_lit. repeat lstep.
  split; [split; [reflexivity|exact N]|]. unfold bl_var. cbn. now rewrite (opt_at_some _ N).
Qed.
Lemma score_ok e : forall m l l' (Q : Z -> ledger -> Prop),
  holds m l -> Permutation l (blocks e ++ l') -> Q (score_node (er_expr e)) m -> wp (h_score e) m Q.
Proof.
  induction e as [a g p|a g x IHx y IHy|a g x IHx y IHy|a g x IHx]; intros m l l' Q H P HQ; cbn [h_score blocks h_at score_node er_expr] in *.
  - lstep. apply wp_use with l; [exact H|rewrite P; now left|]. lstep. exact HQ.
  - lstep. apply wp_use with l; [exact H|rewrite P; now left|]. lstep.
    apply IHx with l (a :: blocks y ++ l'); [exact H|rewrite P; perm|]. lstep.
    apply IHy with l (a :: blocks x ++ l'); [exact H|rewrite P; perm|]. lstep. exact HQ.
  - lstep. apply wp_use with l; [exact H|rewrite P; now left|]. lstep.
    apply IHx with l (a :: blocks y ++ l'); [exact H|rewrite P; perm|]. lstep.
    apply IHy with l (a :: blocks x ++ l'); [exact H|rewrite P; perm|]. lstep. exact HQ.
  - lstep. apply wp_use with l; [exact H|rewrite P; now left|]. 
    apply IHx with l (a :: l'); [exact H|rewrite P; perm|]. exact HQ.
Qed.
