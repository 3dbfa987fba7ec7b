(** Evaluation with the shared result table equals evaluation from scratch. *)
From Coq Require Import ZArith NArith String Bool List Lia.
From Coq Require Import ZifyBool ZifyNat ZifyN.
From Verif Require Import Base Float Value Ast Special Match BaseProofs.
Import ListNotations.
Local Open Scope res_scope.

Section WithGeo.
  Context {G : Geo}.

  (** Evaluation of an expression alone, without any table. *)
  Fixpoint eval (p : env) (e : expr) : result bool :=
    match e with
    | ELeaf _ l => match_leaf p l
    | EAnd _ a b => do x <- eval p a; if x : bool then eval p b else Ok false
    | EOr _ a b => do x <- eval p a; if x : bool then Ok true else eval p b
    | ENot _ a => do x <- eval p a; Ok (negb x)
    end.

  (** Value of a node from the values [V] of the numbered nodes below it. *)
  Definition nodev (V : N -> result bool) (p : env) (e : expr) : result bool :=
    match e with
    | ELeaf _ l => match_leaf p l
    | EAnd _ a b => do x <- V (gid a); if x : bool then V (gid b) else Ok false
    | EOr _ a b => do x <- V (gid a); if x : bool then Ok true else V (gid b)
    | ENot _ a => do x <- V (gid a); Ok (negb x)
    end.

  (** All nodes of an expression. *)
  Fixpoint nodes (e : expr) : list expr :=
    e :: match e with
         | ELeaf _ _ => []
         | EAnd _ a b | EOr _ a b => nodes a ++ nodes b
         | ENot _ a => nodes a
         end.

  (** [V] gives every node of [e] its value. *)
  Definition numbered (V : N -> result bool) (p : env) (e : expr) : Prop :=
    forall n, In n (nodes e) -> nodev V p n = V (gid n).

  Lemma nodes_self e : In e (nodes e).
  Proof. destruct e; now left. Qed.

  Lemma numbered_and V p g a b : numbered V p (EAnd g a b) -> numbered V p a /\ numbered V p b.
  Proof. intros H; split; intros n Hn; apply H; right; apply in_or_app; auto. Qed.
  Lemma numbered_or V p g a b : numbered V p (EOr g a b) -> numbered V p a /\ numbered V p b.
  Proof. intros H; split; intros n Hn; apply H; right; apply in_or_app; auto. Qed.
  Lemma numbered_not V p g a : numbered V p (ENot g a) -> numbered V p a.
  Proof. intros H n Hn; apply H; now right. Qed.

  Lemma numbered_eval V p e : numbered V p e -> eval p e = V (gid e).
  Proof.
    induction e as [g l|g a IHa b IHb|g a IHa b IHb|g a IHa]; intros H;
      pose proof (H _ (nodes_self _)) as Hn; simpl in *; rewrite <- Hn.
    - reflexivity.
    - apply numbered_and in H. rewrite IHa, IHb by easy. reflexivity.
    - apply numbered_or in H. rewrite IHa, IHb by easy. reflexivity.
    - apply numbered_not in H. now rewrite IHa by easy.
  Qed.

  (** The memo table only holds values of [V]. *)
  Definition memo_ok (V : N -> result bool) (m : mids) (s : mstate) : Prop :=
    forall g, mid_of m g <> INVALID_PRED ->
      bit_in (ms_pass s) (mid_of m g) = true /\ bit_in (ms_fail s) (mid_of m g) = true
      /\ (bit (ms_pass s) (mid_of m g) = true -> V g = Ok true)
      /\ (bit (ms_fail s) (mid_of m g) = true -> V g = Ok false).

  (** Different predicates have different table positions. *)
  Definition mids_inj (m : mids) : Prop :=
    forall g g', mid_of m g <> INVALID_PRED -> mid_of m g = mid_of m g' -> g = g'.

  Lemma lookup_ok V m g s :
    memo_ok V m s ->
    exists o, lookup_result m g s = Ok o /\ (forall b, o = Some b -> V g = Ok b).
  Proof.
    intros H. unfold lookup_result. destruct (N.eqb_spec (mid_of m g) INVALID_PRED) as [E|E].
    - exists None. split; [easy|discriminate].
    - destruct (H g E) as (H1 & H2 & H3 & H4). rewrite H1, H2. simpl.
      rewrite !test_bit_bit.
      destruct (bit (ms_pass s) (mid_of m g)) eqn:Ep.
      { exists (Some true). split; [easy|]. intros b [= <-]. auto. }
      destruct (bit (ms_fail s) (mid_of m g)) eqn:Ef.
      { exists (Some false). split; [easy|]. intros b [= <-]. auto. }
      exists None. split; [easy|discriminate].
  Qed.

  Lemma record_ok V m g b s :
    memo_ok V m s -> mids_inj m -> V g = Ok b ->
    exists s', record_result m g b s = Ok s' /\ memo_ok V m s'.
  Proof.
    intros H Hi HV. unfold record_result. destruct (N.eqb_spec (mid_of m g) INVALID_PRED) as [E|E].
    - exists s. auto.
    - destruct (H g E) as (H1 & H2 & H3 & H4). destruct b.
      + rewrite H1. eexists; split; [reflexivity|].
        intros g' E'. simpl. destruct (H g' E') as (K1 & K2 & K3 & K4).
        rewrite bit_in_set, (bit_set _ _ _ H1). repeat split; auto.
        intros Hb. apply orb_true_iff in Hb. destruct Hb as [Hb|Hb]; [|auto].
        apply N.eqb_eq in Hb. apply Hi in Hb; [|easy]. now subst.
      + rewrite H2. eexists; split; [reflexivity|].
        intros g' E'. simpl. destruct (H g' E') as (K1 & K2 & K3 & K4).
        rewrite bit_in_set, (bit_set _ _ _ H2). repeat split; auto.
        intros Hb. apply orb_true_iff in Hb. destruct Hb as [Hb|Hb]; [|auto].
        apply N.eqb_eq in Hb. apply Hi in Hb; [|easy]. now subst.
  Qed.

  Lemma memo_bump V m s : memo_ok V m s -> memo_ok V m (bump s).
  Proof. intros H g E. exact (H g E). Qed.

  (** The outcome of [match_node] for each outcome of the evaluation from scratch. *)
  Definition agrees (V : N -> result bool) (m : mids) (r : result bool) (q : result (bool * mstate)) : Prop :=
    match r with
    | Ok b => exists s', q = Ok (b, s') /\ memo_ok V m s'
    | Abort => q = Abort
    | UB => q = UB
    | Fuel => q = Fuel
    end.

  Theorem match_node_eval V p m e s :
    mids_inj m -> numbered V p e -> memo_ok V m s ->
    agrees V m (eval p e) (match_node p m e s).
  Proof.
    intros Hi. revert s.
    induction e as [g l|g a IHa b IHb|g a IHa b IHb|g a IHa]; intros s Hn Hs;
      pose proof (numbered_eval _ _ _ Hn) as HV;
      match goal with |- agrees _ _ (eval p ?e) _ =>
        destruct (lookup_ok V m (gid e) s Hs) as (o & Ho & Hb) end;
      cbn [match_node]; rewrite Ho; cbn [bind];
      (destruct o as [b'|]; [rewrite HV, (Hb _ eq_refl); exists (bump s); split; [easy|now apply memo_bump]|]);
      cbn [gid] in *.
    - cbn [eval] in *. destruct (match_leaf p l) as [b| | |] eqn:E; simpl; auto.
      destruct (record_ok V m g b s Hs Hi (eq_sym HV)) as (s' & -> & H'). exists s'. auto.
    - pose proof (numbered_and _ _ _ _ _ Hn) as [Na Nb].
      specialize (IHa s Na Hs). unfold agrees in IHa.
      cbn [eval] in *. destruct (eval p a) as [ra| | |]; cbn [bind] in *; try (rewrite IHa; easy).
      destruct IHa as (s1 & -> & Hs1). cbn [bind]. destruct ra.
      + specialize (IHb s1 Nb Hs1). unfold agrees in IHb.
        destruct (eval p b) as [rb| | |]; cbn [bind] in *; try (rewrite IHb; easy).
        destruct IHb as (s2 & -> & Hs2). cbn [bind].
        destruct (record_ok V m g rb s2 Hs2 Hi (eq_sym HV)) as (s' & -> & H'). exists s'. auto.
      + cbn [bind].
        destruct (record_ok V m g false s1 Hs1 Hi (eq_sym HV)) as (s' & -> & H'). exists s'. auto.
    - pose proof (numbered_or _ _ _ _ _ Hn) as [Na Nb].
      specialize (IHa s Na Hs). unfold agrees in IHa.
      cbn [eval] in *. destruct (eval p a) as [ra| | |]; cbn [bind] in *; try (rewrite IHa; easy).
      destruct IHa as (s1 & -> & Hs1). cbn [bind]. destruct ra.
      + cbn [bind].
        destruct (record_ok V m g true s1 Hs1 Hi (eq_sym HV)) as (s' & -> & H'). exists s'. auto.
      + specialize (IHb s1 Nb Hs1). unfold agrees in IHb.
        destruct (eval p b) as [rb| | |]; cbn [bind] in *; try (rewrite IHb; easy).
        destruct IHb as (s2 & -> & Hs2). cbn [bind].
        destruct (record_ok V m g rb s2 Hs2 Hi (eq_sym HV)) as (s' & -> & H'). exists s'. auto.
    - pose proof (numbered_not _ _ _ _ Hn) as Na.
      specialize (IHa s Na Hs). unfold agrees in IHa.
      cbn [eval] in *. destruct (eval p a) as [ra| | |]; cbn [bind] in *; try (rewrite IHa; easy).
      destruct IHa as (s1 & -> & Hs1). cbn [bind].
      destruct (record_ok V m g (negb ra) s1 Hs1 Hi (eq_sym HV)) as (s' & -> & H'). exists s'. auto.
  Qed.

  Lemma memo_make V (m : mids) n k :
    (forall g, mid_of m g <> INVALID_PRED -> (mid_of m g < n)%N) ->
    memo_ok V m (mkM (make_bits n) (make_bits n) k).
  Proof.
    intros H g E. simpl. specialize (H g E).
    rewrite bit_in_make, bit_make by lia. repeat split; auto; discriminate.
  Qed.

  (** Evaluation ignores the numbers of the nodes. *)
  Fixpoint erase (e : expr) : expr :=
    match e with
    | ELeaf _ l => ELeaf 0 l
    | EAnd _ a b => EAnd 0 (erase a) (erase b)
    | EOr _ a b => EOr 0 (erase a) (erase b)
    | ENot _ a => ENot 0 (erase a)
    end.
  Lemma eval_erase p e : eval p (erase e) = eval p e.
  Proof.
    induction e as [g l|g a IHa b IHb|g a IHa b IHb|g a IHa]; simpl; rewrite ?IHa, ?IHb; reflexivity.
  Qed.
  Lemma eval_same p e e' : erase e = erase e' -> eval p e = eval p e'.
  Proof. intros H. now rewrite <- (eval_erase p e), H, eval_erase. Qed.
End WithGeo.
