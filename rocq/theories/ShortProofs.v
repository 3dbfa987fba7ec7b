(** The shortcut on undefined variables decides only what evaluation would give. *)
From Coq Require Import ZArith NArith String Bool List Lia Permutation.
From Coq Require Import ZifyBool ZifyNat ZifyN.
From Verif Require Import Base Float Value Special Ast Match Config Assign Source Bound Tree Api Spec.
From Verif Require Import BaseProofs ListProofs SpecialProofs EvalProofs CmpProofs InternProofs ExtProofs.
From Verif Require Import ResProofs PassProofs PredProofs FloatProofs.
Import ListNotations.
Local Open Scope N_scope.

(** *** Bit sets word by word *)
Definition words_ok (A : bits) : Prop := Forall (fun w => w < 2 ^ 64) A.

Lemma testbit_high w i : w < 2 ^ 64 -> 64 <= i -> N.testbit w i = false.
Proof.
  intros H L. destruct (N.eq_dec w 0) as [->|E]; [apply N.bits_0|].
  apply N.bits_above_log2. assert (N.log2 w < 64); [|lia]. apply N.log2_lt_pow2; lia.
Qed.
Lemma words_set A k : words_ok A -> words_ok (set_bit A k).
Proof.
  intros H. unfold set_bit. destruct (nthN A (k / 64)) as [w|] eqn:E; [|easy].
  unfold words_ok in *. rewrite Forall_forall in *. intros x Hx. apply in_updN in Hx. destruct Hx as [->|Hx]; [|auto].
  specialize (H w (nthN_In _ _ _ E)).
  assert (k mod 64 < 64) by now apply N.mod_upper_bound.
  set (z := N.lor w (N.shiftl 1 (k mod 64))).
  destruct (N.eq_dec z 0) as [->|Ez]; [easy|]. apply N.log2_lt_pow2; [lia|].
  destruct (N.lt_ge_cases (N.log2 z) 64) as [L|L]; [easy|]. exfalso.
  assert (N.testbit z (N.log2 z) = true) as T by now apply N.bit_log2.
  unfold z in T at 1. rewrite N.lor_spec, N.shiftl_1_l, N.pow2_bits_eqb, testbit_high in T by easy.
  cbn in T. apply N.eqb_eq in T. lia.
Qed.
Lemma words_make n : words_ok (make_bits n).
Proof. unfold words_ok, make_bits. apply Forall_forall. intros x Hx. apply repeat_spec in Hx. now subst. Qed.

Lemma land_common a b : b < 2 ^ 64 -> (N.land a b =? 0) = false -> exists j, j < 64 /\ N.testbit a j = true /\ N.testbit b j = true.
Proof.
  intros L H. apply N.eqb_neq in H. exists (N.log2 (N.land a b)).
  pose proof (N.bit_log2 _ H) as T. rewrite N.land_spec in T. apply andb_true_iff in T. destruct T as [T1 T2].
  split; [|easy]. destruct (N.lt_ge_cases (N.log2 (N.land a b)) 64) as [K|K]; [easy|].
  now rewrite testbit_high in T2.
Qed.
Lemma bit_head w A j : j < 64 -> bit (w :: A) j = N.testbit w j.
Proof. intros H. unfold bit. rewrite N.div_small, N.mod_small by easy. reflexivity. Qed.
Lemma bit_tail w A i : bit (w :: A) (i + 64) = bit A i.
Proof.
  unfold bit. replace (i + 64) with (i + 1 * 64) by lia. rewrite N.div_add, N.mod_add by easy.
  cbn [nthN]. destruct (N.eqb_spec (i / 64 + 1) 0); [lia|]. now replace (N.pred (i / 64 + 1)) with (i / 64) by lia.
Qed.

Lemma tsc_ok undefined : forall pass fail,
  length pass = length undefined -> length fail = length undefined -> words_ok undefined ->
  exists k, try_short_circuit pass fail undefined = Ok k /\
    match k with
    | ScPass => exists i, bit pass i = true /\ bit undefined i = true
    | ScFail => exists i, bit fail i = true /\ bit undefined i = true
    | ScNone => True
    end.
Proof.
  induction undefined as [|u t IH]; intros pass fail LP LF W.
  { exists ScNone. split; [now destruct pass|easy]. }
  destruct pass as [|p pass]; [discriminate LP|]. destruct fail as [|f fail]; [discriminate LF|].
  cbn [try_short_circuit].
  inversion W as [|? ? Wu Wt]; subst.
  destruct (N.land p u =? 0) eqn:Ep; cbn [negb].
  - destruct (N.land f u =? 0) eqn:Ef; cbn [negb].
    + destruct (IH pass fail) as (k & E & K); auto. exists k. split; [exact E|].
      destruct k; [| |easy]; destruct K as (i & K1 & K2); exists (i + 64); now rewrite !bit_tail.
    + apply land_common in Ef; [|easy]. destruct Ef as (j & J & T1 & T2).
      exists ScFail. split; [easy|]. exists j. now rewrite !bit_head.
  - apply land_common in Ep; [|easy]. destruct Ep as (j & J & T1 & T2).
    exists ScPass. split; [easy|]. exists j. now rewrite !bit_head.
Qed.

(** *** The set of undefined variables *)
Lemma undefined_from_ok p : forall i A,
  (forall k, k < i + N.of_nat (length p) -> bit_in A k = true) -> words_ok A ->
  let B := undefined_from p i A in
  length B = length A /\ words_ok B /\
  forall k, bit B k = true <-> (bit A k = true \/ (i <= k /\ nthN p (k - i) = Some None)).
Proof.
  induction p as [|o t IH]; intros i A HA HW; cbn [undefined_from].
  - split; [easy|]. split; [easy|]. intros k. cbn. intuition discriminate.
  - cbn [length] in HA. set (A' := match o with None => set_bit A i | Some _ => A end).
    assert (bit_in A i = true) as Hi by (apply HA; lia).
    assert (length A' = length A /\ words_ok A' /\ (forall k, bit_in A' k = bit_in A k)) as (L' & W' & B').
    { unfold A'. destruct o; [easy|]. split; [apply length_set_bit|]. split; [now apply words_set|].
      intros k. apply bit_in_set. }
    destruct (IH (i + 1) A') as (L & W & B); auto.
    { intros k Hk. rewrite B'. apply HA. lia. }
    split; [congruence|]. split; [exact W|]. intros k. rewrite B.
    assert (bit A' k = true <-> bit A k = true \/ (k = i /\ o = None)) as ->.
    { unfold A'. destruct o as [x|].
      - intuition discriminate.
      - rewrite bit_set by easy. rewrite orb_true_iff, N.eqb_eq. intuition. }
    cbn [nthN]. destruct (N.eq_dec k i) as [->|E].
    + rewrite N.sub_diag. cbn [N.eqb]. split.
      * intros [[H|[_ ->]]|[H _]]; [auto| |lia]. right. split; [lia|easy].
      * intros [H|[_ H]]; [auto|]. injection H as ->. auto.
    + destruct (N.eqb_spec (k - i) 0) as [E0|E0].
      * split; [intros [[H|[H _]]|[H _]]|intros [H|[H _]]]; auto; lia.
      * replace (N.pred (k - i)) with (k - (i + 1)) by lia.
        split; [intros [[H|[H _]]|[H ?]]|intros [H|[H ?]]]; auto; try lia.
        -- right. split; [lia|easy].
        -- right. split; [lia|easy].
Qed.

Lemma make_undefined_ok p :
  length (make_undefined p) = length (make_bits (N.of_nat (length p))) /\ words_ok (make_undefined p) /\
  forall k, bit (make_undefined p) k = true <-> nthN p k = Some None.
Proof.
  unfold make_undefined.
  destruct (undefined_from_ok p 0 (make_bits (N.of_nat (length p)))) as (L & W & B).
  - intros k Hk. apply bit_in_make. lia.
  - apply words_make.
  - split; [exact L|]. split; [exact W|]. intros k. rewrite B, bit_make, N.sub_0_r.
    split; [intros [H|[_ H]]; [discriminate|easy]|]. intros H. right. split; [lia|easy].
Qed.

(** *** The shortcut sets of a subscription *)
Lemma fill_sc_ok e ds : forall i pass fail pass' fail',
  (forall k, k < i + N.of_nat (length ds) -> bit_in pass k = true /\ bit_in fail k = true) ->
  fill_sc ds i e pass fail = (pass', fail') ->
  length pass' = length pass /\ length fail' = length fail /\
  (forall k, bit pass' k = true -> bit pass k = true \/
     exists d, i <= k /\ nthN ds (k - i) = Some d /\ d_undef d = true /\ sc_node k false e = ScPass) /\
  (forall k, bit fail' k = true -> bit fail k = true \/
     exists d, i <= k /\ nthN ds (k - i) = Some d /\ d_undef d = true /\ sc_node k false e = ScFail).
Proof.
  induction ds as [|d t IH]; intros i pass fail pass' fail' HB H; cbn [fill_sc] in H.
  - injection H as <- <-. auto.
  - cbn [length] in HB.
    assert (Sh : forall k r, (exists d0, i + 1 <= k /\ nthN t (k - (i + 1)) = Some d0 /\ d_undef d0 = true /\ sc_node k false e = r) ->
       exists d0, i <= k /\ nthN (d :: t) (k - i) = Some d0 /\ d_undef d0 = true /\ sc_node k false e = r).
    { intros k r (d0 & L & E & U & S). exists d0. split; [lia|]. split; [|easy].
      cbn [nthN]. destruct (N.eqb_spec (k - i) 0); [lia|].
      now replace (N.pred (k - i)) with (k - (i + 1)) by lia. }
    assert (Hh : d_undef d = true -> forall k r, k = i -> sc_node i false e = r ->
       exists d0, i <= k /\ nthN (d :: t) (k - i) = Some d0 /\ d_undef d0 = true /\ sc_node k false e = r).
    { intros U k r -> S. exists d. rewrite N.sub_diag. split; [lia|]. easy. }
    destruct (HB i) as [Bp Bf]; [lia|].
    destruct (d_undef d) eqn:U; [destruct (sc_node i false e) eqn:S|].
    + apply IH in H; [|intros k Hk; rewrite bit_in_set; apply HB; lia].
      destruct H as (L1 & L2 & P & F). rewrite length_set_bit in L1.
      split; [easy|]. split; [easy|]. split; intros k Hk.
      * apply P in Hk. destruct Hk as [Hk|Hk]; [|eauto].
        rewrite bit_set in Hk by easy. apply orb_true_iff in Hk. destruct Hk as [Hk|Hk]; [|auto].
        apply N.eqb_eq in Hk. right. eauto.
      * apply F in Hk. destruct Hk as [Hk|Hk]; eauto.
    + apply IH in H; [|intros k Hk; rewrite bit_in_set; apply HB; lia].
      destruct H as (L1 & L2 & P & F). rewrite length_set_bit in L2.
      split; [easy|]. split; [easy|]. split; intros k Hk.
      * apply P in Hk. destruct Hk as [Hk|Hk]; eauto.
      * apply F in Hk. destruct Hk as [Hk|Hk]; [|eauto].
        rewrite bit_set in Hk by easy. apply orb_true_iff in Hk. destruct Hk as [Hk|Hk]; [|auto].
        apply N.eqb_eq in Hk. right. eauto.
    + apply IH in H; [|intros k Hk; apply HB; lia].
      destruct H as (L1 & L2 & P & F). split; [easy|]. split; [easy|]. split; intros k Hk.
      * apply P in Hk. destruct Hk as [Hk|Hk]; eauto.
      * apply F in Hk. destruct Hk as [Hk|Hk]; eauto.
    + apply IH in H; [|intros k Hk; apply HB; lia].
      destruct H as (L1 & L2 & P & F). split; [easy|]. split; [easy|]. split; intros k Hk.
      * apply P in Hk. destruct Hk as [Hk|Hk]; eauto.
      * apply F in Hk. destruct Hk as [Hk|Hk]; eauto.
Qed.

(** What [make_sub] leaves in the shortcut sets. *)
Lemma make_sub_sc c id e s : make_sub c id e = Ok s ->
  s_id s = id /\ s_expr s = e
  /\ length (s_pass s) = length (make_bits (ndomains c)) /\ length (s_fail s) = length (make_bits (ndomains c))
  /\ (forall k, bit (s_pass s) k = true ->
        exists d, nthN (c_domains c) k = Some d /\ d_undef d = true /\ sc_node k false e = ScPass)
  /\ (forall k, bit (s_fail s) k = true ->
        exists d, nthN (c_domains c) k = Some d /\ d_undef d = true /\ sc_node k false e = ScFail).
Proof.
  unfold make_sub. intros H. destruct (fill_pred (make_bits (ndomains c)) e) as [vars| | |]; try discriminate.
  cbn [bind] in H.
  destruct (fill_sc (c_domains c) 0 e (make_bits (ndomains c)) (make_bits (ndomains c))) as [pass fail] eqn:E.
  injection H as <-. cbn [s_id s_expr s_pass s_fail].
  apply fill_sc_ok in E.
  - destruct E as (L1 & L2 & P & F). sp; auto.
    + intros k Hk. apply P in Hk. rewrite bit_make in Hk. destruct Hk as [Hk|(d & _ & Hk)]; [discriminate|].
      rewrite N.sub_0_r in Hk. eauto.
    + intros k Hk. apply F in Hk. rewrite bit_make in Hk. destruct Hk as [Hk|(d & _ & Hk)]; [discriminate|].
      rewrite N.sub_0_r in Hk. eauto.
  - intros k Hk. unfold ndomains. rewrite bit_in_make by lia. auto.
Qed.

(** *** Meaning of the shortcut for an expression *)
Section Short.
  Context {G : Geo}.
  Variables (c : config) (cs : constants) (ev : event) (p : env).
  Hypothesis HE : env_ok c ev p.
  Variables (i : N) (d : domain).
  Hypothesis Hd : nthN (c_domains c) i = Some d.
  Hypothesis Hu : d_undef d = true.
  Hypothesis Hp : nthN p i = Some None.

  (** An attribute that stands for the undefined variable has no value. *)
  Lemma undef_lookup x t : dv c x i t -> lookup ev x = None.
  Proof.
    intros (d' & D & _). destruct HE as [_ H]. specialize (H _ _ _ D).
    destruct (lookup ev x); [|easy]. destruct H as (y0 & _ & H). rewrite Hp in H. discriminate.
  Qed.
  Lemma required_other x v t : required (c_domains c) x -> dv c x v t -> (i =? v) = false.
  Proof.
    intros (w & d1 & D1 & R) (d2 & D2 & _). rewrite D1 in D2. injection D2 as -> ->.
    apply N.eqb_neq. intros <-. apply decl_spec in D1. destruct D1 as [D1 _]. congruence.
  Qed.
  Lemma given_other x v t : given (c_domains c) ev x -> dv c x v t -> (i =? v) = false.
  Proof.
    intros [R|R] D; [eapply required_other; eauto|]. apply N.eqb_neq. intros <-. apply R. eapply undef_lookup; eauto.
  Qed.

  (** The value that the outcome of the shortcut claims. *)
  Definition claims (inv : bool) (k : sc) (b : bool) : Prop :=
    match k with ScPass => b = negb inv | ScFail => b = inv | ScNone => True end.

  Lemma claims_var inv x v t b : dv c x v t -> (lookup ev x = None -> b = false) ->
    claims inv (sc_var i inv (mkAV x v)) b.
  Proof.
    intros D H. unfold sc_var. cbn [av_var]. destruct (N.eqb_spec i v) as [<-|]; [|easy].
    rewrite (H (undef_lookup _ _ D)). now destruct inv.
  Qed.
  Lemma claims_and2 inv k k' b : claims inv k b -> claims inv k' b -> claims inv (sc_and k k') b.
  Proof. destruct k, k'; cbn; auto. Qed.

  Lemma sc_leaf_sem inv a q : atom_ok (c_domains c) cs a -> res_leaf c cs a q ->
    claims inv (sc_leaf i inv q) (sem_atom cs ev a).
  Proof.
    intros HA HR.
    destruct a as [x|b|op x [z|f]|op x [z|f|s]|op x [l|l]|op [z|f|s] x|op x [l|l]|op x|t ns value len|op x id s|a b r|op x pat];
      cbn [res_leaf sem_atom atom_ok] in *.
    - destruct HR as (v & D & ->). apply (claims_var inv x v _ _ D). now intros ->.
    - now subst q.
    - destruct HR as (v & [[D ->]|[D ->]]); apply (claims_var inv x v _ _ D); now intros ->.
    - destruct HR as (v & D & ->). apply (claims_var inv x v _ _ D). now intros ->.
    - destruct HR as (v & [[D ->]|[[D ->]|[D (j & -> & _)]]]); apply (claims_var inv x v _ _ D); now intros ->.
    - destruct HR as (v & D & ->). apply (claims_var inv x v _ _ D). now intros ->.
    - destruct HR as (v & j & D & -> & _). apply (claims_var inv x v _ _ D). now intros ->.
    - destruct HR as (v & l' & D & -> & _). apply (claims_var inv x v _ _ D). now intros ->.
    - destruct HR as (v & l' & D & -> & _). apply (claims_var inv x v _ _ D). now intros ->.
    - destruct HR as (v & D & ->). apply (claims_var inv x v _ _ D). now intros ->.
    - destruct HR.
    - destruct HR as (v & j & D & -> & _). apply (claims_var inv x v _ _ D). now intros ->.
    - destruct HR as (v & l' & D & -> & _). apply (claims_var inv x v _ _ D). now intros ->.
    - destruct HR as (v & l' & D & -> & _). apply (claims_var inv x v _ _ D). now intros ->.
    - destruct HR as (v & t & D & ->). destruct op; cbn [sc_leaf].
      + unfold sc_var. cbn [av_var]. destruct (N.eqb_spec i v) as [<-|]; [|easy].
        rewrite (undef_lookup _ _ D). now destruct inv.
      + apply (claims_var inv x v _ _ D). now intros ->.
      + apply (claims_var inv x v _ _ D). now intros ->.
    - destruct HR as (v & nv & j & z & D & Dn & _ & _ & ->). cbn [sc_leaf].
      apply claims_and2.
      + apply (claims_var inv _ v _ _ D). now intros ->.
      + unfold sc_var. cbn [av_var]. rewrite (required_other "now" nv TInt); [easy| |easy]. apply HA.
    - destruct HR as (v & nv & D & Dn & ->). cbn [sc_leaf]. apply claims_and2.
      + eapply claims_var; [exact D|]. now intros ->.
      + eapply claims_var; [exact Dn|]. intros ->.
        destruct (lookup ev _) as [y|]; [|easy]. now destruct (segs_in y).
    - destruct HR as (v & w & D & Dw & ->). cbn [sc_leaf]. apply claims_and2.
      + eapply claims_var; [exact D|]. now intros ->.
      + eapply claims_var; [exact Dw|]. intros ->. now destruct (lookup ev "latitude") as [[]|].
    - destruct HR as (v & D & ->). apply (claims_var inv x v _ _ D). now intros ->.
  Qed.

  (** Over attributes that have values, the shortcut decides nothing. *)
  Lemma sc_leaf_given inv a q : atom_ok (c_domains c) cs a -> res_leaf c cs a q ->
    Forall (given (c_domains c) ev) (atom_attrs a) -> sc_leaf i inv q = ScNone.
  Proof.
    intros HA HR HF.
    assert (K : forall x v t, In x (atom_attrs a) -> dv c x v t -> forall b, sc_var i b (mkAV x v) = ScNone).
    { intros x v t Hx D b. unfold sc_var. cbn [av_var]. rewrite Forall_forall in HF.
      now rewrite (given_other x v t (HF x Hx) D). }
    destruct a as [x|b|op x [z|f]|op x [z|f|s]|op x [l|l]|op [z|f|s] x|op x [l|l]|op x|t ns value len|op x id s|a b r|op x pat];
      cbn [res_leaf sem_atom atom_ok atom_attrs] in *.
    - destruct HR as (v & D & ->). cbn [sc_leaf]. eapply K; [now left|exact D].
    - now subst q.
    - destruct HR as (v & [[D ->]|[D ->]]); cbn [sc_leaf]; (eapply K; [now left|exact D]).
    - destruct HR as (v & D & ->). cbn [sc_leaf]. eapply K; [now left|exact D].
    - destruct HR as (v & [[D ->]|[[D ->]|[D (j & -> & _)]]]); cbn [sc_leaf]; (eapply K; [now left|exact D]).
    - destruct HR as (v & D & ->). cbn [sc_leaf]. eapply K; [now left|exact D].
    - destruct HR as (v & j & D & -> & _). cbn [sc_leaf]. eapply K; [now left|exact D].
    - destruct HR as (v & l' & D & -> & _). cbn [sc_leaf]. eapply K; [now left|exact D].
    - destruct HR as (v & l' & D & -> & _). cbn [sc_leaf]. eapply K; [now left|exact D].
    - destruct HR as (v & D & ->). cbn [sc_leaf]. eapply K; [now left|exact D].
    - destruct HR.
    - destruct HR as (v & j & D & -> & _). cbn [sc_leaf]. eapply K; [now left|exact D].
    - destruct HR as (v & l' & D & -> & _). cbn [sc_leaf]. eapply K; [now left|exact D].
    - destruct HR as (v & l' & D & -> & _). cbn [sc_leaf]. eapply K; [now left|exact D].
    - destruct HR as (v & t & D & ->). destruct op; cbn [sc_leaf]; (eapply K; [now left|exact D]).
    - destruct HR as (v & nv & j & z & D & Dn & _ & _ & ->). cbn [sc_leaf].
      erewrite !K; [easy|right; now left|exact Dn|now left|exact D].
    - destruct HR as (v & nv & D & Dn & ->). cbn [sc_leaf].
      destruct x as [x|]; erewrite !K; try easy; try exact Dn; try exact D; cbn; auto.
    - destruct HR as (v & w & D & Dw & ->). cbn [sc_leaf].
      erewrite !K; [easy|right; now left|exact Dw|now left|exact D].
    - destruct HR as (v & D & ->). cbn [sc_leaf]. eapply K; [now left|exact D].
  Qed.

  (** Where an undefined attribute cannot make an atom false (true), the shortcut does not say so. *)
  Lemma sc_var_may inv v : sc_var i inv v <> (if inv then ScFail else ScPass).
  Proof. unfold sc_var. destruct (i =? av_var v), inv; easy. Qed.
  Lemma sc_and_may (inv : bool) k1 k2 : k1 <> (if inv then ScFail else ScPass) -> k2 <> (if inv then ScFail else ScPass) ->
    sc_and k1 k2 <> (if inv then ScFail else ScPass).
  Proof. destruct inv, k1, k2; cbn; easy. Qed.
  Lemma sc_leaf_may inv a q : atom_ok (c_domains c) cs a -> res_leaf c cs a q ->
    sc_leaf i inv q <> (if match a with ANull NIsNull _ => negb inv | _ => inv end then ScFail else ScPass).
  Proof.
    intros HA HR.
    destruct a as [x|b|op x [z|f]|op x [z|f|s]|op x [l|l]|op [z|f|s] x|op x [l|l]|op x|t ns value len|op x id s|a b r|op x pat];
      cbn [res_leaf atom_ok] in *.
    - destruct HR as (v & D & ->). apply sc_var_may.
    - subst q. cbn [sc_leaf]. destruct inv; easy.
    - destruct HR as (v & [[D ->]|[D ->]]); apply sc_var_may.
    - destruct HR as (v & D & ->). apply sc_var_may.
    - destruct HR as (v & [[D ->]|[[D ->]|[D (j & -> & _)]]]); apply sc_var_may.
    - destruct HR as (v & D & ->). apply sc_var_may.
    - destruct HR as (v & j & D & -> & _). apply sc_var_may.
    - destruct HR as (v & l' & D & -> & _). apply sc_var_may.
    - destruct HR as (v & l' & D & -> & _). apply sc_var_may.
    - destruct HR as (v & D & ->). apply sc_var_may.
    - destruct HR.
    - destruct HR as (v & j & D & -> & _). apply sc_var_may.
    - destruct HR as (v & l' & D & -> & _). apply sc_var_may.
    - destruct HR as (v & l' & D & -> & _). apply sc_var_may.
    - destruct HR as (v & t & D & ->). destruct op; cbn [sc_leaf]; apply sc_var_may.
    - destruct HR as (v & nv & j & z & D & Dn & _ & _ & ->). apply sc_and_may; apply sc_var_may.
    - destruct HR as (v & nv & D & Dn & ->). apply sc_and_may; apply sc_var_may.
    - destruct HR as (v & w & D & Dw & ->). apply sc_and_may; apply sc_var_may.
    - destruct HR as (v & D & ->). apply sc_var_may.
  Qed.
  Lemma sc_node_hold x e : res_expr c cs x e -> src_ok (c_domains c) cs x ->
    forall inv, Forall (may_hold (c_domains c) ev) (signed_atoms inv x) -> sc_node i inv e <> ScFail.
  Proof.
    unfold src_ok.
    induction 1; intros HA inv HF; cbn [src_atoms signed_atoms sc_node] in *.
    - inversion HA; subst. inversion HF as [|? ? K _]; subst. destruct K as [K|K]; cbn [fst snd] in K.
      + now rewrite (sc_leaf_given inv a q).
      + pose proof (sc_leaf_may inv a q ltac:(assumption) H) as M. destruct a as [ | | | | | | |[]| | | | ]; subst inv; exact M.
    - auto.
    - apply Forall_app in HA, HF. destruct HA as [A1 A2], HF as [F1 F2].
      specialize (IHrel_src1 A1 inv F1). specialize (IHrel_src2 A2 inv F2).
      destruct (sc_node i inv e), (sc_node i inv e'); cbn; easy.
    - apply Forall_app in HA, HF. destruct HA as [A1 A2], HF as [F1 F2].
      specialize (IHrel_src1 A1 inv F1). specialize (IHrel_src2 A2 inv F2).
      destruct (sc_node i inv e), (sc_node i inv e'); cbn; easy.
    - apply Forall_app in HA, HF. destruct HA as [A1 A2], HF as [F1 F2].
      specialize (IHrel_src1 A1 inv F1). specialize (IHrel_src2 A2 inv F2).
      destruct (sc_node i inv e), (sc_node i inv e'); cbn; easy.
    - apply Forall_app in HA, HF. destruct HA as [A1 A2], HF as [F1 F2].
      specialize (IHrel_src1 A1 inv F1). specialize (IHrel_src2 A2 inv F2).
      destruct (sc_node i inv e), (sc_node i inv e'); cbn; easy.
  Qed.
  Lemma sc_node_fail x e : res_expr c cs x e -> src_ok (c_domains c) cs x ->
    forall inv, Forall (may_fail (c_domains c) ev) (signed_atoms inv x) -> sc_node i inv e <> ScPass.
  Proof.
    unfold src_ok.
    induction 1; intros HA inv HF; cbn [src_atoms signed_atoms sc_node] in *.
    - inversion HA; subst. inversion HF as [|? ? K _]; subst. destruct K as [K|K]; cbn [fst snd] in K.
      + now rewrite (sc_leaf_given inv a q).
      + pose proof (sc_leaf_may inv a q ltac:(assumption) H) as M. destruct a as [ | | | | | | |[]| | | | ]; subst inv; exact M.
    - auto.
    - apply Forall_app in HA, HF. destruct HA as [A1 A2], HF as [F1 F2].
      specialize (IHrel_src1 A1 inv F1). specialize (IHrel_src2 A2 inv F2).
      destruct (sc_node i inv e), (sc_node i inv e'); cbn; easy.
    - apply Forall_app in HA, HF. destruct HA as [A1 A2], HF as [F1 F2].
      specialize (IHrel_src1 A1 inv F1). specialize (IHrel_src2 A2 inv F2).
      destruct (sc_node i inv e), (sc_node i inv e'); cbn; easy.
    - apply Forall_app in HA, HF. destruct HA as [A1 A2], HF as [F1 F2].
      specialize (IHrel_src1 A1 inv F1). specialize (IHrel_src2 A2 inv F2).
      destruct (sc_node i inv e), (sc_node i inv e'); cbn; easy.
    - apply Forall_app in HA, HF. destruct HA as [A1 A2], HF as [F1 F2].
      specialize (IHrel_src1 A1 inv F1). specialize (IHrel_src2 A2 inv F2).
      destruct (sc_node i inv e), (sc_node i inv e'); cbn; easy.
  Qed.

  Theorem sc_node_sem x e : res_expr c cs x e -> src_ok (c_domains c) cs x ->
    forall inv, short_ok (c_domains c) ev inv x -> claims inv (sc_node i inv e) (sem cs ev x).
  Proof.
    induction 1; intros HA inv HN; unfold src_ok in HA; cbn [src_atoms short_ok signed_atoms sc_node sem] in *.
    - inversion HA; subst. now apply sc_leaf_sem.
    - specialize (IHrel_src HA (negb inv) HN). destruct (sc_node i (negb inv) e), inv; cbn in *;
        destruct (sem cs ev x); easy.
    - apply Forall_app in HA. destruct HA as [A1 A2], HN as (R & N1 & N2).
      specialize (IHrel_src1 A1 inv N1). specialize (IHrel_src2 A2 inv N2). destruct inv.
      + specialize (R eq_refl). apply Forall_app in R. destruct R as [R1 R2].
        pose proof (sc_node_hold _ _ H A1 _ R1). pose proof (sc_node_hold _ _ H0 A2 _ R2).
        destruct (sc_node i true e), (sc_node i true e'); cbn in *; subst; try easy.
        rewrite IHrel_src1. easy.
      + destruct (sc_node i false e), (sc_node i false e'); cbn in *; subst; try easy;
          rewrite ?IHrel_src1, ?IHrel_src2, ?andb_false_r; easy.
    - apply Forall_app in HA. destruct HA as [A1 A2], HN as (R & N1 & N2).
      specialize (IHrel_src1 A1 inv N1). specialize (IHrel_src2 A2 inv N2). destruct inv.
      + specialize (R eq_refl). apply Forall_app in R. destruct R as [R1 R2].
        pose proof (sc_node_hold _ _ H A1 _ R1). pose proof (sc_node_hold _ _ H0 A2 _ R2).
        destruct (sc_node i true e), (sc_node i true e'); cbn in *; subst; try easy.
        rewrite IHrel_src1. easy.
      + destruct (sc_node i false e), (sc_node i false e'); cbn in *; subst; try easy;
          rewrite ?IHrel_src1, ?IHrel_src2, ?andb_false_r; easy.
    - apply Forall_app in HA. destruct HA as [A1 A2], HN as (R & N1 & N2).
      specialize (IHrel_src1 A1 inv N1). specialize (IHrel_src2 A2 inv N2). destruct inv.
      + specialize (R eq_refl). apply Forall_app in R. destruct R as [R1 R2].
        pose proof (sc_node_fail _ _ H A1 _ R1). pose proof (sc_node_fail _ _ H0 A2 _ R2).
        destruct (sc_node i true e), (sc_node i true e'); cbn in *; subst; try easy.
        rewrite IHrel_src1. easy.
      + destruct (sc_node i false e), (sc_node i false e'); cbn in *; subst; try easy;
          rewrite ?IHrel_src1, ?IHrel_src2, ?orb_true_r; easy.
    - apply Forall_app in HA. destruct HA as [A1 A2], HN as (R & N1 & N2).
      specialize (IHrel_src1 A1 inv N1). specialize (IHrel_src2 A2 inv N2). destruct inv.
      + specialize (R eq_refl). apply Forall_app in R. destruct R as [R1 R2].
        pose proof (sc_node_fail _ _ H A1 _ R1). pose proof (sc_node_fail _ _ H0 A2 _ R2).
        destruct (sc_node i true e), (sc_node i true e'); cbn in *; subst; try easy.
        rewrite IHrel_src1. easy.
      + destruct (sc_node i false e), (sc_node i false e'); cbn in *; subst; try easy;
          rewrite ?IHrel_src1, ?IHrel_src2, ?orb_true_r; easy.
  Qed.
End Short.

(** *** Resolved expressions can be compared *)
(** The variable `now`, if declared. *)
Definition now_var (ds : list domain) : option N := option_map fst (decl ds "now").
Lemma res_leaf_std c cs a q : atom_ok (c_domains c) cs a -> res_leaf c cs a q ->
  leaf_fin q /\ leaf_std (now_var (c_domains c)) q.
Proof.
  intros HA HR.
  destruct a as [x|b|op x [z|f]|op x [z|f|s]|op x [l|l]|op [z|f|s] x|op x [l|l]|op x|t ns value len|op x id s|a b r|op x pat];
    cbn [res_leaf atom_ok] in *; unfold leaf_fin.
  - destruct HR as (v & D & ->). split; [repeat constructor|easy].
  - subst q. split; [repeat constructor|easy].
  - destruct HR as (v & [[D ->]|[D ->]]); (split; [|easy]); repeat constructor. cbn. apply f_of_Z_not_nan.
  - destruct HR as (v & D & ->). split; [|easy]. repeat constructor. cbn. apply HA.
  - destruct HR as (v & [[D ->]|[[D ->]|[D (j & -> & _)]]]); (split; [|easy]); repeat constructor. cbn. apply f_of_Z_not_nan.
  - destruct HR as (v & D & ->). split; [|easy]. repeat constructor. cbn. apply HA.
  - destruct HR as (v & j & D & -> & _). split; [repeat constructor|easy].
  - destruct HR as (v & l' & D & -> & _). split; [|easy]. repeat constructor.
    apply Forall_forall. intros f Hf. apply in_map_iff in Hf. now destruct Hf as (? & <- & _).
  - destruct HR as (v & l' & D & -> & _). split; [|easy]. repeat constructor.
    apply Forall_forall. intros f Hf. apply in_map_iff in Hf. now destruct Hf as (? & <- & _).
  - destruct HR as (v & D & ->). split; [repeat constructor|easy].
  - destruct HR.
  - destruct HR as (v & j & D & -> & _). split; [repeat constructor|easy].
  - destruct HR as (v & l' & D & -> & _). split; [|easy]. repeat constructor.
    apply Forall_forall. intros f Hf. apply in_map_iff in Hf. now destruct Hf as (? & <- & _).
  - destruct HR as (v & l' & D & -> & _). split; [|easy]. repeat constructor.
    apply Forall_forall. intros f Hf. apply in_map_iff in Hf. now destruct Hf as (? & <- & _).
  - destruct HR as (v & t & D & ->). split; [repeat constructor|easy].
  - destruct HR as (v & nv & j & z & D & (d' & Dn & _) & _ & _ & ->). split; [repeat constructor|].
    cbn. unfold now_var. now rewrite Dn.
  - destruct HR as (v & nv & D & (d' & Dn & _) & ->). split; [repeat constructor|].
    cbn. unfold now_var. now rewrite Dn.
  - destruct HR as (v & w & D & Dw & ->). destruct HA as (_ & _ & P1 & P2 & P3). split.
    + repeat constructor; [apply P1|apply P2|apply P3].
    + cbn. split; [apply P1|split; [apply P2|apply P3]].
  - destruct HR as (v & D & ->). split; [repeat constructor|easy].
Qed.

Lemma res_expr_leaves c cs x e : src_ok (c_domains c) cs x -> res_expr c cs x e ->
  leaves_ok (now_var (c_domains c)) e.
Proof.
  unfold src_ok. intros HA HR. induction HR; cbn [src_atoms leaves_ok] in *; try apply Forall_app in HA;
    try tauto.
  inversion HA; subst. eapply res_leaf_std; eauto.
Qed.
