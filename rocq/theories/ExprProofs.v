(** Consequences for single predicates, for rewritten expressions and for rewritten events. *)
From Coq Require Import ZArith NArith String Bool List Lia Permutation Sorted.
From Coq Require Import ZifyBool ZifyNat ZifyN.
From Verif Require Import Base Float Value Special Ast Match Config Assign Source Bound Tree PredMap RbTree Api Spec TreeSpec Hist.
From Verif Require Import BaseProofs ListProofs SpecialProofs EvalProofs InternProofs ExtProofs ResProofs PassProofs PredProofs ShortProofs GvbProofs TreeProofs WideProofs HistProofs SearchProofs AnswerProofs.
Import ListNotations.
Local Open Scope Z_scope.

Section WithGeo.
  Context {G : Geo}.

  Lemma reported {fm} ds t pend log ev e : searchable_in fm ds t pend log ev -> In e log -> fair fm t ev [e] ->
    (reports t ev (e_id e) <-> sem (e_cs e) ev (e_src e) = true).
  Proof.
    intros (R & HP & HO & HC) HI HF. inversion HF as [|? ? HF1 _]; subst.
    destruct (search_each ds t pend log ev R HP HO e HC HI HF1) as (r & E & <-). split.
    - intros (r' & E' & H). rewrite E in E'. injection E' as <-. exact H.
    - intros H. exists r. auto.
  Qed.
  Lemma same_hits {fm fm'} ds t pend log ev ds' t' pend' log' ev' :
    searchable_in fm ds t pend log ev -> searchable_in fm' ds' t' pend' log' ev' -> fair fm t ev log -> fair fm' t' ev' log' ->
    hits ev log = hits ev' log' -> same_reports t ev t' ev'.
  Proof.
    intros (R & HP & HO & HC) (R' & HP' & HO' & HC') F F' H.
    destruct (search_exact ds t pend log ev R HP HO HC F) as (r & E & P).
    destruct (search_exact ds' t' pend' log' ev' R' HP' HO' HC' F') as (r' & E' & P').
    exists r, r'. sp; auto. rewrite P, P', H. reflexivity.
  Qed.
  (** Predicates that compare with no number need no fairness. *)
  Lemma fair_clear_atom fm t ev e a : e_src e = XAtom a -> clear (c_domains (bt_cfg t)) ev (XAtom a) -> fair fm t ev [e].
  Proof.
    intros E C. apply fair_single. unfold fair_one, calm. rewrite E. cbn [short_ok range_ok]. sp; auto.
  Qed.
  Lemma fair_atom fm t ev e a : e_src e = XAtom a -> constant_of a = None -> fair fm t ev [e].
  Proof. intros E C. apply (fair_clear_atom _ _ _ _ _ E). constructor; [|constructor]. intros n k f v d K. congruence. Qed.
  Lemma fair_absent fm t ev e a x : e_src e = XAtom a -> In x (atom_attrs a) -> lookup ev x = None -> fair fm t ev [e].
  Proof.
    intros E I L. apply (fair_clear_atom _ _ _ _ _ E). constructor; [|constructor]. intros n k f v d K _ _ LK. exfalso.
    assert (n = x) as ->; [|congruence].
    destruct a; cbn [constant_of] in K; try discriminate K; cbn [atom_attrs In] in I.
    - destruct I as [<-|[]]. destruct c; now injection K as <- <-.
    - destruct I as [<-|[]]. destruct c; try discriminate K; now injection K as <- <-.
  Qed.

  Lemma entry_ok {fm} ds t pend log e : reach_in fm ds t pend log -> In e log -> src_ok ds (e_cs e) (e_src e).
  Proof.
    intros R H. pose proof (reach_inv _ _ _ _ R) as [ISG IC IF IT IN (V & l & PM & PS & EL & FS)].
    rewrite <- EL in H. apply in_map_iff in H. destruct H as ([s e'] & <- & H). rewrite Forall_forall in FS.
    pose proof (FS (s, e') (in_or_app _ _ _ (or_introl H))) as F. cbn [fst snd] in *.
    eapply src_ok_sig; [|exact (st_src _ _ _ _ _ F)]. congruence.
  Qed.

  (** *** Absent attributes *)
  Lemma absent ds ev cs a x : complete ds ev -> atom_ok ds cs a -> In x (atom_attrs a) -> lookup ev x = None ->
    (sem_atom cs ev a = true <-> a = ANull NIsNull x).
  Proof.
    intros HC HA HI L.
    assert (forall v w, required ds w -> lookup ev w = v -> v <> None) as RQ.
    { intros v w (i & d & D & U) <-. destruct (decl_spec _ _ _ _ D) as [N _].
      destruct (HC i d N U) as (n & D' & K). pose proof (decl_inj _ _ _ _ _ _ D D') as E.
      intros K'. apply K. rewrite <- K'. clear - E. induction ev as [|[m o] ev IH]; cbn [lookup]; [easy|]. now rewrite IH, E. }
    destruct a; cbn [atom_attrs In] in HI; cbn [sem_atom];
      try (match type of HI with _ \/ False => destruct HI as [<-|HF]; [|destruct HF] end).
    - rewrite L. easy.
    - destruct HI.
    - destruct c; rewrite L; easy.
    - destruct c; rewrite L; easy.
    - destruct l; rewrite L; easy.
    - destruct c; rewrite ?L; easy.
    - destruct l; rewrite L; easy.
    - destruct op; rewrite L; try easy.
    - destruct HI as [<-|[<-|[]]]; [rewrite L; easy|].
      destruct HA as (_ & _ & _ & HR & _). now destruct (RQ _ _ HR L).
    - destruct x0 as [x0|]; destruct HI as [<-|[<-|[]]]; rewrite ?L; try easy;
        match goal with |- context [match lookup ev ?y with _ => _ end] => destruct (lookup ev y) as [v|] end; try easy; destruct (segs_in v); easy.
    - destruct HI as [<-|[<-|[]]]; rewrite ?L; try easy. destruct (lookup ev "latitude") as [[]|]; easy.
    - rewrite L. easy.
  Qed.
  Theorem absent_reported {fm} ds t pend log ev e a x : searchable_in fm ds t pend log ev -> In e log -> e_src e = XAtom a ->
    In x (atom_attrs a) -> lookup ev x = None -> (reports t ev (e_id e) <-> a = ANull NIsNull x).
  Proof.
    intros S HI E HX L. rewrite (reported ds t pend log ev e S HI (fair_absent _ _ _ _ _ _ E HX L)), E. cbn [sem]. destruct S as (R & HP & HO & HC).
    pose proof (entry_ok _ _ _ _ _ R HI) as K. rewrite E in K. inversion K; subst. eapply absent; eauto.
  Qed.
  Theorem combined_reported {fm} ds t pend log ev e e1 e2 : searchable_in fm ds t pend log ev -> fair fm t ev [e; e1; e2] ->
    In e log -> In e1 log -> In e2 log -> e_cs e1 = e_cs e -> e_cs e2 = e_cs e ->
    (e_src e = XNot (e_src e1) -> (reports t ev (e_id e) <-> ~ reports t ev (e_id e1)))
    /\ (e_src e = XAnd (e_src e1) (e_src e2) -> (reports t ev (e_id e) <-> reports t ev (e_id e1) /\ reports t ev (e_id e2)))
    /\ (e_src e = XOr (e_src e1) (e_src e2) -> (reports t ev (e_id e) <-> reports t ev (e_id e1) \/ reports t ev (e_id e2))).
  Proof.
    intros S F H H1 H2 C1 C2. inversion F as [|? ? F0 F']; subst. inversion F' as [|? ? F1 F'']; subst. inversion F'' as [|? ? F2 _]; subst.
    apply fair_single in F0, F1, F2.
    rewrite (reported _ _ _ _ _ e S H F0), (reported _ _ _ _ _ e1 S H1 F1), (reported _ _ _ _ _ e2 S H2 F2), C1, C2. sp; intros E; rewrite E; cbn [sem].
    - destruct (sem _ _ _); cbn; intuition discriminate.
    - now rewrite andb_true_iff.
    - now rewrite orb_true_iff.
  Qed.

  (** *** Lists *)
  Definition in_claim (op : set_op) (P : Prop) : Prop := match op with SIn => P | SNotIn => ~ P end.
  Definition list_claim {A} (op : list_op) (have want : list A) : Prop :=
    match op with
    | LOneOf => exists c, In c want /\ In c have
    | LNoneOf => ~ exists c, In c want /\ In c have
    | LAllOf => forall c, In c want -> In c have
    end.
  Lemma memZ_In' z l : memZ z l = true <-> In z l.
  Proof. unfold memZ. rewrite existsb_exists. split; [intros (y & H & E); now replace z with y by lia|]. intros H. exists z. split; [exact H|apply Z.eqb_refl]. Qed.
  Lemma in_claim_ok op b P : (b = true <-> P) -> (in_res op b = true <-> in_claim op P).
  Proof. intros H. destruct op, b; cbn; intuition congruence. Qed.
  Lemma list_claim_ok {A} (mem : A -> list A -> bool) op have want : (forall x l, mem x l = true <-> In x l) ->
    (list_res mem op have want = true <-> list_claim op have want).
  Proof.
    intros H.
    assert (existsb (fun c => mem c have) want = true <-> exists c, In c want /\ In c have) as K.
    { rewrite existsb_exists. split; intros (c & X & Y); exists c; apply H in Y; auto. }
    destruct op; cbn [list_res list_claim].
    - exact K.
    - rewrite negb_true_iff, <- K. destruct (existsb _ _); intuition congruence.
    - rewrite forallb_forall. split; intros F c X; apply H; auto.
  Qed.
  Theorem in_ints_reported {fm} ds t pend log ev e op x l y : searchable_in fm ds t pend log ev -> In e log ->
    e_src e = XAtom (AIn op x (SInts l)) -> lookup ev x = Some (VInt y) -> (reports t ev (e_id e) <-> in_claim op (In y l)).
  Proof.
    intros S HI E L. rewrite (reported _ _ _ _ _ e S HI (fair_atom _ _ _ _ _ E eq_refl)), E. cbn [sem sem_atom]. rewrite L. apply in_claim_ok, memZ_In'.
  Qed.
  Theorem in_strs_reported {fm} ds t pend log ev e op x l y : searchable_in fm ds t pend log ev -> In e log ->
    e_src e = XAtom (AIn op x (SStrs l)) -> lookup ev x = Some (VStr y) -> (reports t ev (e_id e) <-> in_claim op (In (sv_string y) l)).
  Proof.
    intros S HI E L. rewrite (reported _ _ _ _ _ e S HI (fair_atom _ _ _ _ _ E eq_refl)), E. cbn [sem sem_atom]. rewrite L. apply in_claim_ok, memS_In.
  Qed.
  Theorem has_int_reported {fm} ds t pend log ev e op x z v have : searchable_in fm ds t pend log ev -> In e log ->
    e_src e = XAtom (AHas op (SInt z) x) -> lookup ev x = Some v -> ints_in v = Some have ->
    (reports t ev (e_id e) <-> in_claim op (In z have)).
  Proof.
    intros S HI E L V. rewrite (reported _ _ _ _ _ e S HI (fair_atom _ _ _ _ _ E eq_refl)), E. cbn [sem sem_atom]. rewrite L, V. apply in_claim_ok, memZ_In'.
  Qed.
  Theorem has_str_reported {fm} ds t pend log ev e op x s v have : searchable_in fm ds t pend log ev -> In e log ->
    e_src e = XAtom (AHas op (SStr s) x) -> lookup ev x = Some v -> strs_in v = Some have ->
    (reports t ev (e_id e) <-> in_claim op (In s have)).
  Proof.
    intros S HI E L V. rewrite (reported _ _ _ _ _ e S HI (fair_atom _ _ _ _ _ E eq_refl)), E. cbn [sem sem_atom]. rewrite L, V. apply in_claim_ok, memS_In.
  Qed.
  Theorem list_ints_reported {fm} ds t pend log ev e op x want v have : searchable_in fm ds t pend log ev -> In e log ->
    e_src e = XAtom (AList op x (SInts want)) -> lookup ev x = Some v -> ints_in v = Some have ->
    (reports t ev (e_id e) <-> list_claim op have want).
  Proof.
    intros S HI E L V. rewrite (reported _ _ _ _ _ e S HI (fair_atom _ _ _ _ _ E eq_refl)), E. cbn [sem sem_atom]. rewrite L, V. apply list_claim_ok, memZ_In'.
  Qed.
  Theorem list_strs_reported {fm} ds t pend log ev e op x want v have : searchable_in fm ds t pend log ev -> In e log ->
    e_src e = XAtom (AList op x (SStrs want)) -> lookup ev x = Some v -> strs_in v = Some have ->
    (reports t ev (e_id e) <-> list_claim op have want).
  Proof.
    intros S HI E L V. rewrite (reported _ _ _ _ _ e S HI (fair_atom _ _ _ _ _ E eq_refl)), E. cbn [sem sem_atom]. rewrite L, V. apply list_claim_ok, memS_In.
  Qed.

  (** *** Rewriting *)
  Lemma alike_sem (R : atom -> atom -> Prop) cs ev ev' x x' : alike R x x' ->
    (forall a a', In a (src_atoms x) -> In a' (src_atoms x') -> R a a' -> sem_atom cs ev a = sem_atom cs ev' a') ->
    sem cs ev x = sem cs ev' x'.
  Proof.
    induction 1 as [a a' H|x x' A IH|x x' y y' A IH B IH'|x x' y y' A IH B IH']; cbn [src_atoms sem]; intros K.
    - apply K; cbn; auto.
    - f_equal. auto.
    - f_equal; [apply IH|apply IH']; intros; apply K; auto; apply in_or_app; auto.
    - f_equal; [apply IH|apply IH']; intros; apply K; auto; apply in_or_app; auto.
  Qed.
  Lemma alike_hits R ev ev' log log' : entries_alike R log log' ->
    (forall cs a a', R a a' -> sem_atom cs ev a = sem_atom cs ev' a') -> hits ev log = hits ev' log'.
  Proof.
    intros F K. unfold hits. induction F as [|e e' l l' (I & C & A) F IH]; [easy|]. cbn [filter].
    assert (sem (e_cs e) ev (e_src e) = sem (e_cs e') ev' (e_src e')) as ->.
    { rewrite <- C. eapply alike_sem; [exact A|]. auto. }
    destruct (sem _ _ _); cbn [map]; rewrite IH, ?I; reflexivity.
  Qed.
  Lemma same_set_mem {A} (mem : A -> list A -> bool) : (forall x l, mem x l = true <-> In x l) ->
    forall x l l', same_set l l' -> mem x l = mem x l'.
  Proof. intros H x l l' S. apply eq_true_iff_eq. rewrite !H. apply S. Qed.
  Lemma same_set_list {A} (mem : A -> list A -> bool) op have have' want want' : (forall x l, mem x l = true <-> In x l) ->
    same_set have have' -> same_set want want' -> list_res mem op have want = list_res mem op have' want'.
  Proof.
    intros H S S'. apply eq_true_iff_eq. rewrite !(list_claim_ok mem) by exact H. unfold same_set in *.
    assert ((exists c, In c want /\ In c have) <-> (exists c, In c want' /\ In c have')) as K.
    { split; intros (c & X & Y); exists c; split; (now apply S') || (now apply S). }
    destruct op; cbn [list_claim]; [exact K|now rewrite K|].
    split; intros F c X; apply S, F, S', X.
  Qed.
  Lemma lookup_alike ev ev' x : events_alike ev ev' ->
    match lookup ev x, lookup ev' x with Some v, Some v' => values_alike v v' | None, None => True | _, _ => False end.
  Proof.
    induction 1 as [|[n o] [n' o'] ev ev' [E V] F IH]; [easy|]. cbn [lookup fst snd] in *. subst n'.
    destruct (lookup ev x) eqn:L, (lookup ev' x) eqn:L'; try contradiction; auto.
    destruct (String.eqb _ _); auto.
  Qed.
  Lemma same_set_refl {A} (l : list A) : same_set l l.
  Proof. now intros x. Qed.
  Lemma same_set_nil {A} (l : list A) : same_set [] l -> l = [].
  Proof. intros H. destruct l as [|x l]; [easy|]. destruct (proj2 (H x)). now left. Qed.
  Lemma same_set_sym {A} (l l' : list A) : same_set l l' -> same_set l' l.
  Proof. intros H x. symmetry. apply H. Qed.
  Lemma same_set_nil' {A} (l : list A) : same_set l [] -> l = [].
  Proof. intros H. now apply same_set_nil, same_set_sym. Qed.
  Lemma ints_alike v v' : values_alike v v' ->
    match ints_in v, ints_in v' with Some l, Some l' => same_set l l' | None, None => True | _, _ => False end.
  Proof. destruct 1 as [v|l l' S|l l' S]; cbn; auto. destruct (ints_in v); auto using same_set_refl. Qed.
  Lemma strs_alike v v' : values_alike v v' ->
    match strs_in v, strs_in v' with Some l, Some l' => same_set l l' | None, None => True | _, _ => False end.
  Proof.
    destruct 1 as [v|l l' S|l l' S]; cbn [strs_in]; auto. { destruct (strs_in v); auto using same_set_refl. }
    destruct l; [apply same_set_nil in S; subst; apply same_set_refl|]. destruct l'; [apply same_set_nil' in S; discriminate|easy].
  Qed.
  Lemma segs_alike v v' : values_alike v v' -> segs_in v = segs_in v'.
  Proof.
    destruct 1 as [v|l l' S|l l' S]; cbn [segs_in]; auto.
    destruct l; [apply same_set_nil in S; now subst|]. destruct l'; [apply same_set_nil' in S; discriminate|easy].
  Qed.
  Lemma caps_alike v v' : values_alike v v' -> caps_in v = caps_in v'.
  Proof.
    destruct 1 as [v|l l' S|l l' S]; cbn [caps_in]; auto.
    destruct l; [apply same_set_nil in S; now subst|]. destruct l'; [apply same_set_nil' in S; discriminate|easy].
  Qed.
  (** Scalar values are not changed. *)
  Definition scalar (v : value) : Prop := match v with VIntList _ | VStrList _ => False | _ => True end.
  Lemma scalar_alike v v' : values_alike v v' -> v' = v \/ (~ scalar v /\ ~ scalar v').
  Proof. destruct 1; cbn; auto. Qed.
  Lemma lists_alike_sem cs ev ev' a a' : events_alike ev ev' -> lists_alike a a' -> sem_atom cs ev a = sem_atom cs ev' a'.
  Proof.
    intros HE HA. pose proof (fun x => lookup_alike ev ev' x HE) as L.
    assert (forall x (f : option value -> bool), (forall v v', ~ scalar v -> ~ scalar v' -> f (Some v) = f (Some v')) ->
       f (lookup ev x) = f (lookup ev' x)) as SC.
    { intros x f K. specialize (L x). destruct (lookup ev x) as [v|], (lookup ev' x) as [v'|]; try contradiction; auto.
      apply scalar_alike in L. destruct L as [->|[A B]]; auto. }
    assert (forall x (f : list Z -> bool) g, (forall l l', same_set l l' -> f l = g l') ->
       match lookup ev x with Some v => match ints_in v with Some l => f l | None => false end | None => false end
       = match lookup ev' x with Some v => match ints_in v with Some l => g l | None => false end | None => false end) as IL.
    { intros x f g K. specialize (L x). destruct (lookup ev x) as [v|], (lookup ev' x) as [v'|]; try contradiction; auto.
      apply ints_alike in L. destruct (ints_in v), (ints_in v'); try contradiction; auto. }
    assert (forall x (f : list string -> bool) g, (forall l l', same_set l l' -> f l = g l') ->
       match lookup ev x with Some v => match strs_in v with Some l => f l | None => false end | None => false end
       = match lookup ev' x with Some v => match strs_in v with Some l => g l | None => false end | None => false end) as SL.
    { intros x f g K. specialize (L x). destruct (lookup ev x) as [v|], (lookup ev' x) as [v'|]; try contradiction; auto.
      apply strs_alike in L. destruct (strs_in v), (strs_in v'); try contradiction; auto. }
    assert (forall v v', ~ scalar v -> ~ scalar v' -> True) as _ by auto.
    Ltac nonscalar := intros v v' A B; destruct v; cbn in A; try tauto; destruct v'; cbn in B; tauto.
    destruct HA as [a|op x l l' S|op x l l' S|op x l l' S|op x l l' S].
    - destruct a; cbn [sem_atom]; auto.
      + apply (SC x (fun o => match o with Some (VBool b) => b | _ => false end)). nonscalar.
      + destruct c.
        * apply (SC x (fun o => match o with Some (VInt y) => cmp_Z op y z | Some (VFloat y) => cmp_F op y (f_of_Z z) | _ => false end)). nonscalar.
        * apply (SC x (fun o => match o with Some (VFloat y) => cmp_F op y f | _ => false end)). nonscalar.
      + destruct c.
        * apply (SC x (fun o => match o with Some (VInt y) => eq_res op (y =? z) | Some (VFloat y) => eq_res op (feq y (f_of_Z z)) | _ => false end)). nonscalar.
        * apply (SC x (fun o => match o with Some (VFloat y) => eq_res op (feq y f) | _ => false end)). nonscalar.
        * apply (SC x (fun o => match o with Some (VStr y) => eq_res op (String.eqb (sv_string y) s) | _ => false end)). nonscalar.
      + destruct l.
        * apply (SC x (fun o => match o with Some (VInt y) => in_res op (memZ y l) | _ => false end)). nonscalar.
        * apply (SC x (fun o => match o with Some (VStr y) => in_res op (memS (sv_string y) l) | _ => false end)). nonscalar.
      + destruct c; auto.
        * apply (IL x (fun l => in_res op (memZ z l)) (fun l => in_res op (memZ z l))). intros. f_equal. apply (same_set_mem memZ memZ_In'). auto.
        * apply (SL x (fun l => in_res op (memS s l)) (fun l => in_res op (memS s l))). intros. f_equal. apply (same_set_mem memS memS_In). auto.
      + destruct l.
        * apply (IL x (fun h => list_res memZ op h l) (fun h => list_res memZ op h l)). intros. apply same_set_list; auto using memZ_In', same_set_refl.
        * apply (SL x (fun h => list_res memS op h l) (fun h => list_res memS op h l)). intros. apply same_set_list; auto using memS_In, same_set_refl.
      + specialize (L x). destruct (lookup ev x) as [v|] eqn:E, (lookup ev' x) as [v'|]; try contradiction; [|destruct op; auto].
        destruct op; auto. destruct L as [v|l l' S|l l' S]; auto.
        * destruct l; [apply same_set_nil in S; now subst|]. destruct l'; [apply same_set_nil' in S; discriminate|easy].
        * destruct l; [apply same_set_nil in S; destruct l'; [easy|discriminate]|]. destruct l'; [apply same_set_nil' in S; discriminate|easy].
      + assert (forall b, (match lookup ev "now" with Some (VInt now) => b now | _ => false end) = (match lookup ev' "now" with Some (VInt now) => b now | _ => false end)) as NW.
        { intros b. apply (SC "now"%string (fun o => match o with Some (VInt y) => b y | _ => false end)). nonscalar. }
        pose proof (L "frequency_caps"%string) as LC. destruct (lookup ev "frequency_caps") as [v|], (lookup ev' "frequency_caps") as [v'|]; try contradiction; auto.
        apply caps_alike in LC. rewrite LC. destruct (caps_in v') as [[|k caps]|]; auto.
      + assert (forall b, (match lookup ev "now" with Some (VInt now) => b now | _ => false end) = (match lookup ev' "now" with Some (VInt now) => b now | _ => false end)) as NW.
        { intros b. apply (SC "now"%string (fun o => match o with Some (VInt y) => b y | _ => false end)). nonscalar. }
        set (n := match x with Some x => x | None => "segments_with_timestamp"%string end).
        pose proof (L n) as LC.
        destruct (lookup ev n) as [v|], (lookup ev' n) as [v'|]; try contradiction; auto.
        apply segs_alike in LC. rewrite LC. destruct (segs_in v') as [segs|]; auto.
      + pose proof (L "latitude"%string) as LA. pose proof (L "longitude"%string) as LO.
        destruct (lookup ev "latitude") as [v|], (lookup ev' "latitude") as [v'|]; try contradiction; auto.
        destruct (lookup ev "longitude") as [w|], (lookup ev' "longitude") as [w'|]; try contradiction; auto.
        * apply scalar_alike in LA. apply scalar_alike in LO. destruct LA as [->|[A B]].
          -- destruct v; auto. destruct LO as [->|[A B]]; auto. destruct w; cbn in A; try tauto; destruct w'; cbn in B; tauto.
          -- destruct v; cbn in A; try tauto; destruct v'; cbn in B; tauto.
        * destruct v, v'; auto.
      + apply (SC x (fun o => match o with Some (VStr s) => sem_str op (sv_string s) pattern | _ => false end)). nonscalar.
    - cbn [sem_atom]. rewrite (SC x (fun o => match o with Some (VInt y) => in_res op (memZ y l) | _ => false end)) by nonscalar.
      destruct (lookup ev' x) as [[]|]; auto. f_equal. apply (same_set_mem memZ memZ_In'). auto.
    - cbn [sem_atom]. rewrite (SC x (fun o => match o with Some (VStr y) => in_res op (memS (sv_string y) l) | _ => false end)) by nonscalar.
      destruct (lookup ev' x) as [[]|]; auto. f_equal. apply (same_set_mem memS memS_In). auto.
    - cbn [sem_atom]. apply (IL x (fun h => list_res memZ op h l) (fun h => list_res memZ op h l')). intros. apply same_set_list; auto using memZ_In'.
    - cbn [sem_atom]. apply (SL x (fun h => list_res memS op h l) (fun h => list_res memS op h l')). intros. apply same_set_list; auto using memS_In.
  Qed.
  Theorem lists_same {fm fm'} ds t pend log ev t' pend' log' ev' :
    searchable_in fm ds t pend log ev -> searchable_in fm' ds t' pend' log' ev' -> fair fm t ev log -> fair fm' t' ev' log' ->
    entries_alike lists_alike log log' -> events_alike ev ev' -> same_reports t ev t' ev'.
  Proof.
    intros S S' FR FR' F E. eapply same_hits; eauto. eapply alike_hits; eauto. intros. now apply lists_alike_sem.
  Qed.
End WithGeo.
