(** Names of the nodes of a drawing: walking up, allocating and freeing. *)
From Coq Require Import ZArith NArith String Ascii Bool List Permutation Lia ZifyBool ZifyNat ZifyN Floats.SpecFloat.
From Verif Require Import Base Float Value Ast Config Tree Printer Api Linked LinkedApi DotFile.
From Verif Require Import LinkedSpec PermTac LinkedHeap LinkedNode LinkedInsert LinkedUse DotSpec.
Import ListNotations.
Local Open Scope list_scope.
Local Open Scope string_scope.
Local Open Scope res_scope.
Local Open Scope dot_scope.

(** *** Texts *)
Lemma cat_assoc (a b c : string) : (a ++ b) ++ c = a ++ b ++ c.
Proof. induction a as [|x a IH]; cbn; [reflexivity|now rewrite IH]. Qed.
Lemma cat_nil (a : string) : a ++ "" = a.
Proof. induction a as [|x a IH]; cbn; [reflexivity|now rewrite IH]. Qed.
Lemma concat_cons x l : String.concat "" (x :: l) = x ++ String.concat "" l.
Proof. destruct l as [|y l]; [cbn; now rewrite cat_nil|reflexivity]. Qed.
Lemma concat_app l l' : String.concat "" (l ++ l')%list = String.concat "" l ++ String.concat "" l'.
Proof. induction l as [|x l IH]; [reflexivity|]. cbn [app]. now rewrite !concat_cons, IH, cat_assoc. Qed.

Lemma pad_eq n : pad n = blanks n.
Proof. induction n as [|n IH]; [reflexivity|]. unfold pad in *. cbn [repeat blanks]. now rewrite concat_cons, IH. Qed.
Lemma escape_eq s : escape s = underscored s.
Proof. unfold underscored. induction s as [|a s IH]; cbn; [reflexivity|now rewrite IH]. Qed.
Lemma near_eq a b : (0 < b -> near_div a b = nearest_even a b)%Z.
Proof.
  intros B. unfold near_div, nearest_even. pose proof (Z.div_mod a b ltac:(lia)) as E. pose proof (Z.mod_pos_bound a b B) as M.
  set (q := (a / b)%Z) in *. set (m := (a mod b)%Z) in *.
  destruct (Z.ltb_spec (2 * m) b).
  - assert (((2 * a + b) / (2 * b) = q)%Z) as -> by (symmetry; apply (Z.div_unique_pos _ _ _ (2 * m + b)); nia).
    replace ((2 * a + b) mod (2 * b))%Z with (2 * m + b)%Z by (apply (Z.mod_unique_pos _ _ q); nia).
    destruct (Z.eqb_spec (2 * m + b) 0); [lia|reflexivity].
  - assert (((2 * a + b) / (2 * b) = q + 1)%Z) as -> by (symmetry; apply (Z.div_unique_pos _ _ _ (2 * m - b)); nia).
    replace ((2 * a + b) mod (2 * b))%Z with (2 * m - b)%Z by (apply (Z.mod_unique_pos _ _ (q + 1)); nia).
    destruct (Z.ltb_spec b (2 * m)); destruct (Z.eqb_spec (2 * m - b) 0); try lia; [reflexivity|].
    cbn [andb]. rewrite Z.odd_add, <- Z.negb_even. destruct (Z.even q); cbn; lia.
Qed.
Lemma whole_eq f : show_flt0 f = whole f.
Proof.
  destruct f as [[]|[]| |s m e]; try reflexivity. unfold show_flt0, whole. rewrite Z.ltb_antisym.
  destruct (Z.leb_spec 0 e); cbn [negb]; [now destruct s|]. rewrite near_eq by (apply Z.pow_pos_nonneg; lia). now destruct s.
Qed.

Ltac txt := unfold node_text, quoted, line_end; rewrite ?pad_eq; repeat rewrite ?cat_assoc, ?cat_nil; cbn [blanks Nat.mul Nat.add String.append];
  repeat rewrite ?cat_assoc, ?cat_nil; cbn [String.append]; try reflexivity.

Ltac fin3 := first [split; [first [reflexivity|assumption]|split; [reflexivity|assumption]] | split; [reflexivity|assumption]].

(** *** Steps *)
Definition runs {A} (m : nat -> dot A) (N : nat) (h : heap) (Q : A -> string -> heap -> Prop) : Prop :=
  exists a s h', (forall n, (N <= n)%nat -> m n h = Ok (a, s, h')) /\ Q a s h'.

Lemma runs_mono {A} (m : nat -> dot A) N N' h (P Q : A -> string -> heap -> Prop) :
  runs m N h P -> (N <= N')%nat -> (forall a s h', P a s h' -> Q a s h') -> runs m N' h Q.
Proof. intros (a & s & h' & R & p) L I. exists a, s, h'. split; [intros n K; apply R; lia|now apply I]. Qed.
Lemma runs_step {A} (f g : nat -> dot A) N h Q : (forall n, f (S n) h = g n h) -> runs g N h Q -> runs f (S N) h Q.
Proof.
  intros E (a & s & h' & R & p). exists a, s, h'. split; [|exact p]. intros n K. destruct n as [|n]; [lia|]. rewrite E. apply R. lia.
Qed.
Lemma runs_eq {A} (f g : nat -> dot A) N h Q : (forall n, f n h = g n h) -> runs g N h Q -> runs f N h Q.
Proof. intros E (a & s & h' & R & p). exists a, s, h'. split; [|exact p]. intros n K. rewrite E. now apply R. Qed.
Lemma runs_ret {A} (a : A) N h (Q : A -> string -> heap -> Prop) : Q a "" h -> runs (fun _ => dret a) N h Q.
Proof. intros q. exists a, "", h. now split. Qed.
Lemma runs_say s N h (Q : unit -> string -> heap -> Prop) : Q tt s h -> runs (fun _ => say s) N h Q.
Proof. intros q. exists tt, s, h. now split. Qed.
Lemma runs_bind {A B} (m : nat -> dot A) (k : nat -> A -> dot B) N h Q :
  runs m N h (fun a s h1 => runs (fun n => k n a) N h1 (fun b t h2 => Q b (s ++ t) h2)) ->
  runs (fun n => dbind (m n) (k n)) N h Q.
Proof.
  intros (a & s & h1 & R & b & t & h2 & R2 & q). exists b, (s ++ t), h2. split; [|exact q].
  intros n K. unfold dbind. rewrite R by lia. cbn [bind]. rewrite R2 by lia. reflexivity.
Qed.
Lemma runs_peek {A} (f : heap -> result A) a N h (Q : A -> string -> heap -> Prop) : f h = Ok a -> Q a "" h -> runs (fun _ => peek f) N h Q.
Proof. intros E q. exists a, "", h. split; [|exact q]. intros n _. unfold peek. now rewrite E. Qed.
Lemma runs_as s M N h (Q : dname -> string -> heap -> Prop) :
  holds h M -> (forall a h', holds h' ((a, OStr) :: M) -> Q (a, s) "" h') -> runs (fun _ => asprintf s) N h Q.
Proof.
  intros H q. apply (holds_alloc _ OStr) in H. eexists _, _, _. split; [intros n _; reflexivity|]. apply q. exact H.
Qed.
Lemma runs_text x M N h (Q : string -> string -> heap -> Prop) :
  holds h M -> In (fst x, OStr) M -> Q (snd x) "" h -> runs (fun _ => text_of x) N h Q.
Proof. intros H I q. apply (runs_peek _ (snd x)); [|exact q]. unfold str_at. now rewrite (holds_load _ _ _ H I). Qed.
Lemma runs_free x M M' N h (Q : unit -> string -> heap -> Prop) :
  holds h M -> Permutation M ((fst x, OStr) :: M') -> (forall h', holds h' M' -> Q tt "" h') -> runs (fun _ => bfree x) N h Q.
Proof.
  intros H P q. assert (H1 := holds_perm _ _ H P). destruct (holds_release _ _ _ H1) as (h' & E & H2).
  exists tt, "", h'. split; [|now apply q]. intros n _. unfold bfree, str_at. rewrite (holds_load _ _ _ H1 (or_introl eq_refl)).
  cbn [bind]. rewrite E. reflexivity.
Qed.

(** *** Functions that return a name, a value, or print *)
Definition names (L : list (N * obj)) (m : nat -> dot dname) (t : string) : Prop :=
  exists N, forall M h, incl L M -> holds h M ->
    runs m N h (fun x s h' => snd x = t /\ s = "" /\ holds h' ((fst x, OStr) :: M)).
Definition gives {A} (L : list (N * obj)) (m : nat -> dot A) (a : A) : Prop :=
  exists N, forall M h, incl L M -> holds h M -> runs m N h (fun x s h' => x = a /\ s = "" /\ holds h' M).
Definition draws (L : list (N * obj)) (m : nat -> dot unit) (t : string) : Prop :=
  exists N, forall M h, incl L M -> holds h M -> runs m N h (fun _ s h' => s = t /\ holds h' M).

Lemma names_step L (f g : nat -> dot dname) t : (forall n h, f (S n) h = g n h) -> names L g t -> names L f t.
Proof. intros E (N & H). exists (S N). intros M h I K. apply (runs_step f g); [intros n; apply E|]. now apply H. Qed.
Lemma gives_step {A} L (f g : nat -> dot A) t : (forall n h, f (S n) h = g n h) -> gives L g t -> gives L f t.
Proof. intros E (N & H). exists (S N). intros M h I K. apply (runs_step f g); [intros n; apply E|]. now apply H. Qed.
Lemma draws_step L (f g : nat -> dot unit) t : (forall n h, f (S n) h = g n h) -> draws L g t -> draws L f t.
Proof. intros E (N & H). exists (S N). intros M h I K. apply (runs_step f g); [intros n; apply E|]. now apply H. Qed.
Lemma names_incl L L' m t : names L m t -> incl L L' -> names L' m t.
Proof. intros (N & H) I. exists N. intros M h K. apply H. eapply incl_tran; eauto. Qed.
Lemma draws_incl L L' m t : draws L m t -> incl L L' -> draws L' m t.
Proof. intros (N & H) I. exists N. intros M h K. apply H. eapply incl_tran; eauto. Qed.

(** Composition. *)
Lemma draws_nil L : draws L (fun _ => dret tt) "".
Proof. exists O. intros M h I H. apply runs_ret. now split. Qed.
Lemma draws_say L s : draws L (fun _ => say s) s.
Proof. exists O. intros M h I H. apply runs_say. now split. Qed.
Lemma draws_seq L (m : nat -> dot unit) (k : nat -> unit -> dot unit) s t :
  draws L m s -> draws L (fun n => k n tt) t -> draws L (fun n => dbind (m n) (k n)) (s ++ t).
Proof.
  intros (N1 & H1) (N2 & H2). exists (N1 + N2)%nat. intros M h I H. apply runs_bind.
  eapply runs_mono; [apply (H1 M h I H)|lia|]. intros [] s1 h1 (-> & K1).
  eapply runs_mono; [apply (H2 M h1 I K1)|lia|]. intros ? s2 h2 (-> & K2). now split.
Qed.
Lemma draws_get {A} L (m : nat -> dot A) (k : nat -> A -> dot unit) a t :
  gives L m a -> draws L (fun n => k n a) t -> draws L (fun n => dbind (m n) (k n)) t.
Proof.
  intros (N1 & H1) (N2 & H2). exists (N1 + N2)%nat. intros M h I H. apply runs_bind.
  eapply runs_mono; [apply (H1 M h I H)|lia|]. intros ? s1 h1 (-> & -> & K1).
  eapply runs_mono; [apply (H2 M h1 I K1)|lia|]. intros ? s2 h2 (-> & K2). now split.
Qed.
(** A name is made, used and freed. *)
Lemma draws_with L (m : nat -> dot dname) (k : nat -> dname -> dot unit) x t :
  names L m x ->
  (exists N, forall a M h, incl L M -> holds h ((a, OStr) :: M) ->
     runs (fun n => k n (a, x)) N h (fun _ s h' => s = t /\ holds h' M)) ->
  draws L (fun n => dbind (m n) (k n)) t.
Proof.
  intros (N1 & H1) (N2 & H2). exists (N1 + N2)%nat. intros M h I H. apply runs_bind.
  eapply runs_mono; [apply (H1 M h I H)|lia|]. intros (a & y) s1 h1 (E & -> & K1). cbn in E, K1. subst y.
  eapply runs_mono; [apply (H2 a M h1 I K1)|lia|]. intros ? s2 h2 (-> & K2). now split.
Qed.
Lemma gives_peek {A} L (f : heap -> result A) a :
  (forall M h, incl L M -> holds h M -> f h = Ok a) -> gives L (fun _ => peek f) a.
Proof. intros E. exists O. intros M h I H. apply (runs_peek _ a); [now apply (E M)|]. fin3. Qed.
Lemma gives_ret {A} L (a : A) : gives L (fun _ => dret a) a.
Proof. exists O. intros M h I H. apply runs_ret. fin3. Qed.
Lemma gives_bind {A B} L (m : nat -> dot A) (k : nat -> A -> dot B) a b :
  gives L m a -> gives L (fun n => k n a) b -> gives L (fun n => dbind (m n) (k n)) b.
Proof.
  intros (N1 & H1) (N2 & H2). exists (N1 + N2)%nat. intros M h I H. apply runs_bind.
  eapply runs_mono; [apply (H1 M h I H)|lia|]. intros ? s1 h1 (-> & -> & K1).
  eapply runs_mono; [apply (H2 M h1 I K1)|lia|]. intros ? s2 h2 (-> & -> & K2). fin3.
Qed.
Lemma names_get {A} L (m : nat -> dot A) (k : nat -> A -> dot dname) a t :
  gives L m a -> names L (fun n => k n a) t -> names L (fun n => dbind (m n) (k n)) t.
Proof.
  intros (N1 & H1) (N2 & H2). exists (N1 + N2)%nat. intros M h I H. apply runs_bind.
  eapply runs_mono; [apply (H1 M h I H)|lia|]. intros ? s1 h1 (-> & -> & K1).
  eapply runs_mono; [apply (H2 M h1 I K1)|lia|]. intros ? s2 h2 (E & -> & K2). fin3.
Qed.

(** *** Reading the blocks *)
Ltac reads := apply gives_peek; let M := fresh in let h := fresh in let I := fresh in let H := fresh in
  intros M h I H; first
    [ eapply at_cnode | eapply at_lnode | eapply at_pdir | eapply at_pnode | eapply at_cdir ]; [exact H|apply I; eassumption].

(** *** Names *)
Section Names.
  Context (c : config).

  (** A range that is drawn. *)
  Definition ranged (b : bound) : Prop := match b with BSegs | BFreqs => False | _ => True end.
  Lemma path_range_ok b : ranged b -> path_range b = Ok (range_name b).
  Proof. destruct b; intros; try easy. cbn [path_range range_name]. now rewrite !whole_eq. Qed.
  Lemma cell_range_ok b : ranged b -> cell_range b = Ok (shown_range b).
  Proof. destruct b; intros; try easy. cbn [cell_range shown_range]. now rewrite !whole_eq. Qed.
  (** A variable that is declared. *)
  Definition known (v : N) : Prop := exists d, nthN (c_domains c) v = Some d.
  Lemma attr_ok L v sa : known v -> In (sa, OStr) L -> gives L (fun _ => attr_text c v sa) (var_name c v).
  Proof.
    intros (d & E) I. apply gives_peek. intros M h K H. unfold str_at. rewrite (holds_load _ _ _ H (K _ I)). cbn [bind].
    unfold get_domain, var_name. now rewrite E.
  Qed.

  Lemma names_prefix L p m t : names L m t -> names L (fun n => prefixed p (m n)) (p ++ t).
  Proof.
    intros (N & K). exists N. intros M h I H. unfold prefixed. apply runs_bind.
    eapply runs_mono; [apply (K M h I H)|lia|]. intros (a & y) s1 h1 (E & -> & H1). cbn in E, H1. subst y.
    apply runs_bind. apply (runs_text _ _ _ _ _ H1); [now left|]. cbn [snd].
    apply runs_bind. apply (runs_as _ _ _ _ _ H1). intros b h2 H2.
    apply runs_bind. eapply (runs_free _ _ _ _ _ _ H2); [apply perm_swap|]. intros h3 H3.
    apply runs_ret. fin3.
  Qed.

  Lemma path_root L a la d : In (a, OCnode NULL la d) L -> names L (fun n => path_cnode n c a) "".
  Proof.
    intros I. eapply names_step; [reflexivity|]. cbn [path_cnode].
    eapply (names_get _ (fun _ => _)); [reads|]. cbn [N.eqb NULL]. exists O. intros M h K H.
    apply (runs_as _ _ _ _ _ H). intros b h2 H2. fin3.
  Qed.
  (** Above a cdir. *)
  Definition up (n : nat) (k : bool) (p : N) : dot dname := if k then path_pnode n c p else path_cdir n c p false.
  Lemma path_up L a k p v sa b x l r s :
    In (a, OCdir k p v sa b x l r) L -> names L (fun n => up n k p) s -> names L (fun n => path_cdir n c a false) s.
  Proof.
    intros I K. eapply names_step; [reflexivity|]. cbn [path_cdir].
    eapply (names_get _ (fun _ => _)); [reads|]. exact K.
  Qed.
  Lemma path_up_inv L a k p v sa b x l r s :
    In (a, OCdir k p v sa b x l r) L -> names L (fun n => path_cdir n c a false) s -> names L (fun n => up n k p) s.
  Proof.
    intros I (N & K). exists N. intros M h J H. destruct (K M h J H) as (y & t & h' & R & Q).
    exists y, t, h'. split; [|exact Q]. intros n LE. specialize (R (S n) ltac:(lia)). cbn [path_cdir] in R.
    unfold dbind, peek in R. rewrite (at_cdir _ _ _ _ _ _ _ _ _ _ H (J _ I)) in R. cbn [bind] in R.
    change (if k then path_pnode n c p else path_cdir n c p false) with (up n k p) in R.
    destruct (up n k p h) as [((y', t'), h'')| | |]; cbn [bind] in R; try discriminate. cbn [String.append] in R. exact R.
  Qed.
  Lemma path_cdir_ok L a k p v sa b x l r s :
    In (a, OCdir k p v sa b x l r) L -> ranged b -> names L (fun n => path_cdir n c a false) s ->
    names L (fun n => path_cdir n c a true) (to_range s b).
  Proof.
    intros I B K. apply (path_up_inv _ _ _ _ _ _ _ _ _ _ _ I) in K. eapply names_step; [reflexivity|]. cbn [path_cdir].
    eapply (names_get _ (fun _ => _)); [reads|]. destruct K as (N & K). exists N. intros M h J H. apply runs_bind.
    eapply runs_mono; [apply (K M h J H)|lia|]. intros (y & t) s1 h1 (E & -> & H1). cbn in E, H1. subst t.
    apply runs_bind. eapply (runs_peek _ (range_name b)); [now apply path_range_ok|].
    apply runs_bind. apply (runs_text _ _ _ _ _ H1); [now left|]. cbn [snd].
    apply runs_bind. apply (runs_as _ _ _ _ _ H1). intros z h2 H2.
    apply runs_bind. eapply (runs_free _ _ _ _ _ _ H2); [apply perm_swap|]. intros h3 H3.
    apply runs_ret. fin3.
  Qed.
  Lemma path_sub L a p la d k q v sa b x l r s :
    In (a, OCnode p la d) L -> In (p, OCdir k q v sa b x l r) L -> ranged b -> names L (fun n => path_cdir n c p false) s ->
    names L (fun n => path_cnode n c a) (to_range s b).
  Proof.
    intros I J B K. apply (path_cdir_ok _ _ _ _ _ _ _ _ _ _ _ J B) in K. eapply names_step; [reflexivity|]. cbn [path_cnode].
    destruct K as (N & K). exists N. intros M h MI H. apply runs_bind. eapply (runs_peek _ (p, la, d)); [eapply at_cnode; eauto|].
    rewrite (holds_pos _ _ _ H (MI _ J)). eapply runs_mono; [apply (K M h MI H)|lia|]. intros y s1 h1 (E & -> & H1). fin3.
  Qed.
  Lemma path_pnode_ok L a pd v sa cd sc cn k pa t :
    In (a, OPnode pd v sa cd sc) L -> In (sa, OStr) L -> In (pd, OPdir cn k pa) L -> known v ->
    names L (fun n => path_cnode n c cn) t -> names L (fun n => path_pnode n c a) (to_pnode c t v).
  Proof.
    intros I1 I2 I3 V K. unfold to_pnode. rewrite <- escape_eq. eapply names_step; [reflexivity|]. cbn [path_pnode].
    eapply (names_get _ (fun _ => _)); [reads|]. eapply (names_get _ (fun _ => _)); [reads|].
    destruct K as (N & K). destruct (attr_ok L v sa V I2) as (N2 & AT). exists (N + N2)%nat. intros M h J H. apply runs_bind.
    eapply runs_mono; [apply (K M h J H)|lia|]. intros (y & s) s1 h1 (E & -> & H1). cbn in E, H1. subst s.
    apply runs_bind. eapply runs_mono; [apply (AT ((y, OStr) :: M) h1); [now apply incl_tl|exact H1]|lia|].
    intros s s2 h2 (-> & -> & H2).
    apply runs_bind. apply (runs_as _ _ _ _ _ H2). intros z h3 H3.
    apply runs_bind. apply (runs_text _ _ _ _ _ H3); [right; now left|]. cbn [snd].
    apply runs_bind. apply (runs_text _ _ _ _ _ H3); [now left|]. cbn [snd].
    apply runs_bind. apply (runs_as _ _ _ _ _ H3). intros w h4 H4.
    apply runs_bind. eapply (runs_free _ _ ((w, OStr) :: (z, OStr) :: M) _ _ _ H4); [cbn [fst]; perm|]. intros h5 H5.
    apply runs_bind. eapply (runs_free _ _ ((w, OStr) :: M) _ _ _ H5); [cbn [fst]; perm|]. intros h6 H6.
    apply runs_ret. fin3.
  Qed.

  Lemma name_pnode_ok L a t : names L (fun n => path_pnode n c a) t -> names L (fun n => name_pnode n c a) ("pnode_" ++ t).
  Proof. intros K. unfold name_pnode. now apply names_prefix. Qed.
  Lemma name_cdir_ok L a t : names L (fun n => path_cdir n c a true) t -> names L (fun n => name_cdir n c a) ("cdir_" ++ t).
  Proof. intros K. unfold name_cdir. now apply names_prefix. Qed.
  Lemma name_lnode_ok L la p k sa m t :
    In (la, OLnode p k sa m) L -> names L (fun n => path_cnode n c p) t -> names L (fun n => name_lnode n c la) ("lnode_" ++ t).
  Proof. intros I K. unfold name_lnode. eapply (names_get _ (fun _ => _)); [reads|]. now apply names_prefix. Qed.
  Lemma name_pdir_ok L pd p k pa t :
    In (pd, OPdir p k pa) L -> names L (fun n => path_cnode n c p) t -> names L (fun n => name_pdir n c pd) ("pdir_" ++ t).
  Proof. intros I K. unfold name_pdir. eapply (names_get _ (fun _ => _)); [reads|]. now apply names_prefix. Qed.
  (** Where a cnode hangs. *)
  Definition hangs (L : list (N * obj)) (root : bool) (p : N) : Prop := if root then p = NULL else exists o, In (p, o) L.
  Lemma name_cnode_ok L a root p la d t :
    In (a, OCnode p la d) L -> hangs L root p -> names L (fun n => path_cnode n c a) t ->
    names L (fun n => name_cnode n c a) (cnode_name root t).
  Proof.
    intros I R K. unfold name_cnode. eapply (names_get _ (fun _ => _)); [reads|]. destruct root; cbn in R.
    - subst p. cbn [N.eqb NULL]. exists O. intros M h J H. apply (runs_as _ _ _ _ _ H). intros b h2 H2. fin3.
    - destruct R as (o & O1). apply (names_prefix L "cnode_") in K. destruct K as (N & K). exists N. intros M h J H.
      rewrite (holds_pos _ _ _ H (J _ O1)). now apply K.
  Qed.
End Names.
