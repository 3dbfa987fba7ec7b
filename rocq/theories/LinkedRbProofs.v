(** The functions on linked red-black trees do what the functions on trees do. *)
From Coq Require Import NArith Bool List Permutation Lia ZifyBool ZifyNat ZifyN.
From Verif Require Import Base RbTree RbProofs PermTac LinkedRb LinkedRbSpec.
Import ListNotations.
Local Open Scope res_scope.

Section RB.
  Context {A : Type} (cmp : A -> A -> comparison).
  Notation blocks := (list (N * rnode A)).

  (** *** Blocks *)
  Lemma find_in (l : blocks) a o : NoDup (map fst l) -> In (a, o) l -> find_cell l a = Some o.
  Proof.
    induction l as [|(b, o') t IH]; cbn; intros D I; [easy|]. inversion_clear D as [|? ? D1 D2].
    destruct I as [E|I].
    - injection E as -> ->. now rewrite N.eqb_refl.
    - destruct (N.eqb_spec a b) as [->|]; [|now apply IH].
      exfalso. apply D1. change b with (fst (b, o)). now apply in_map.
  Qed.
  Lemma put_keys (l : blocks) a o : map fst (put_cell l a o) = map fst l.
  Proof. induction l as [|(b, o') t IH]; cbn; [reflexivity|]. destruct (a =? b)%N; cbn; [reflexivity|now rewrite IH]. Qed.
  Lemma put_perm (l : blocks) a o o' R :
    NoDup (map fst l) -> Permutation l ((a, o) :: R) -> Permutation (put_cell l a o') ((a, o') :: R).
  Proof.
    intros D P. assert (I : In (a, o) l) by (rewrite P; now left).
    assert (exists u w, l = u ++ (a, o) :: w) as (u & w & ->) by (destruct (in_split _ _ I) as (u & w & ->); eauto).
    assert (E : put_cell (u ++ (a, o) :: w) a o' = u ++ (a, o') :: w).
    { clear P I. induction u as [|(b, x) u IH]; cbn; [now rewrite N.eqb_refl|].
      cbn in D. inversion_clear D as [|? ? D1 D2]. destruct (N.eqb_spec a b) as [->|].
      - exfalso. apply D1. rewrite map_app. apply in_or_app. right. now left.
      - now rewrite IH. }
    rewrite E. rewrite <- Permutation_middle in *. apply Permutation_cons_inv in P. now rewrite P.
  Qed.
  Lemma drop_perm (l : blocks) a o R : NoDup (map fst l) -> Permutation l ((a, o) :: R) -> Permutation (drop_cell l a) R.
  Proof.
    intros D P. assert (I : In (a, o) l) by (rewrite P; now left).
    assert (exists u w, l = u ++ (a, o) :: w) as (u & w & ->) by (destruct (in_split _ _ I) as (u & w & ->); eauto).
    assert (E : drop_cell (u ++ (a, o) :: w) a = u ++ w).
    { clear P I. induction u as [|(b, x) u IH]; cbn; [now rewrite N.eqb_refl|].
      cbn in D. inversion_clear D as [|? ? D1 D2]. destruct (N.eqb_spec a b) as [->|].
      - exfalso. apply D1. rewrite map_app. apply in_or_app. right. now left.
      - now rewrite IH. }
    rewrite E. rewrite <- Permutation_middle in P. now apply Permutation_cons_inv in P.
  Qed.

  Lemma owns_perm (h : mem A) L L' : owns h L -> Permutation L L' -> owns h L'.
  Proof. intros (D & B & P) Q. split; [|split]; auto. now rewrite P. Qed.
  Lemma owns_load (h : mem A) L a o : owns h L -> In (a, o) L -> r_load h a = Ok o.
  Proof.
    intros (D & B & P) I. unfold r_load. rewrite (find_in _ a o D); [reflexivity|].
    now apply (Permutation_in _ (Permutation_sym P)).
  Qed.
  Lemma owns_pos (h : mem A) L a o : owns h L -> In (a, o) L -> (a =? 0)%N = false.
  Proof.
    intros (D & (_ & B) & P) I. apply (Permutation_in _ (Permutation_sym P)) in I. rewrite Forall_forall in B.
    apply B in I. cbn in I. lia.
  Qed.
  Lemma owns_nodup (h : mem A) L : owns h L -> NoDup (map fst L).
  Proof. intros (D & B & P). apply (Permutation_map fst) in P. exact (Permutation_NoDup P D). Qed.
  Lemma owns_store (h : mem A) L a o o' : owns h ((a, o) :: L) -> exists h', r_store h a o' = Ok h' /\ owns h' ((a, o') :: L).
  Proof.
    intros (D & (Z & B) & P). unfold r_store.
    rewrite (find_in _ a o D) by (apply (Permutation_in _ (Permutation_sym P)); now left).
    eexists. split; [reflexivity|]. assert (Q := put_perm _ _ _ o' _ D P).
    split; [cbn; now rewrite put_keys|]. split; [|exact Q]. cbn. split; [exact Z|].
    rewrite Forall_forall in *. intros c I. apply (in_map fst) in I. rewrite put_keys in I.
    apply in_map_iff in I as (c' & E & I). rewrite <- E. now apply B.
  Qed.
  Lemma owns_release (h : mem A) L a o : owns h ((a, o) :: L) -> exists h', r_release h a = Ok h' /\ owns h' L.
  Proof.
    intros H. assert (Z := owns_pos h _ a o H ltac:(now left)). destruct H as (D & (Y & B) & P). unfold r_release. rewrite Z.
    rewrite (find_in _ a o D) by (apply (Permutation_in _ (Permutation_sym P)); now left).
    eexists. split; [reflexivity|]. assert (Q := drop_perm _ _ _ _ D P).
    assert (R : Permutation (m_cells h) ((a, o) :: drop_cell (m_cells h) a)) by now rewrite Q.
    split; [|split; [split; [exact Y|]|]]; cbn.
    - apply (Permutation_map fst) in R. apply (Permutation_NoDup R) in D. now inversion D.
    - rewrite R in B. now inversion B.
    - exact Q.
  Qed.
  Lemma owns_alloc (h : mem A) L o : owns h L -> exists a h', r_alloc o h = (a, h') /\ owns h' ((a, o) :: L).
  Proof.
    intros (D & (Z & B) & P). unfold r_alloc. eexists _, _. split; [reflexivity|]. split; [|split; [split|]]; cbn.
    - constructor; [|exact D]. intros I. apply in_map_iff in I as (c & E & I). rewrite Forall_forall in B.
      apply B in I. lia.
    - lia.
    - constructor; [cbn; lia|]. eapply Forall_impl; [|exact B]. cbn. lia.
    - now rewrite P.
  Qed.

  (** *** Nodes *)
  (** A block with link[dir] = x and link[!dir] = y. *)
  Definition rc (c : bool) (d : option A) (dir : bool) (x y : N) : rnode A :=
    if dir then mkR c d y x else mkR c d x y.
  Lemma rc_neg c d dir x y : rc c d (negb dir) x y = rc c d dir y x.
  Proof. now destruct dir. Qed.
  Lemma get_dir h L a c d dir x y : owns h ((a, rc c d dir x y) :: L) -> get_link h a dir = Ok x.
  Proof. intros H. unfold get_link. rewrite (owns_load h _ a _ H) by now left. now destruct dir. Qed.
  Lemma set_dir h L a c d dir x y v : owns h ((a, rc c d dir x y) :: L) ->
    exists h', set_link h a dir v = Ok h' /\ owns h' ((a, rc c d dir v y) :: L).
  Proof.
    intros H. unfold set_link. rewrite (owns_load h _ a _ H) by now left. cbn.
    destruct (owns_store h _ _ _ (rc c d dir v y) H) as (h' & E & H').
    exists h'. split; [|exact H']. rewrite <- E. now destruct dir.
  Qed.
  Lemma get_neg h L a c d dir x y : owns h ((a, rc c d dir x y) :: L) -> get_link h a (negb dir) = Ok y.
  Proof. rewrite <- rc_neg. apply get_dir. Qed.
  Lemma set_neg h L a c d dir x y v : owns h ((a, rc c d dir x y) :: L) ->
    exists h', set_link h a (negb dir) v = Ok h' /\ owns h' ((a, rc c d dir x v) :: L).
  Proof.
    rewrite <- (rc_neg c d dir y x). intros H. destruct (set_dir _ _ _ _ _ _ _ _ v H) as (h' & E & H').
    rewrite rc_neg in H'. eauto.
  Qed.
  Lemma red_set h L a c d dir x y b : owns h ((a, rc c d dir x y) :: L) ->
    exists h', set_red h a b = Ok h' /\ owns h' ((a, rc b d dir x y) :: L).
  Proof.
    intros H. unfold set_red. rewrite (owns_load h _ a _ H) by now left. cbn.
    destruct (owns_store h _ _ _ (rc b d dir x y) H) as (h' & E & H').
    exists h'. split; [|exact H']. rewrite <- E. now destruct dir.
  Qed.
  Lemma swap_owns (h : mem A) a b L : owns h (a :: b :: L) -> owns h (b :: a :: L).
  Proof. intros H. eapply owns_perm; [exact H|]. constructor. Qed.

  Lemma single_ok h L dir g cg dg x s cs ds y z :
    owns h ((g, rc cg dg dir x s) :: (s, rc cs ds dir y z) :: L) ->
    exists h', p_single h g dir = Ok (s, h')
      /\ owns h' ((g, rc true dg dir x y) :: (s, rc false ds dir g z) :: L).
  Proof.
    intros H. unfold p_single. rewrite (get_neg _ _ _ _ _ _ _ _ H). cbn [bind].
    assert (H0 := swap_owns _ _ _ _ H). rewrite (get_dir _ _ _ _ _ _ _ _ H0). cbn [bind].
    destruct (set_neg _ _ _ _ _ _ _ _ y H) as (h1 & -> & H1). cbn [bind].
    apply swap_owns in H1. destruct (set_dir _ _ _ _ _ _ _ _ g H1) as (h2 & -> & H2). cbn [bind].
    apply swap_owns in H2. destruct (red_set _ _ _ _ _ _ _ _ true H2) as (h3 & -> & H3). cbn [bind].
    apply swap_owns in H3. destruct (red_set _ _ _ _ _ _ _ _ false H3) as (h4 & -> & H4). cbn [bind].
    exists h4. split; [reflexivity|]. now apply swap_owns.
  Qed.
  Lemma double_ok h L dir g cg dg x a ca da b w cb db u v :
    owns h ((g, rc cg dg dir x a) :: (a, rc ca da dir b w) :: (b, rc cb db dir u v) :: L) ->
    exists h', p_double h g dir = Ok (b, h')
      /\ owns h' ((g, rc true dg dir x u) :: (b, rc false db dir g a) :: (a, rc true da dir v w) :: L).
  Proof.
    intros H. unfold p_double. rewrite (get_neg _ _ _ _ _ _ _ _ H). cbn [bind].
    assert (H0 : owns h ((a, rc ca da (negb dir) w b) :: (b, rc cb db (negb dir) v u) :: (g, rc cg dg dir x a) :: L)).
    { rewrite !rc_neg. eapply owns_perm; [exact H|]. perm. }
    destruct (single_ok _ _ _ _ _ _ _ _ _ _ _ _ H0) as (h1 & -> & H1). cbn [bind].
    rewrite !rc_neg in H1.
    assert (H2 : owns h1 ((g, rc cg dg dir x a) :: (b, rc false db dir u a) :: (a, rc true da dir v w) :: L)).
    { eapply owns_perm; [exact H1|]. perm. }
    destruct (set_neg _ _ _ _ _ _ _ _ b H2) as (h2 & -> & H3). cbn [bind].
    destruct (single_ok _ _ _ _ _ _ _ _ _ _ _ _ H3) as (h3 & -> & H4).
    exists h3. split; [reflexivity|exact H4].
  Qed.

  (** *** The path with addresses *)
  Record aframe := mkAF { a_addr : N; a_dir : bool; a_red : bool; a_data : A; a_sib : art A }.
  Definition erf (f : aframe) : frame A := mkF (a_dir f) (a_red f) (a_data f) (er (a_sib f)).
  Definition anode (a : N) (c : bool) (d : A) (dir : bool) (x y : art A) : art A :=
    if dir then AN a c d y x else AN a c d x y.
  Lemma er_anode a c d dir x y : er (anode a c d dir x y) = node c d dir (er x) (er y).
  Proof. now destruct dir. Qed.
  Lemma ptr_anode a c d dir x y : ptr (anode a c d dir x y) = a.
  Proof. now destruct dir. Qed.
  Lemma cells_anode a c d dir x y :
    Permutation (cells (anode a c d dir x y)) ((a, rc c (Some d) dir (ptr x) (ptr y)) :: cells x ++ cells y).
  Proof. destruct dir; cbn; perm. Qed.
  Fixpoint aplug (path : list aframe) (q : art A) : art A :=
    match path with
    | [] => q
    | f :: rest => aplug rest (anode (a_addr f) (a_red f) (a_data f) (a_dir f) q (a_sib f))
    end.
  Lemma er_aplug path : forall q, er (aplug path q) = plug (map erf path) (er q).
  Proof. induction path as [|f rest IH]; intros q; cbn; [reflexivity|]. now rewrite IH, er_anode. Qed.

  Lemma aplug_some path : forall q, q <> AL -> aplug path q <> AL.
  Proof. induction path as [|f rest IH]; intros q N; cbn; [exact N|]. apply IH. now destruct (a_dir f). Qed.

  Variable hd : N.
  (** The block at the top of the path and what is around it. *)
  Definition top_addr (path : list aframe) : N := match path with [] => hd | f :: _ => a_addr f end.
  Definition top_cell (path : list aframe) (c : N) : rnode A :=
    match path with
    | [] => rc false None true c 0
    | f :: _ => rc (a_red f) (Some (a_data f)) (a_dir f) c (ptr (a_sib f))
    end.
  Fixpoint around (path : list aframe) : blocks :=
    match path with
    | [] => []
    | f :: rest => cells (a_sib f) ++ (top_addr rest, top_cell rest (a_addr f)) :: around rest
    end.
  Definition pcells (path : list aframe) (c : N) : blocks := (top_addr path, top_cell path c) :: around path.
  Definition head_cell (c : N) : N * rnode A := (hd, rc false None true c 0).

  Lemma cells_plug path : forall q,
    Permutation (cells q ++ pcells path (ptr q)) (cells (aplug path q) ++ [head_cell (ptr (aplug path q))]).
  Proof.
    induction path as [|f rest IH]; intros q.
    - reflexivity.
    - cbn [aplug]. rewrite <- IH. rewrite cells_anode, ptr_anode. unfold pcells. cbn [top_addr top_cell around]. perm.
  Qed.

  Lemma ptr_red h (q : art A) L : owns h (cells q ++ L) -> red_at h (ptr q) = Ok (is_red (er q)).
  Proof.
    intros H. unfold red_at. destruct q as [|a c d l r]; [reflexivity|]. cbn [ptr].
    assert (I : In (a, mkR c (Some d) (ptr l) (ptr r)) (cells (AN a c d l r) ++ L)) by now left.
    rewrite (owns_pos h _ _ _ H I), (owns_load h _ _ _ H I). cbn. now destruct c.
  Qed.
  Lemma ptr_apart h (x y : art A) L : owns h (cells x ++ cells y ++ L) -> x <> AL -> (ptr x =? ptr y)%N = false.
  Proof.
    intros H N. destruct x as [|a c d l r]; [easy|]. destruct y as [|a' c' d' l' r'].
    - apply (owns_pos h _ a (mkR c (Some d) (ptr l) (ptr r)) H). now left.
    - apply owns_nodup in H. cbn [ptr]. apply N.eqb_neq. intros ->. cbn in H. inversion_clear H as [|? ? D _]. apply D.
      rewrite !map_app. apply in_or_app. right. cbn. now left.
  Qed.

  (** *** The first step: jsw_rbtree.c 157-169 *)
  Definition setb (b : bool) (t : art A) : art A := match t with AL => AL | AN a _ d l r => AN a b d l r end.
  Lemma setb_ok h t L b : owns h (cells t ++ L) -> t <> AL ->
    exists h', set_red h (ptr t) b = Ok h' /\ owns h' (cells (setb b t) ++ L).
  Proof.
    intros H N. destruct t as [|a c d l r]; [easy|]. cbn [cells app ptr setb] in *.
    apply (red_set h _ a c (Some d) false (ptr l) (ptr r) b H).
  Qed.
  Lemma er_setb (t : art A) : er (setb false t) = set_black (er t).
  Proof. now destruct t. Qed.
  Lemma ptr_setb b t : ptr (setb b t) = ptr t.
  Proof. now destruct t. Qed.
  Lemma red_some (t : art A) : is_red (er t) = true -> t <> AL.
  Proof. now destruct t. Qed.

  Lemma grow_ok h q path L x p dir :
    owns h (cells q ++ pcells path (ptr q) ++ L) ->
    (q = AL -> exists f rest, path = f :: rest /\ p = a_addr f /\ dir = a_dir f) ->
    exists q' h', p_grow h p (ptr q) dir x = Ok (ptr q', h') /\ er q' = fix_q (er q) x
      /\ q' <> AL /\ owns h' (cells q' ++ pcells path (ptr q') ++ L).
  Proof.
    intros H K. unfold p_grow. destruct q as [|a c d l r].
    - destruct (K eq_refl) as (f & rest & -> & -> & ->). cbn [ptr N.eqb].
      unfold new_node. destruct (owns_alloc h _ (mkR true (Some x) 0 0) H) as (a & h1 & -> & H1).
      cbn [cells app pcells top_addr top_cell] in *. unfold pcells in H1. cbn [top_addr top_cell app] in H1.
      apply swap_owns in H1. destruct (set_dir _ _ _ _ _ _ _ _ a H1) as (h2 & -> & H2). cbn [bind].
      exists (AN a true x AL AL), h2. split; [reflexivity|]. split; [reflexivity|]. split; [easy|].
      apply swap_owns in H2. exact H2.
    - cbn [ptr] in *. assert (NZ : (a =? 0)%N = false).
      { eapply (owns_pos h _ a _ H). now left. }
      rewrite NZ. cbn [fix_q er].
      assert (Hq : owns h ((a, rc c (Some d) false (ptr l) (ptr r)) :: cells l ++ cells r ++ pcells path a ++ L)).
      { eapply owns_perm; [exact H|]. cbn [cells rc]. perm. }
      rewrite (get_dir _ _ _ _ _ _ _ _ Hq). cbn [bind].
      change true with (negb false) at 1. rewrite (get_neg _ _ _ _ _ _ _ _ Hq). cbn [bind].
      assert (Hl : owns h (cells l ++ (a, rc c (Some d) false (ptr l) (ptr r)) :: cells r ++ pcells path a ++ L)).
      { eapply owns_perm; [exact Hq|]. perm. }
      assert (Hr : owns h (cells r ++ (a, rc c (Some d) false (ptr l) (ptr r)) :: cells l ++ pcells path a ++ L)).
      { eapply owns_perm; [exact Hq|]. perm. }
      rewrite (ptr_red _ _ _ Hl). cbn [bind].
      destruct (is_red (er l)) eqn:Rl; cbn [andb bind].
      2:{ exists (AN a c d l r), h. split; [reflexivity|]. split; [reflexivity|]. split; [easy|exact H]. }
      rewrite (ptr_red _ _ _ Hr). cbn [bind].
      destruct (is_red (er r)) eqn:Rr.
      2:{ exists (AN a c d l r), h. split; [reflexivity|]. split; [reflexivity|]. split; [easy|exact H]. }
      destruct (red_set _ _ _ _ _ _ _ _ true Hq) as (h1 & E1 & H1). rewrite E1. cbn [bind].
      rewrite (get_dir _ _ _ _ _ _ _ _ H1). cbn [bind].
      assert (H1' : owns h1 (cells l ++ (a, rc true (Some d) false (ptr l) (ptr r)) :: cells r ++ pcells path a ++ L)).
      { eapply owns_perm; [exact H1|]. perm. }
      destruct (setb_ok _ _ _ false H1' (red_some _ Rl)) as (h2 & -> & H2). cbn [bind].
      assert (H2' : owns h2 ((a, rc true (Some d) false (ptr l) (ptr r)) :: cells r ++ cells (setb false l) ++ pcells path a ++ L)).
      { eapply owns_perm; [exact H2|]. perm. }
      change true with (negb false) at 1. rewrite (get_neg _ _ _ _ _ _ _ _ H2'). cbn [bind].
      assert (H2'' : owns h2 (cells r ++ (a, rc true (Some d) false (ptr l) (ptr r)) :: cells (setb false l) ++ pcells path a ++ L)).
      { eapply owns_perm; [exact H2'|]. perm. }
      destruct (setb_ok _ _ _ false H2'' (red_some _ Rr)) as (h3 & -> & H3). cbn [bind].
      exists (AN a true d (setb false l) (setb false r)), h3. cbn [ptr er cells]. rewrite !er_setb, !ptr_setb.
      split; [reflexivity|]. split; [reflexivity|]. split; [easy|].
      eapply owns_perm; [exact H3|]. cbn [rc]. perm.
  Qed.

  (** *** The pointers *)
  (** With [stale] = 0 all pointers are right; after a single rotation t is out of date for one round, after a
      double rotation g, t and last are for one round and t for another. *)
  Definition pointers (path : list aframe) (stale : nat) (t g p : N) (dir last : bool) : Prop :=
    match stale, path with
    | 0%nat, [] => t = hd /\ g = 0%N /\ p = 0%N
    | 0%nat, [f] => t = hd /\ g = 0%N /\ p = a_addr f /\ dir = a_dir f
    | 0%nat, f :: f' :: rest =>
        t = top_addr rest /\ g = a_addr f' /\ p = a_addr f /\ dir = a_dir f /\ last = a_dir f'
    | 1%nat, f :: f' :: _ => g = a_addr f' /\ p = a_addr f /\ dir = a_dir f /\ last = a_dir f'
    | 2%nat, f :: _ => p = a_addr f /\ dir = a_dir f /\ g <> 0%N
    | _, _ => False
    end.

  Lemma pcells_pos h q path L f rest : path = f :: rest -> owns h (cells q ++ pcells path (ptr q) ++ L) -> a_addr f <> 0%N.
  Proof.
    intros -> H. eapply N.eqb_neq, (owns_pos h _ (a_addr f) _ H). apply in_or_app. right. now left.
  Qed.

  (** The next round. *)
  Lemma pointers_next h q path L stale t g p dir last a c d dir' sib :
    owns h (cells q ++ pcells path (ptr q) ++ L) ->
    (stale <= 2)%nat -> pointers path stale t g p dir last ->
    pointers (mkAF a dir' c d sib :: path) (pred stale) (if (g =? 0)%N then t else g) p a dir' dir.
  Proof.
    intros H S P. assert (Z := fun f rest E => pcells_pos h q path L f rest E H).
    destruct path as [|f [|f' rest]]; destruct stale as [|[|[|n]]]; cbn in *; try lia; try easy.
    - destruct P as (-> & -> & ->). now cbn.
    - destruct P as (-> & -> & -> & ->). now cbn.
    - destruct P as (-> & -> & -> & -> & ->). split; [|easy].
      assert (K : a_addr f' <> 0%N); [|apply N.eqb_neq in K; now rewrite K].
      eapply N.eqb_neq, (owns_pos h _ (a_addr f') _ H). unfold pcells. cbn. apply in_or_app. right. right.
      apply in_or_app. left. apply in_or_app. right. now left.
    - destruct P as (-> & -> & -> & ->). split; [|easy].
      assert (K : a_addr f' <> 0%N); [|apply N.eqb_neq in K; now rewrite K].
      eapply N.eqb_neq, (owns_pos h _ (a_addr f') _ H). unfold pcells. cbn. apply in_or_app. right. right.
      apply in_or_app. left. apply in_or_app. right. now left.
  Qed.

  (** *** The second step: jsw_rbtree.c 171-180 *)
  Lemma dir2_ok h rest c o L : owns h (pcells rest c ++ (c, o) :: L) ->
    exists b, get_link h (top_addr rest) true = Ok b
      /\ (b =? c)%N = match rest with [] => true | f :: _ => a_dir f end.
  Proof.
    intros H. unfold pcells in H. cbn [app] in H. destruct rest as [|f rest]; cbn [top_addr top_cell] in *.
    - rewrite (get_dir _ _ _ _ _ _ _ _ H). eexists. split; [reflexivity|apply N.eqb_refl].
    - destruct (a_dir f) eqn:Df.
      + rewrite (get_dir _ _ _ _ _ _ _ _ H). eexists. split; [reflexivity|apply N.eqb_refl].
      + change true with (negb false). rewrite (get_neg _ _ _ _ _ _ _ _ H). eexists. split; [reflexivity|].
        cbn [around] in H. destruct (a_sib f) as [|a' c' d' l' r']; cbn [ptr].
        * rewrite N.eqb_sym. apply (owns_pos h _ c o H). right. apply in_or_app. right. now left.
        * apply owns_nodup in H. apply N.eqb_neq. intros ->. cbn in H. inversion_clear H as [|? ? _ D].
          inversion_clear D as [|? ? D1 _]. apply D1. rewrite map_app. apply in_or_app. right. now left.
  Qed.
  Lemma relink_ok h rest c c' L : owns h (pcells rest c ++ L) ->
    exists h', set_link h (top_addr rest) (match rest with [] => true | f :: _ => a_dir f end) c' = Ok h'
      /\ owns h' (pcells rest c' ++ L).
  Proof.
    intros H. unfold pcells in *. cbn [app] in *. destruct rest as [|f rest]; cbn [top_addr top_cell] in *;
      exact (set_dir _ _ _ _ _ _ _ _ c' H).
  Qed.

  Lemma balance_ok h q path L stale t g p dir last q2 path2 stale2 :
    owns h (cells q ++ pcells path (ptr q) ++ L) -> q <> AL -> (stale <= 2)%nat -> pointers path stale t g p dir last ->
    (if is_red (er q) && match map erf path with f :: _ => f_red f | [] => false end then
       match map erf path, er q, stale with
       | f :: f' :: rest, RN _ d l r, O =>
           if Bool.eqb (f_dir f) (f_dir f') then
             Ok (er q, mkF (f_dir f') false (f_data f) (node true (f_data f') (f_dir f') (f_sib f) (f_sib f')) :: rest, 2)
           else
             Ok (node false d (f_dir f') (node true (f_data f) (f_dir f') (f_sib f) (if f_dir f' then r else l))
                                         (node true (f_data f') (f_dir f') (if f_dir f' then l else r) (f_sib f')), rest, 3)
       | _, _, _ => UB
       end
     else Ok (er q, map erf path, stale)) = Ok (q2, path2, stale2) ->
    exists q' path' h', p_balance h t g p (ptr q) last = Ok h' /\ ptr q' = ptr q /\ er q' = q2 /\ map erf path' = path2
      /\ owns h' (cells q' ++ pcells path' (ptr q') ++ L) /\ (pred stale2 <= 2)%nat
      /\ (forall c d dir' sib,
            pointers (mkAF (ptr q) dir' c d sib :: path') (pred stale2) (if (g =? 0)%N then t else g) p (ptr q) dir' dir).
  Proof.
    intros H NQ S P E. unfold p_balance. rewrite (ptr_red _ _ _ H). cbn [bind].
    assert (Same : is_red (er q) && match map erf path with f :: _ => f_red f | [] => false end = false ->
      (do rp <- (if is_red (er q) then red_at h p else Ok false); Ok rp) = Ok false).
    { intros F. destruct (is_red (er q)); [|reflexivity]. cbn [andb] in F. destruct path as [|f rest]; cbn in F.
      - destruct stale as [|[|[|n]]]; cbn in P; try easy. destruct P as (_ & _ & ->). reflexivity.
      - assert (Ep : p = a_addr f).
        { destruct rest as [|f' rest]; destruct stale as [|[|[|n]]]; cbn in P; try easy; now decompose [and] P. }
        subst p. unfold red_at.
        assert (I : In (a_addr f, rc (a_red f) (Some (a_data f)) (a_dir f) (ptr q) (ptr (a_sib f)))
                       (cells q ++ pcells (f :: rest) (ptr q) ++ L)) by (apply in_or_app; right; now left).
        rewrite (owns_pos h _ _ _ H I), (owns_load h _ _ _ H I). cbn. rewrite <- F. now destruct (a_dir f). }
    destruct (is_red (er q) && match map erf path with f :: _ => f_red f | [] => false end) eqn:B.
    2:{ specialize (Same eq_refl). clear B. injection E as <- <- <-. exists q, path, h.
        split; [|split; [reflexivity|split; [reflexivity|split; [reflexivity|split; [exact H|split; [lia|]]]]]].
        - destruct (is_red (er q)); cbn [bind] in *; [|reflexivity].
          destruct (red_at h p) as [b| | |]; try discriminate. cbn in Same. injection Same as ->. reflexivity.
        - intros c d dir' sib. exact (pointers_next _ _ _ _ _ _ _ _ _ _ _ _ _ _ _ H S P). }
    clear Same. apply andb_prop in B as (Rq & Rp). rewrite Rq. destruct path as [|f [|f' rest]]; try discriminate.
    cbn [map] in *. destruct q as [|a c d l r]; [easy|]. cbn [er] in E. destruct stale; [|discriminate].
    destruct P as (-> & -> & -> & -> & ->). cbn in Rp. cbn [f_dir f_data f_sib erf] in E.
    unfold red_at.
    assert (I : In (a_addr f, rc (a_red f) (Some (a_data f)) (a_dir f) (ptr (AN a c d l r)) (ptr (a_sib f)))
                   (cells (AN a c d l r) ++ pcells (f :: f' :: rest) (ptr (AN a c d l r)) ++ L))
      by (apply in_or_app; right; now left).
    rewrite (owns_pos h _ _ _ H I), (owns_load h _ _ _ H I). cbn [bind].
    replace (r_red _) with true by (cbn; rewrite <- Rp; now destruct (a_dir f)).
    assert (H0 : owns h (pcells rest (a_addr f') ++ (a_addr f', rc (a_red f') (Some (a_data f')) (a_dir f') (a_addr f) (ptr (a_sib f')))
      :: (a_addr f, rc (a_red f) (Some (a_data f)) (a_dir f) a (ptr (a_sib f)))
      :: cells (AN a c d l r) ++ cells (a_sib f) ++ cells (a_sib f') ++ L)).
    { eapply owns_perm; [exact H|]. unfold pcells. cbn [top_addr top_cell around ptr]. perm. }
    destruct (dir2_ok _ _ _ _ _ H0) as (b & -> & D2). cbn [bind]. rewrite D2. cbn [ptr]. clear D2 b I.
    assert (NG : (a_addr f' =? 0)%N = false).
    { eapply (owns_pos h _ (a_addr f') _ H0). apply in_or_app. right. now left. }
    assert (NF : (a_addr f =? 0)%N = false).
    { eapply (owns_pos h _ (a_addr f) _ H0). apply in_or_app. right. right. now left. }
    assert (Hf : owns h ((a_addr f, rc (a_red f) (Some (a_data f)) (a_dir f) a (ptr (a_sib f)))
      :: cells (AN a c d l r) ++ cells (a_sib f) ++
      (a_addr f', rc (a_red f') (Some (a_data f')) (a_dir f') (a_addr f) (ptr (a_sib f')))
      :: pcells rest (a_addr f') ++ cells (a_sib f') ++ L)).
    { eapply owns_perm; [exact H0|]. perm. }
    rewrite NG. remember (a_dir f') as lt eqn:Lt. destruct (Bool.eqb_spec (a_dir f) lt) as [Ed|Ed].
    - rewrite Ed in *. injection E as <- <- <-.
      rewrite (get_dir _ _ _ _ _ _ _ _ Hf). cbn [bind]. rewrite N.eqb_refl.
      assert (H1 : owns h ((a_addr f', rc (a_red f') (Some (a_data f')) (negb lt) (ptr (a_sib f')) (a_addr f))
        :: (a_addr f, rc (a_red f) (Some (a_data f)) (negb lt) (ptr (a_sib f)) a)
        :: pcells rest (a_addr f') ++ cells (AN a c d l r) ++ cells (a_sib f) ++ cells (a_sib f') ++ L)).
      { rewrite !rc_neg. eapply owns_perm; [exact H0|]. perm. }
      destruct (single_ok _ _ _ _ _ _ _ _ _ _ _ _ H1) as (h1 & -> & H2). cbn [bind]. rewrite !rc_neg in H2.
      assert (H3 : owns h1 (pcells rest (a_addr f') ++ (a_addr f', rc true (Some (a_data f')) lt (ptr (a_sib f)) (ptr (a_sib f')))
        :: (a_addr f, rc false (Some (a_data f)) lt a (a_addr f'))
        :: cells (AN a c d l r) ++ cells (a_sib f) ++ cells (a_sib f') ++ L)).
      { eapply owns_perm; [exact H2|]. perm. }
      destruct (relink_ok _ _ _ (a_addr f) _ H3) as (h2 & -> & H4).
      exists (AN a c d l r),
        (mkAF (a_addr f) lt false (a_data f) (anode (a_addr f') true (a_data f') lt (a_sib f) (a_sib f')) :: rest), h2.
      split; [reflexivity|]. split; [reflexivity|]. split; [reflexivity|].
      split. { cbn [map]. unfold erf at 1. cbn. now rewrite er_anode. }
      split. { eapply owns_perm; [exact H4|]. unfold pcells. cbn [top_addr top_cell around ptr a_addr a_red a_data a_dir a_sib].
        rewrite cells_anode, ptr_anode. perm. }
      split; [cbn; lia|]. intros. cbn. now repeat split.
    - injection E as <- <- <-. assert (Ed' : a_dir f = negb lt) by (destruct (a_dir f), lt; easy). rewrite Ed' in *. clear Ed Ed'.
      assert (G := get_neg _ _ _ _ _ _ _ _ Hf). rewrite negb_involutive in G. rewrite G. cbn [bind]. clear G.
      replace (a =? ptr (a_sib f))%N with false.
      2:{ symmetry. apply (ptr_apart h (AN a c d l r) (a_sib f)
            ((a_addr f, rc (a_red f) (Some (a_data f)) (negb lt) a (ptr (a_sib f)))
             :: (a_addr f', rc (a_red f') (Some (a_data f')) lt (a_addr f) (ptr (a_sib f')))
             :: pcells rest (a_addr f') ++ cells (a_sib f') ++ L)); [|easy].
          eapply owns_perm; [exact Hf|]. perm. }
      set (ql := if lt then r else l). set (qn := if lt then l else r).
      assert (Cq : Permutation (cells (AN a c d l r)) ((a, rc c (Some d) (negb lt) (ptr qn) (ptr ql)) :: cells ql ++ cells qn)).
      { unfold ql, qn. destruct lt; cbn; perm. }
      assert (H1 : owns h ((a_addr f', rc (a_red f') (Some (a_data f')) (negb lt) (ptr (a_sib f')) (a_addr f))
        :: (a_addr f, rc (a_red f) (Some (a_data f)) (negb lt) a (ptr (a_sib f)))
        :: (a, rc c (Some d) (negb lt) (ptr qn) (ptr ql))
        :: pcells rest (a_addr f') ++ cells ql ++ cells qn ++ cells (a_sib f) ++ cells (a_sib f') ++ L)).
      { rewrite (rc_neg (a_red f')). eapply owns_perm; [exact H0|]. rewrite Cq. perm. }
      destruct (double_ok _ _ _ _ _ _ _ _ _ _ _ _ _ _ _ _ H1) as (h1 & -> & H2). cbn [bind].
      assert (H3 : owns h1 (pcells rest (a_addr f') ++ (a_addr f', rc true (Some (a_data f')) lt (ptr qn) (ptr (a_sib f')))
        :: (a_addr f, rc true (Some (a_data f)) lt (ptr (a_sib f)) (ptr ql))
        :: (a, rc false (Some d) lt (a_addr f) (a_addr f'))
        :: cells ql ++ cells qn ++ cells (a_sib f) ++ cells (a_sib f') ++ L)).
      { rewrite !rc_neg in H2. eapply owns_perm; [exact H2|]. perm. }
      destruct (relink_ok _ _ _ a _ H3) as (h2 & -> & H4).
      exists (anode a false d lt (anode (a_addr f) true (a_data f) lt (a_sib f) ql)
                (anode (a_addr f') true (a_data f') lt qn (a_sib f'))), rest, h2.
      rewrite ptr_anode. split; [reflexivity|]. split; [reflexivity|].
      split. { rewrite !er_anode. unfold ql, qn. now destruct lt. }
      split; [reflexivity|].
      split. { eapply owns_perm; [exact H4|]. rewrite !cells_anode, !ptr_anode. perm. }
      split; [cbn; lia|]. intros. cbn. split; [reflexivity|]. split; [reflexivity|]. now apply N.eqb_neq.
  Qed.

  (** *** The loop *)
  Lemma loop_ok n : forall h q path L stale t g p dir last x t' m,
    owns h (cells q ++ pcells path (ptr q) ++ L) -> (q = AL -> path <> []) -> (stale <= 2)%nat ->
    pointers path stale t g p dir last ->
    rb_loop cmp n (er q) (map erf path) stale x = Ok t' -> (n <= m)%nat ->
    exists a h', p_rbloop cmp m h t g p (ptr q) dir last x = Ok h' /\ er a = t'
      /\ a <> AL /\ owns h' (cells a ++ head_cell (ptr a) :: L).
  Proof.
    induction n as [|n IH]; intros h q path L stale t g p dir last x t' m H NE S P E M; [discriminate|].
    destruct m as [|m]; [lia|]. cbn [p_rbloop].
    destruct (grow_ok h q path L x p dir H) as (q1 & h1 & -> & E1 & N1 & H1).
    { intros ->. destruct path as [|f rest]; [now destruct (NE eq_refl)|]. exists f, rest. split; [reflexivity|].
      destruct rest as [|f' rest]; destruct stale as [|[|[|k]]]; cbn in P; try easy; now decompose [and] P. }
    cbn [bind]. cbn [rb_loop] in E. rewrite <- E1 in E.
    match type of E with bind ?X _ = _ => destruct X as [[[q2 path2] stale2]| | |] eqn:EB end; try discriminate.
    cbn [bind] in E.
    destruct (balance_ok h1 q1 path L stale t g p dir last q2 path2 stale2 H1 N1 S P EB)
      as (q' & path' & h2 & -> & Q1 & Q2 & Q3 & H2 & S2 & PN). cbn [bind].
    rewrite <- Q1. destruct q' as [|a c d l r].
    { cbn in Q2. subst q2. discriminate. }
    cbn [er] in Q2. subst q2 path2. cbn [ptr] in *. rewrite <- Q1 in PN.
    assert (I : In (a, mkR c (Some d) (ptr l) (ptr r)) (cells (AN a c d l r) ++ pcells path' a ++ L)) by now left.
    rewrite (owns_load h2 _ _ _ H2 I). cbn [bind r_data].
    assert (Dn : forall dir' : bool, rb_loop cmp n (if dir' then er r else er l)
          (mkF dir' c d (if dir' then er l else er r) :: map erf path') (pred stale2) x = Ok t' ->
        exists a0 h', (do q' <- get_link h2 a dir';
                       p_rbloop cmp m h2 (if (g =? 0)%N then t else g) p a q' dir' dir x) = Ok h'
          /\ er a0 = t' /\ a0 <> AL /\ owns h' (cells a0 ++ head_cell (ptr a0) :: L)).
    { intros dir' E'. unfold get_link. rewrite (owns_load h2 _ _ _ H2 I). cbn [bind r_r r_l].
      replace (if dir' then ptr r else ptr l) with (ptr (if dir' then r else l)) by now destruct dir'.
      apply (IH h2 (if dir' then r else l) (mkAF a dir' c d (if dir' then l else r) :: path') L (pred stale2)); auto.
      - eapply owns_perm; [exact H2|]. unfold pcells. cbn [top_addr top_cell around a_addr a_red a_data a_dir a_sib].
        destruct dir'; cbn [rc cells]; perm.
      - easy.
      - rewrite <- E'. cbn [map]. unfold erf at 1. cbn. now destruct dir'.
      - lia. }
    destruct (cmp d x) eqn:C.
    - injection E as <-. exists (aplug path' (AN a c d l r)), h2. split; [reflexivity|]. split; [apply er_aplug|].
      split; [now apply aplug_some|].
      eapply owns_perm; [exact H2|]. rewrite app_assoc, (cells_plug path' (AN a c d l r)). perm.
    - exact (Dn true E).
    - exact (Dn false E).
  Qed.
End RB.

(** *** Insertion, search, release *)
Section Calls.
  Context {A : Type} (cmp : A -> A -> comparison).

  Lemma insert_ok h root t R n size x t' :
    tree_at h root t R -> rb_insert cmp t x = Ok t' -> (3 * rb_size t + 4 <= n)%nat ->
    exists root' h', p_rbinsert cmp n h root size x = Ok (root', S size, h') /\ tree_at h' root' t' R.
  Proof.
    intros (a & <- & -> & H) E Hn. unfold p_rbinsert. destruct a as [|b c d l r].
    - cbn in E. injection E as <-. cbn [ptr N.eqb]. unfold new_node.
      destruct (owns_alloc h _ (mkR true (Some x) 0%N 0%N) H) as (b & h1 & -> & H1). cbn [bind].
      destruct (setb_ok h1 (AN b true x AL AL) R false H1 ltac:(easy)) as (h2 & E2 & H2). cbn [ptr] in E2. rewrite E2.
      cbn [bind]. exists b, h2. split; [reflexivity|]. exists (AN b false x AL AL). split; [reflexivity|]. split; [reflexivity|exact H2].
    - set (q := AN b c d l r) in *. unfold rb_insert in E.
      replace (match er q with RL => Ok (RN false x RL RL) | RN _ _ _ _ => do t'0 <- rb_loop cmp (3 * rb_size (er q) + 4) (er q) [] 0 x; Ok (set_black t'0) end)
        with (do t'0 <- rb_loop cmp (3 * rb_size (er q) + 4) (er q) [] 0 x; Ok (set_black t'0)) in E by reflexivity.
      destruct (rb_loop cmp (3 * rb_size (er q) + 4) (er q) [] 0 x) as [u| | |] eqn:EL; try discriminate.
      cbn in E. injection E as <-.
      rewrite (owns_pos h _ (ptr q) (mkR c (Some d) (ptr l) (ptr r)) H) by now left.
      destruct (owns_alloc h _ (mkR false None 0%N 0%N) H) as (hd & h1 & -> & H1). cbn [bind].
      destruct (set_dir h1 _ hd false None true 0%N 0%N (ptr q) H1) as (h2 & -> & H2). cbn [bind].
      assert (H3 : owns h2 (cells q ++ pcells hd [] (ptr q) ++ R)).
      { eapply owns_perm; [exact H2|]. unfold pcells. cbn [top_addr top_cell around app]. perm. }
      destruct (loop_ok cmp hd _ h2 q [] R 0 hd 0%N 0%N false false x u n H3 ltac:(easy) ltac:(lia) ltac:(now repeat split) EL Hn)
        as (a' & h3 & -> & E3 & N3 & H4). cbn [bind].
      assert (H5 : owns h3 (head_cell hd (ptr a') :: cells a' ++ R)) by (eapply owns_perm; [exact H4|perm]).
      rewrite (get_dir h3 _ hd _ _ _ _ _ H5). cbn [bind].
      destruct (owns_release h3 _ _ _ H5) as (h4 & -> & H6). cbn [bind].
      destruct (setb_ok h4 a' R false H6 N3) as (h5 & -> & H7). cbn [bind].
      exists (ptr a'), h5. split; [reflexivity|]. exists (setb false a'). rewrite er_setb, E3, ptr_setb.
      split; [reflexivity|]. split; [reflexivity|exact H7].
  Qed.

  (** A child of a tree. *)
  Lemma child_at h (a : N) c (d : A) l r R :
    owns h (cells (AN a c d l r) ++ R) -> forall dir : bool,
    owns h (cells (if dir then r else l) ++ (a, mkR c (Some d) (ptr l) (ptr r)) :: cells (if dir then l else r) ++ R).
  Proof. intros H dir. eapply owns_perm; [exact H|]. cbn [cells]. destruct dir; perm. Qed.

  Lemma find_ok h x : forall (a : art A) R n, owns h (cells a ++ R) -> (height (er a) < n)%nat ->
    p_rbfind cmp n h (ptr a) x = Ok (rb_find cmp (er a) x).
  Proof.
    induction a as [|a c d l IHl r IHr]; intros R n H Hn; (destruct n as [|n]; [lia|]); cbn [p_rbfind]; [reflexivity|].
    cbn [ptr]. assert (I : In (a, mkR c (Some d) (ptr l) (ptr r)) (cells (AN a c d l r) ++ R)) by now left.
    rewrite (owns_pos h _ _ _ H I), (owns_load h _ _ _ H I). cbn [bind r_data r_l r_r er rb_find].
    cbn [er height] in Hn. destruct (cmp d x); [reflexivity| |].
    - eapply IHr; [exact (child_at _ _ _ _ _ _ _ H true)|lia].
    - eapply IHl; [exact (child_at _ _ _ _ _ _ _ H false)|lia].
  Qed.

  (** Nodes on the rightmost path. *)
  Fixpoint right_spine (a : art A) : nat := match a with AL => 0 | AN _ _ _ _ r => S (right_spine r) end.
  Lemma right_spine_size (a : art A) : (right_spine a <= rb_size (er a))%nat.
  Proof. clear cmp. induction a as [|a c d l IHl r IHr]; cbn in *; lia. Qed.
  Lemma delete_ok n : forall h (a : art A) R, owns h (cells a ++ R) -> (2 * rb_size (er a) < n + right_spine a)%nat ->
    exists h', p_rbdelete n h (ptr a) = Ok h' /\ owns h' R.
  Proof.
    clear cmp. induction n as [|n IH]; intros h a R H Hn.
    { assert (K := right_spine_size a). lia. }
    cbn [p_rbdelete]. destruct a as [|a c d l r]; [exists h; now split|]. cbn [ptr].
    assert (H' : owns h ((a, rc c (Some d) false (ptr l) (ptr r)) :: cells l ++ cells r ++ R)).
    { eapply owns_perm; [exact H|]. cbn [cells rc]. perm. }
    rewrite (owns_pos h _ a _ H') by now left. rewrite (get_dir _ _ _ _ _ _ _ _ H'). cbn [bind].
    cbn [er rb_size right_spine] in Hn. destruct l as [|b cb db ll lr]; cbn [ptr] in *.
    - cbn [N.eqb]. change true with (negb false). rewrite (get_neg _ _ _ _ _ _ _ _ H'). cbn [bind].
      destruct (owns_release h _ _ _ H') as (h1 & -> & H1). cbn [bind]. apply IH; [exact H1|]. cbn in Hn. lia.
    - assert (Hb : owns h ((b, rc cb (Some db) false (ptr ll) (ptr lr))
        :: (a, rc c (Some d) false b (ptr r)) :: cells ll ++ cells lr ++ cells r ++ R)).
      { eapply owns_perm; [exact H'|]. cbn [cells rc]. perm. }
      rewrite (owns_pos h _ b _ Hb) by now left. change true with (negb false). rewrite (get_neg _ _ _ _ _ _ _ _ Hb). cbn [bind].
      apply swap_owns in Hb. destruct (set_dir _ _ _ _ _ _ _ _ (ptr lr) Hb) as (h1 & -> & H1). cbn [bind].
      apply swap_owns in H1. destruct (set_neg _ _ _ _ _ _ _ _ a H1) as (h2 & -> & H2). cbn [bind].
      apply (IH h2 (AN b cb db ll (AN a c d lr r)) R).
      + eapply owns_perm; [exact H2|]. cbn [cells ptr rc]. perm.
      + cbn [er rb_size right_spine] in *. lia.
  Qed.
  Lemma delete_at n h root t R : tree_at h root t R -> (2 * rb_size t < n)%nat ->
    exists h', @p_rbdelete A n h root = Ok h' /\ owns h' R.
  Proof. clear cmp. intros (a & <- & -> & H) Hn. apply delete_ok; [exact H|lia]. Qed.
  Lemma find_at n h root t R x : tree_at h root t R -> (rb_size t < n)%nat ->
    p_rbfind cmp n h root x = Ok (rb_find cmp t x).
  Proof.
    intros (a & <- & -> & H) Hn. eapply find_ok; [exact H|].
    assert (K : (height (er a) <= rb_size (er a))%nat); [|lia]. clear.
    induction (er a) as [|c d l IHl r IHr]; cbn in *; lia.
  Qed.

  (** More fuel changes nothing. *)
  Lemma loop_more n : forall (h : mem A) t g p q dir last x r, p_rbloop cmp n h t g p q dir last x = Ok r ->
    forall m, (n <= m)%nat -> p_rbloop cmp m h t g p q dir last x = Ok r.
  Proof.
    induction n as [|n IH]; intros h t g p q dir last x r E m Hm; [discriminate|].
    destruct m as [|m]; [lia|]. cbn [p_rbloop] in *.
    destruct (p_grow h p q dir x) as [(q1, h1)| | |]; try discriminate. cbn [bind] in *.
    destruct (p_balance h1 t g p q1 last) as [h2| | |]; try discriminate. cbn [bind] in *.
    destruct (r_load h2 q1) as [c| | |]; try discriminate. cbn [bind] in *.
    destruct (r_data c) as [d|]; try discriminate. destruct (cmp d x); [exact E| |];
      (destruct (get_link h2 q1 _) as [q2| | |]; try discriminate; cbn [bind] in *; apply (IH _ _ _ _ _ _ _ _ _ E); lia).
  Qed.
  Lemma insert_more n (h : mem A) root size x r : p_rbinsert cmp n h root size x = Ok r ->
    forall m, (n <= m)%nat -> p_rbinsert cmp m h root size x = Ok r.
  Proof.
    unfold p_rbinsert. intros E m Hm. destruct (root =? 0)%N; [exact E|].
    destruct (r_alloc (mkR false None 0%N 0%N) h) as (hd, h1).
    destruct (set_link h1 hd true root) as [h2| | |]; try discriminate. cbn [bind] in *.
    destruct (p_rbloop cmp n h2 hd 0 0 root false false x) as [h3| | |] eqn:EL; try discriminate.
    now rewrite (loop_more _ _ _ _ _ _ _ _ _ _ EL m Hm).
  Qed.
End Calls.
