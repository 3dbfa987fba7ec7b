(** Properties of the red-black tree as linked nodes. *)
From Coq Require Import ZArith NArith String Bool List Permutation Lia ZifyBool ZifyNat ZifyN.
From Verif Require Import Base Ast RbTree PredMap CmpProofs RbProofs PredProofs LinkedRb LinkedRbSpec LinkedRbProofs LinkedPred LinkedHeap.
Import ListNotations.
Local Open Scope res_scope.

(** ** C59: the linked tree *)
(** What the calls answer, for the elements inserted so far, in order: a search finds the element inserted first among the
    equal ones, the size counts every insertion. *)
Definition same {A} (cmp : A -> A -> comparison) (x y : A) : bool := match cmp y x with Eq => true | _ => false end.
Fixpoint answers {A} (cmp : A -> A -> comparison) (seen : list A) (cs : list (rcall A)) : list (ranswer A) :=
  match cs with
  | [] => []
  | RInsert x :: cs' => RDone :: answers cmp (seen ++ [x]) cs'
  | RFind x :: cs' => RFound (find (same cmp x) seen) :: answers cmp seen cs'
  | RSize :: cs' => RCount (List.length seen) :: answers cmp seen cs'
  end.
(** The elements of the calls satisfy [P]. *)
Definition call_ok {A} (P : A -> Prop) (c : rcall A) : Prop :=
  match c with RInsert x | RFind x => P x | RSize => True end.

(** The elements of the tree are the first ones inserted. *)
Record kept {A} (P : A -> Prop) (cmp : A -> A -> comparison) (t : rb A) (seen : list A) : Prop := {
  k_rb : redblack t;
  k_sorted : sorted cmp (rb_elems t);
  k_tree : Forall P (rb_elems t);
  k_seen : Forall P seen;
  k_first : forall y, In y (rb_elems t) -> find (same cmp y) seen = Some y;
  k_all : forall z, In z seen -> exists y, In y (rb_elems t) /\ cmp y z = Eq;
  k_size : rb_size t <= List.length seen }.

Section Order.
  Context {A : Type} (P : A -> Prop) (cmp : A -> A -> comparison) (TC : total_cmp P cmp).
  Lemma same_true x y : same cmp x y = true <-> cmp y x = Eq.
  Proof. unfold same. destruct (cmp y x); split; congruence. Qed.
  Lemma cmp_swap x y : P x -> P y -> cmp x y = Eq -> cmp y x = Eq.
  Proof. intros Hx Hy E. now rewrite (tc_anti _ _ TC x y Hx Hy), E. Qed.
  Lemma same_ext x y z : P x -> P y -> P z -> cmp y x = Eq -> same cmp x z = same cmp y z.
  Proof.
    intros Hx Hy Hz E. unfold same.
    assert (K : cmp z x = cmp z y); [|now rewrite K].
    rewrite (tc_anti _ _ TC x z Hx Hz), (tc_anti _ _ TC y z Hy Hz). f_equal.
    symmetry. now apply (tc_eq _ _ TC).
  Qed.
  Lemma find_same_ext x y l : P x -> P y -> Forall P l -> cmp y x = Eq -> find (same cmp x) l = find (same cmp y) l.
  Proof.
    intros Hx Hy F E. induction F as [|z l Hz F IH]; cbn; [reflexivity|]. now rewrite (same_ext x y z), IH.
  Qed.
  Lemma find_app l l' (f : A -> bool) : find f (l ++ l') = match find f l with Some y => Some y | None => find f l' end.
  Proof. induction l as [|z l IH]; cbn; [reflexivity|]. now destruct (f z). Qed.
  Lemma size_elems (t : rb A) : rb_size t = List.length (rb_elems t).
  Proof. induction t as [|c d l IHl r IHr]; cbn; [reflexivity|]. rewrite app_length. cbn. lia. Qed.

  Lemma kept_find t seen x : kept P cmp t seen -> P x -> rb_find cmp t x = find (same cmp x) seen.
  Proof.
    intros K Hx. assert (C := rb_find_correct P cmp TC t x Hx (k_tree _ _ _ _ K) (k_sorted _ _ _ _ K)).
    destruct (rb_find cmp t x) as [y|].
    - destruct C as (I & E). symmetry.
      assert (Hy : P y) by (apply (proj1 (Forall_forall _ _) (k_tree _ _ _ _ K)), I).
      rewrite (find_same_ext x y); auto; [now apply (k_first _ _ _ _ K)|apply (k_seen _ _ _ _ K)].
    - symmetry. destruct (find (same cmp x) seen) as [z|] eqn:F; [|reflexivity]. exfalso.
      apply find_some in F as (I & E). apply same_true in E.
      assert (Hz : P z) by (apply (proj1 (Forall_forall _ _) (k_seen _ _ _ _ K)), I).
      destruct (k_all _ _ _ _ K z I) as (y & Iy & Ey). apply (C y Iy).
      assert (Hy : P y) by (apply (proj1 (Forall_forall _ _) (k_tree _ _ _ _ K)), Iy).
      now rewrite (tc_eq _ _ TC y z x).
  Qed.
  Lemma kept_start : kept P cmp RL [].
  Proof. split; cbn; try easy; try constructor; try easy. exists 0. constructor. Qed.
  Lemma kept_insert t seen x : kept P cmp t seen -> P x ->
    exists t', rb_insert cmp t x = Ok t' /\ kept P cmp t' (seen ++ [x]).
  Proof.
    intros K Hx. assert (Sn := K.(k_seen _ _ _ _)).
    destruct (rb_insert_ok P cmp TC t x Hx (k_rb _ _ _ _ K) (k_tree _ _ _ _ K) (k_sorted _ _ _ _ K)) as (t' & E & RB & So & D).
    exists t'. split; [exact E|].
    assert (Sn' : Forall P (seen ++ [x])) by (apply Forall_app; split; [exact Sn|now constructor]).
    destruct D as [(Ee & y & Iy & Ey)|((l & r & E0 & E1) & New)].
    - split; auto; try rewrite Ee.
      + apply (k_tree _ _ _ _ K).
      + intros z I. rewrite find_app, (k_first _ _ _ _ K z I). reflexivity.
      + intros z I. apply in_app_or in I as [I|[<-|[]]]; [now apply (k_all _ _ _ _ K)|]. eauto.
      + rewrite size_elems, Ee, <- size_elems, app_length. assert (Z := k_size _ _ _ _ K). lia.
    - assert (Ft : Forall P (rb_elems t')).
      { rewrite E1. assert (F := k_tree _ _ _ _ K). rewrite E0 in F. apply Forall_app in F as (F1 & F2).
        apply Forall_app. split; [exact F1|]. now constructor. }
      assert (Old : forall z, In z (rb_elems t) -> In z (rb_elems t')).
      { intros z I. rewrite E0 in I. rewrite E1. apply in_app_or in I as [I|I]; apply in_or_app; [now left|]. right. now right. }
      split; auto.
      + intros z I. rewrite E1 in I. assert (I' : z = x \/ In z (rb_elems t)).
        { rewrite E0. apply in_app_or in I as [I|[<-|I]]; [right; apply in_or_app; now left|now left|].
          right. apply in_or_app. now right. }
        rewrite find_app. destruct I' as [->|I'].
        * assert (Ne : find (same cmp x) seen = None).
          { rewrite <- (kept_find t seen x K Hx).
            assert (C := rb_find_correct P cmp TC t x Hx (k_tree _ _ _ _ K) (k_sorted _ _ _ _ K)).
            destruct (rb_find cmp t x) as [y|]; [|reflexivity]. destruct C as (Iy & Ey). now destruct (New y Iy). }
          rewrite Ne. cbn. assert (R : same cmp x x = true) by (apply same_true, (cmp_refl P cmp TC x Hx)). now rewrite R.
        * now rewrite (k_first _ _ _ _ K z I').
      + intros z I. apply in_app_or in I as [I|[<-|[]]].
        * destruct (k_all _ _ _ _ K z I) as (y & Iy & Ey). eauto.
        * exists x. split; [rewrite E1; apply in_or_app; right; now left|]. exact (cmp_refl P cmp TC x Hx).
      + rewrite size_elems, E1, !app_length. cbn [List.length]. assert (Z := k_size _ _ _ _ K).
        rewrite size_elems, E0, app_length in Z. lia.
  Qed.

  Lemma run_ok n cs : forall h t rt seen R,
    tree_at h (t_root rt) t R -> kept P cmp t seen -> t_size rt = List.length seen -> Forall (call_ok P) cs ->
    3 * (List.length seen + List.length cs) + 4 <= n ->
    exists rt' h' t' seen', rb_run cmp n cs rt h = Ok (answers cmp seen cs, rt', h') /\ tree_at h' (t_root rt') t' R
      /\ kept P cmp t' seen' /\ t_size rt' = List.length seen' /\ List.length seen' <= List.length seen + List.length cs.
  Proof.
    induction cs as [|c cs IH]; intros h t rt seen R T K Z F Hn.
    - exists rt, h, t, seen. cbn. split; [reflexivity|]. split; [exact T|]. split; [exact K|]. split; [exact Z|lia].
    - inversion_clear F as [|? ? Hc F']. cbn [List.length] in Hn. cbn [rb_run rb_call]. assert (Zt := k_size _ _ _ _ K).
      destruct c as [x|x|]; cbn [call_ok] in Hc; cbn [rb_call].
      + destruct (kept_insert t seen x K Hc) as (t1 & E1 & K1).
        destruct (insert_ok cmp h (t_root rt) t R n (t_size rt) x t1 T E1 ltac:(lia)) as (root & h1 & -> & T1). cbn [bind].
        destruct (IH h1 t1 (mkRT root (S (t_size rt))) (seen ++ [x]) R T1 K1) as (rt' & h' & t' & seen' & E2 & T2 & K2 & Z2 & L2); auto.
        * cbn. rewrite app_length. cbn. lia.
        * rewrite app_length. cbn. lia.
        * rewrite E2. cbn [bind answers]. exists rt', h', t', seen'. split; [reflexivity|]. split; [exact T2|]. split; [exact K2|].
          split; [exact Z2|]. rewrite app_length in L2. cbn in *. lia.
      + rewrite (find_at cmp n h (t_root rt) t R x T) by lia. cbn [bind].
        destruct (IH h t rt seen R T K Z F') as (rt' & h' & t' & seen' & E2 & T2 & K2 & Z2 & L2); [lia|].
        rewrite E2. cbn [bind answers]. rewrite (kept_find t seen x K Hc). exists rt', h', t', seen'.
        split; [reflexivity|]. split; [exact T2|]. split; [exact K2|]. split; [exact Z2|]. cbn. lia.
      + cbn [bind].
        destruct (IH h t rt seen R T K Z F') as (rt' & h' & t' & seen' & E2 & T2 & K2 & Z2 & L2); [lia|].
        rewrite E2. cbn [bind answers]. rewrite Z. exists rt', h', t', seen'.
        split; [reflexivity|]. split; [exact T2|]. split; [exact K2|]. split; [exact Z2|]. cbn. lia.
  Qed.
End Order.

(** For every order, every sequence of calls on a new tree, in a memory with any other blocks [R]: every call returns, within
    three rounds per insertion, and answers as above; afterwards memory consists of [R] and a red-black tree in order; and
    [jsw_rbdelete] releases each node of the tree once and nothing else. *)
Theorem C59_calls : forall A (P : A -> Prop) cmp, total_cmp P cmp -> forall cs (h : mem A) R n,
  owns h R -> Forall (call_ok P) cs -> 3 * List.length cs + 4 <= n ->
  exists rt h', rb_run cmp n cs rb_new h = Ok (answers cmp [] cs, rt, h')
    /\ (exists t, tree_at h' (t_root rt) t R /\ redblack t /\ sorted cmp (rb_elems t))
    /\ exists h'', p_rbdelete n h' (t_root rt) = Ok h'' /\ owns h'' R.
Proof.
  intros A P cmp TC cs h R n H F Hn.
  assert (T0 : tree_at h (t_root rb_new) RL R) by (exists AL; split; [reflexivity|]; split; [reflexivity|exact H]).
  destruct (run_ok P cmp TC n cs h RL rb_new [] R T0 (kept_start P cmp) eq_refl F) as (rt & h' & t & seen & E & T & K & Z & L).
  { cbn. lia. }
  exists rt, h'. split; [exact E|]. split.
  { exists t. split; [exact T|]. split; [apply (k_rb _ _ _ _ K)|apply (k_sorted _ _ _ _ K)]. }
  apply (delete_at n h' (t_root rt) t R T). assert (Zt := k_size _ _ _ _ K). cbn in L. lia.
Qed.
Print Assumptions C59_calls.

(** [jsw_rbinsert] and [jsw_rbfind] on the linked nodes do what the functions on trees do, for every tree on which these
    succeed, in particular when the pointers g and t are out of date after a rotation. *)
Theorem C59_insert : forall A (cmp : A -> A -> comparison) (h : mem A) root t R n size x t',
  tree_at h root t R -> rb_insert cmp t x = Ok t' -> 3 * rb_size t + 4 <= n ->
  exists root' h', p_rbinsert cmp n h root size x = Ok (root', S size, h') /\ tree_at h' root' t' R.
Proof. exact @insert_ok. Qed.
Print Assumptions C59_insert.
Theorem C59_find : forall A (cmp : A -> A -> comparison) n (h : mem A) root t R x,
  tree_at h root t R -> rb_size t < n -> p_rbfind cmp n h root x = Ok (rb_find cmp t x).
Proof. exact @find_at. Qed.
Print Assumptions C59_find.

(** The numbers of predicates. *)
Fixpoint assigns (m : pred_map) (es : list expr) : result (list expr * pred_map) :=
  match es with
  | [] => Ok ([], m)
  | e :: es' => do '(e', m) <- assign_pred m e; do '(l, m) <- assigns m es'; Ok (e' :: l, m)
  end.
(** The map in memory is this map. *)
Definition map_at (m : lmap) (h : mem expr) (m' : pred_map) (R : list (N * rnode expr)) : Prop :=
  l_count m = pm_count m' /\ l_mcount m = pm_mcount m' /\ l_mids m = pm_mids m'
  /\ tree_at h (t_root (l_tree m)) (pm_rb m') R.

Lemma fin_find h root t R x : tree_at h root t R -> fin (fun n => p_rbfind expr_cmp n h root x) (rb_find expr_cmp t x).
Proof. intros T. exists (S (rb_size t)). intros n Hn. now apply (find_at expr_cmp n h root t R x T). Qed.
Lemma fin_insert h root t R size x t' : tree_at h root t R -> rb_insert expr_cmp t x = Ok t' ->
  exists root' h', fin (fun n => p_rbinsert expr_cmp n h root size x) (root', S size, h') /\ tree_at h' root' t' R.
Proof.
  intros T E. destruct (insert_ok expr_cmp h root t R _ size x t' T E (Nat.le_refl _)) as (root' & h' & E' & T').
  exists root', h'. split; [|exact T']. exists (3 * rb_size t + 4). intros n Hn. now apply (insert_more _ _ _ _ _ _ _ E').
Qed.
Lemma l_node_ok m h m' R e e' m1' :
  map_at m h m' R -> assign_node m' e = Ok (e', m1') ->
  exists m1 h1, fin (fun n => l_node n m h e) (e', m1, h1) /\ map_at m1 h1 m1' R.
Proof.
  intros (C & MC & MI & T) E. unfold assign_node in E.
  assert (F := fin_find h _ _ R e T). destruct (rb_find expr_cmp (pm_rb m') e) as [f|].
  - destruct (nthN (pm_mids m') (gid f)) as [i|] eqn:Ni; [|discriminate].
    destruct (i =? INVALID_PRED)%N eqn:Ei; injection E as <- <-.
    + exists (mkLM (l_count m) (l_mcount m + 1) (l_tree m) (updN (l_mids m) (gid f) (l_mcount m))), h. split.
      * unfold l_node. eapply fin_bind; [exact F|]. cbn beta iota zeta. rewrite MI, Ni, Ei. now apply fin_ok.
      * split; [exact C|]. cbn. split; [now rewrite MC|]. split; [now rewrite MI, MC|exact T].
    + exists m, h. split.
      * unfold l_node. eapply fin_bind; [exact F|]. cbn beta iota zeta. rewrite MI, Ni, Ei. now apply fin_ok.
      * split; [exact C|]. split; [exact MC|]. split; [exact MI|exact T].
  - destruct (rb_insert expr_cmp (pm_rb m') (set_gid (pm_count m') e)) as [t| | |] eqn:Ei; try discriminate.
    cbn in E. injection E as <- <-.
    destruct (fin_insert h _ _ R (t_size (l_tree m)) _ _ T Ei) as (root & h1 & F1 & T1).
    exists (mkLM (l_count m + 1) (l_mcount m) (mkRT root (S (t_size (l_tree m)))) (l_mids m ++ [INVALID_PRED])), h1. split.
    + unfold l_node. eapply fin_bind; [exact F|]. cbn beta iota zeta. rewrite C. eapply fin_bind; [exact F1|]. now apply fin_ok.
    + split; [cbn; now rewrite C|]. split; [exact MC|]. split; [cbn; now rewrite MI|exact T1].
Qed.
Lemma l_assign_ok R e : forall m h m' e' m1', map_at m h m' R -> assign_pred m' e = Ok (e', m1') ->
  exists m1 h1, fin (fun n => l_assign n m h e) (e', m1, h1) /\ map_at m1 h1 m1' R.
Proof.
  induction e as [g p|g a IHa b IHb|g a IHa b IHb|g a IHa]; intros m h m' e' m1' M E; cbn [l_assign assign_pred] in *.
  - exact (l_node_ok _ _ _ _ _ _ _ M E).
  - destruct (assign_pred m' a) as [(a', m2)| | |] eqn:Ea; try discriminate. cbn [bind] in E.
    destruct (assign_pred m2 b) as [(b', m3)| | |] eqn:Eb; try discriminate. cbn [bind] in E.
    destruct (IHa _ _ _ _ _ M Ea) as (l2 & h2 & F2 & M2). destruct (IHb _ _ _ _ _ M2 Eb) as (l3 & h3 & F3 & M3).
    destruct (l_node_ok _ _ _ _ _ _ _ M3 E) as (l4 & h4 & F4 & M4). exists l4, h4. split; [|exact M4].
    eapply fin_bind; [exact F2|]. eapply fin_bind; [exact F3|]. exact F4.
  - destruct (assign_pred m' a) as [(a', m2)| | |] eqn:Ea; try discriminate. cbn [bind] in E.
    destruct (assign_pred m2 b) as [(b', m3)| | |] eqn:Eb; try discriminate. cbn [bind] in E.
    destruct (IHa _ _ _ _ _ M Ea) as (l2 & h2 & F2 & M2). destruct (IHb _ _ _ _ _ M2 Eb) as (l3 & h3 & F3 & M3).
    destruct (l_node_ok _ _ _ _ _ _ _ M3 E) as (l4 & h4 & F4 & M4). exists l4, h4. split; [|exact M4].
    eapply fin_bind; [exact F2|]. eapply fin_bind; [exact F3|]. exact F4.
  - destruct (assign_pred m' a) as [(a', m2)| | |] eqn:Ea; try discriminate. cbn [bind] in E.
    destruct (IHa _ _ _ _ _ M Ea) as (l2 & h2 & F2 & M2).
    destruct (l_node_ok _ _ _ _ _ _ _ M2 E) as (l4 & h4 & F4 & M4). exists l4, h4. split; [|exact M4].
    eapply fin_bind; [exact F2|]. exact F4.
Qed.
Lemma l_assigns_ok R es : forall m h m' es' m1', map_at m h m' R -> assigns m' es = Ok (es', m1') ->
  exists m1 h1, fin (fun n => l_assigns n m h es) (es', m1, h1) /\ map_at m1 h1 m1' R.
Proof.
  induction es as [|e es IH]; intros m h m' es' m1' M E; cbn [l_assigns assigns] in *.
  - injection E as <- <-. exists m, h. split; [now apply fin_ok|exact M].
  - destruct (assign_pred m' e) as [(e1, m2)| | |] eqn:Ea; try discriminate. cbn [bind] in E.
    destruct (assigns m2 es) as [(l, m3)| | |] eqn:Eb; try discriminate. cbn [bind] in E. injection E as <- <-.
    destruct (l_assign_ok R _ _ _ _ _ _ M Ea) as (l2 & h2 & F2 & M2). destruct (IH _ _ _ _ _ M2 Eb) as (l3 & h3 & F3 & M3).
    exists l3, h3. split; [|exact M3]. eapply fin_bind; [exact F2|]. eapply fin_bind; [exact F3|]. now apply fin_ok.
Qed.
(** Numbering expressions one after the other with the linked tree gives every node the number that [assign_pred] gives it,
    whenever [assign_pred] succeeds, and [free_pred_map] then releases exactly the nodes of the tree. *)
Theorem C59_predicates : forall es es' m (h : mem expr) R,
  owns h R -> assigns make_pred_map es = Ok (es', m) ->
  exists lm h', fin (fun n => l_assigns n l_make h es) (es', lm, h')
    /\ l_count lm = pm_count m /\ l_mids lm = pm_mids m /\ tree_at h' (t_root (l_tree lm)) (pm_rb m) R
    /\ exists N, forall n, N <= n -> exists h'', l_free n lm h' = Ok h'' /\ owns h'' R.
Proof.
  intros es es' m h R H E.
  assert (M0 : map_at l_make h make_pred_map R).
  { split; [reflexivity|]. split; [reflexivity|]. split; [reflexivity|]. exists AL. split; [reflexivity|]. now split. }
  destruct (l_assigns_ok R es _ _ _ _ _ M0 E) as (lm & h' & F & (C & MC & MI & T)).
  exists lm, h'. split; [exact F|]. split; [exact C|]. split; [exact MI|]. split; [exact T|].
  exists (S (2 * rb_size (pm_rb m))). intros n Hn. apply (delete_at n h' _ _ R T). lia.
Qed.
Print Assumptions C59_predicates.

(** Ten insertions with rotations of both kinds, an equal element that is not kept but counted, in a memory with another
    block; then the release. *)
Definition by_key (x y : Z * Z) : comparison := Z.compare (fst x) (fst y).
Definition rb_calls : list (rcall (Z * Z)) :=
  (map (fun k => RInsert (k, 10 * k)) [5; 1; 4; 2; 3; 9; 8; 7; 6] ++
   [RFind (7, 0); RSize; RInsert (7, 0); RFind (7, 1); RFind (0, 0); RSize])%Z.
Definition other_mem : mem (Z * Z) := mkM 2 [(1%N, mkR true None 0 0)].
Example C59_case :
  total_cmp (fun _ => True) by_key
  /\ owns other_mem [(1%N, mkR true None 0 0)]
  /\ Forall (call_ok (fun _ => True)) rb_calls
  /\ answers by_key [] rb_calls =
       (repeat RDone 9 ++ [RFound (Some (7, 70)); RCount 9; RDone; RFound (Some (7, 70)); RFound None; RCount 10])%Z
  /\ exists rt h', rb_run by_key 60 rb_calls rb_new other_mem = Ok (answers by_key [] rb_calls, rt, h')
       /\ t_root rt <> 0%N /\ List.length (m_cells h') = 10
       /\ (exists h'', p_rbdelete 60 h' (t_root rt) = Ok h'' /\ m_cells h'' = [(1%N, mkR true None 0 0)])
       /\ (exists h'', p_rbdelete 60 h' (t_root rt) = Ok h'' /\ p_rbdelete 60 h'' (t_root rt) = UB).
Proof.
  split. { apply (total_map fst (fun _ => True) (fun _ => True) Z.compare by_key Z_total); easy. }
  split. { split; [|split]; [|split; [reflexivity|]|]; cbn; repeat constructor; cbn; easy. }
  split. { repeat constructor. }
  split; [reflexivity|].
  eexists _, _. split; [vm_compute; reflexivity|]. split; [easy|]. split; [reflexivity|].
  split; (eexists; split; [vm_compute; reflexivity|reflexivity]).
Qed.
Definition lit (b : bool) : expr := ELeaf 0 (PLit b).
Definition two_exprs : list expr :=
  [EAnd 0 (lit true) (ENot 0 (lit false)); EOr 0 (ENot 0 (lit false)) (EAnd 0 (lit true) (ENot 0 (lit false)))].
Example C59_predicates_case :
  exists m, assigns make_pred_map two_exprs =
      Ok ([EAnd 3 (ELeaf 0 (PLit true)) (ENot 2 (ELeaf 1 (PLit false)));
           EOr 4 (ENot 2 (ELeaf 1 (PLit false))) (EAnd 3 (ELeaf 0 (PLit true)) (ENot 2 (ELeaf 1 (PLit false))))], m)
    /\ pm_count m = 5%N
    /\ exists lm h', l_assigns 30 l_make (mkM 1 []) two_exprs =
      Ok ([EAnd 3 (ELeaf 0 (PLit true)) (ENot 2 (ELeaf 1 (PLit false)));
           EOr 4 (ENot 2 (ELeaf 1 (PLit false))) (EAnd 3 (ELeaf 0 (PLit true)) (ENot 2 (ELeaf 1 (PLit false))))], lm, h')
       /\ List.length (m_cells h') = 5 /\ (exists h'', l_free 30 lm h' = Ok h'' /\ m_cells h'' = []).
Proof.
  eexists. split; [vm_compute; reflexivity|]. split; [reflexivity|].
  eexists _, _. split; [vm_compute; reflexivity|]. split; [reflexivity|]. eexists. split; [vm_compute; reflexivity|reflexivity].
Qed.
