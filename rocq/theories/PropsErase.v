(** Properties of removal from the linked red-black tree. *)
From Coq Require Import ZArith NArith String Bool List Permutation Sorted Lia ZifyBool ZifyNat ZifyN.
From Verif Require Import Base RbTree CmpProofs RbProofs LinkedRb LinkedRbSpec LinkedRbProofs LinkedErase EraseProofs PropsRbLinked.
Import ListNotations.
Local Open Scope res_scope.

(** ** C67: removal *)
(** What the calls answer, for the elements [seen] inserted and not removed so far, in order, and the count.  Removing takes away
    all the elements equal to the given one.  The count goes up with every insertion and down with every removal from a tree that
    is not empty, whether or not an element is removed. *)
Definition others {A} (cmp : A -> A -> comparison) (x : A) (seen : list A) : list A := filter (fun y => negb (same cmp x y)) seen.
Definition count_down {A} (seen : list A) (count : Z) : Z := match seen with [] => count | _ => count - 1 end.
Fixpoint eanswers {A} (cmp : A -> A -> comparison) (seen : list A) (count : Z) (cs : list (ecall A)) : list (eanswer A) :=
  match cs with
  | [] => []
  | EInsert x :: cs' => EDone :: eanswers cmp (seen ++ [x]) (count + 1) cs'
  | EErase x :: cs' => EDone :: eanswers cmp (others cmp x seen) (count_down seen count) cs'
  | EFind x :: cs' => EFound (find (same cmp x) seen) :: eanswers cmp seen count cs'
  | ESize :: cs' => ECount (count mod 2 ^ 64) :: eanswers cmp seen count cs'
  end.
(** What is there after the calls. *)
Fixpoint remaining {A} (cmp : A -> A -> comparison) (seen : list A) (cs : list (ecall A)) : list A :=
  match cs with
  | [] => seen
  | EInsert x :: cs' => remaining cmp (seen ++ [x]) cs'
  | EErase x :: cs' => remaining cmp (others cmp x seen) cs'
  | _ :: cs' => remaining cmp seen cs'
  end.
(** The elements of the calls satisfy [P]. *)
Definition ecall_ok {A} (P : A -> Prop) (c : ecall A) : Prop :=
  match c with EInsert x | EErase x | EFind x => P x | ESize => True end.

Section Order.
  Context {A : Type} (P : A -> Prop) (cmp : A -> A -> comparison) (TC : total_cmp P cmp).
  Lemma find_others x y l : P x -> P y -> Forall P l -> cmp y x <> Eq -> find (same cmp y) (others cmp x l) = find (same cmp y) l.
  Proof.
    intros Hx Hy F N. induction F as [|z l Hz F IH]; [reflexivity|]. unfold others in *. cbn. destruct (same cmp x z) eqn:E; cbn; rewrite IH.
    - destruct (same cmp y z) eqn:E2; [|reflexivity]. exfalso. apply same_true in E, E2. apply N.
      rewrite <- (tc_eq _ _ TC z y x); auto.
    - reflexivity.
  Qed.
  Lemma sorted_nodup l : Forall P l -> sorted cmp l -> NoDup l.
  Proof.
    induction l as [|y l IH]; intros F S; [constructor|]. apply Forall_cons_iff in F. destruct F as (Py & F).
    apply StronglySorted_inv in S. destruct S as (S & L). constructor; [|auto]. intros I.
    rewrite Forall_forall in L. specialize (L y I). unfold ltA in L. rewrite (cmp_refl P cmp TC y Py) in L. discriminate.
  Qed.
  Lemma kept_erase t seen x t' : kept P cmp t seen -> P x -> redblack t' ->
    ((exists l y r, rb_elems t = l ++ y :: r /\ rb_elems t' = l ++ r /\ cmp y x = Eq)
     \/ (rb_elems t' = rb_elems t /\ forall y, In y (rb_elems t) -> cmp y x <> Eq)) ->
    kept P cmp t' (others cmp x seen).
  Proof.
    intros K Hx RB D.
    assert (Ft := k_tree _ _ _ _ K). assert (Fs := k_seen _ _ _ _ K).
    assert (E : Forall P (rb_elems t') /\ sorted cmp (rb_elems t') /\ forall y, In y (rb_elems t') <-> In y (rb_elems t) /\ cmp y x <> Eq).
    { destruct D as [(l & y & r & E0 & E1 & C)|(E1 & N)].
      - assert (So := k_sorted _ _ _ _ K). rewrite E0 in *. rewrite E1. apply Forall_app in Ft. destruct Ft as (F1 & F2). apply Forall_cons_iff in F2. destruct F2 as (Fy & F2).
        apply (sorted_app cmp) in So. destruct So as (S1 & S2 & S3). apply StronglySorted_inv in S2. destruct S2 as (S2 & S4). rewrite Forall_forall in S4. unfold ltA in S4.
        split; [now apply Forall_app|]. split. { apply sorted_app. split; [exact S1|]. split; [exact S2|]. intros a b Ia Ib. apply S3; [exact Ia|now right]. }
        intros z. rewrite !in_app_iff. cbn [In]. split.
        + intros [I|I].
          * split; [tauto|]. rewrite Forall_forall in F1. specialize (F1 z I). specialize (S3 z y I (or_introl eq_refl)). intros Ez.
            rewrite (tc_eq _ _ TC z x y) in S3; auto. rewrite (tc_anti _ _ TC y x), C in S3; auto. discriminate.
          * split; [tauto|]. rewrite Forall_forall in F2. specialize (F2 z I). specialize (S4 z I). intros Ez.
            rewrite (tc_eq _ _ TC y x z) in S4; auto. rewrite (tc_anti _ _ TC z x), Ez in S4; auto. discriminate.
        + intros ([I|[<-|I]] & Nz); [tauto| |tauto]. now destruct Nz.
      - rewrite E1. split; [exact Ft|]. split; [apply (k_sorted _ _ _ _ K)|]. intros y. split; [|tauto]. intros I. split; [exact I|]. now apply N. }
    destruct E as (Ft' & So' & In').
    assert (First : forall y, In y (rb_elems t') -> find (same cmp y) (others cmp x seen) = Some y).
    { intros y I. apply In' in I. destruct I as (I & N). assert (Py : P y) by (rewrite Forall_forall in Ft; auto). rewrite find_others; auto. now apply (k_first _ _ _ _ K). }
    split; auto.
    - unfold others. rewrite Forall_forall in *. intros z I. apply filter_In in I. now apply Fs.
    - intros z I. unfold others in I. apply filter_In in I. destruct I as (I & N). destruct (k_all _ _ _ _ K z I) as (y & Iy & Ey).
      exists y. split; [|exact Ey]. apply In'. split; [exact Iy|]. intros C.
      assert (Py : P y) by (rewrite Forall_forall in Ft; auto). assert (Pz : P z) by (rewrite Forall_forall in Fs; auto).
      assert (S : same cmp x z = true) by (apply same_true; rewrite <- (tc_eq _ _ TC y z x); auto). rewrite S in N. discriminate.
    - rewrite size_elems. apply NoDup_incl_length; [now apply sorted_nodup|]. intros y I. now apply First, find_some in I.
  Qed.
  Lemma others_length x (l : list A) : List.length (others cmp x l) <= List.length l.
  Proof. unfold others. induction l as [|y l IH]; cbn; [lia|]. destruct (negb _); cbn; lia. Qed.
  (** The root is NULL exactly when nothing is there. *)
  Lemma root_null h root t R seen : tree_at h root t R -> kept P cmp t seen -> (root =? 0)%N = match seen with [] => true | _ => false end.
  Proof.
    intros (a & <- & -> & H) K. destruct seen as [|z seen].
    - destruct a as [|a c d l r]; [reflexivity|]. exfalso. assert (F := k_first _ _ _ _ K d). cbn in F. discriminate F. apply in_or_app. right. now left.
    - destruct (k_all _ _ _ _ K z (or_introl eq_refl)) as (y & Iy & _). destruct a as [|a c d l r]; [easy|].
      apply (owns_pos h (cells (AN a c d l r) ++ R) a _ H (or_introl eq_refl)).
  Qed.

  Lemma erun_ok n cs : forall h t et seen count R,
    tree_at h (e_root et) t R -> kept P cmp t seen -> e_size et = (count mod 2 ^ 64)%Z -> Forall (ecall_ok P) cs ->
    3 * (List.length seen + List.length cs) + 4 <= n ->
    exists et' h' t', e_run cmp n cs et h = Ok (eanswers cmp seen count cs, et', h') /\ tree_at h' (e_root et') t' R
      /\ kept P cmp t' (remaining cmp seen cs) /\ List.length (remaining cmp seen cs) <= List.length seen + List.length cs.
  Proof.
    induction cs as [|c cs IH]; intros h t et seen count R T K Z F Hn.
    - exists et, h, t. cbn. split; [reflexivity|]. split; [exact T|]. split; [exact K|lia].
    - inversion_clear F as [|? ? Hc F']. cbn [List.length] in Hn. cbn [e_run]. assert (Zt := k_size _ _ _ _ K).
      destruct c as [x|x|x|]; cbn [ecall_ok] in Hc; cbn [e_call].
      + destruct (kept_insert P cmp TC t seen x K Hc) as (t1 & E1 & K1).
        destruct (insert_ok cmp h (e_root et) t R n 0 x t1 T E1 ltac:(lia)) as (root & h1 & -> & T1). cbn [bind].
        destruct (IH h1 t1 (mkET root (size_t (e_size et + 1))) (seen ++ [x]) (count + 1)%Z R T1 K1) as (et' & h' & t' & E2 & T2 & K2 & L2); auto.
        * cbn [e_size]. unfold size_t. rewrite Z, Zplus_mod_idemp_l. reflexivity.
        * rewrite app_length. cbn. lia.
        * rewrite E2. cbn [bind eanswers]. exists et', h', t'. split; [reflexivity|]. split; [exact T2|]. split; [exact K2|].
          rewrite app_length in L2. cbn in *. lia.
      + rewrite (root_null _ _ _ _ _ T K). assert (Lo := others_length x seen). destruct seen as [|z seen].
        * cbn [bind]. destruct (IH h t et [] count R T K Z F') as (et' & h' & t' & E2 & T2 & K2 & L2); [cbn in *; lia|].
          rewrite E2. cbn [bind eanswers]. exists et', h', t'. split; [reflexivity|]. split; [exact T2|]. split; [exact K2|]. cbn in *. lia.
        * remember (z :: seen) as sn eqn:Es.
          destruct (erase_at P cmp TC n h (e_root et) t R x T (k_rb _ _ _ _ K) (k_tree _ _ _ _ K) (k_sorted _ _ _ _ K) Hc ltac:(lia)) as (root & h1 & t1 & E1 & T1 & RB1 & D).
          rewrite E1. cbn [bind].
          destruct (IH h1 t1 (mkET root (size_t (e_size et - 1))) (others cmp x sn) (count - 1)%Z R T1) as (et' & h' & t' & E2 & T2 & K2 & L2); auto.
          -- now apply (kept_erase t sn x t1).
          -- cbn [e_size]. unfold size_t. rewrite Z, Zminus_mod_idemp_l. reflexivity.
          -- lia.
          -- rewrite E2. cbn [bind eanswers remaining]. replace (count_down sn count) with (count - 1)%Z by (now rewrite Es).
             exists et', h', t'. split; [reflexivity|]. split; [exact T2|]. split; [exact K2|]. cbn in *. lia.
      + rewrite (find_at cmp n h (e_root et) t R x T) by lia. cbn [bind].
        destruct (IH h t et seen count R T K Z F') as (et' & h' & t' & E2 & T2 & K2 & L2); [lia|].
        rewrite E2. cbn [bind eanswers]. rewrite (kept_find P cmp TC t seen x K Hc). exists et', h', t'.
        split; [reflexivity|]. split; [exact T2|]. split; [exact K2|]. cbn in *. lia.
      + cbn [bind].
        destruct (IH h t et seen count R T K Z F') as (et' & h' & t' & E2 & T2 & K2 & L2); [lia|].
        rewrite E2. cbn [bind eanswers]. rewrite Z. exists et', h', t'.
        split; [reflexivity|]. split; [exact T2|]. split; [exact K2|]. cbn in *. lia.
  Qed.
End Order.

(** For every order, every sequence of insertions, removals, searches and questions for the size on a new tree, in a memory with
    any other blocks [R]: every call returns and answers as above; afterwards memory consists of [R] and a red-black tree in order,
    whose elements are, of each group of equal elements that remain, the one inserted first; and [jsw_rbdelete] releases each node
    once and nothing else. *)
Theorem C67_calls : forall A (P : A -> Prop) cmp, total_cmp P cmp -> forall cs (h : mem A) R n,
  owns h R -> Forall (ecall_ok P) cs -> 3 * List.length cs + 4 <= n ->
  exists et h', e_run cmp n cs e_new h = Ok (eanswers cmp [] 0 cs, et, h')
    /\ (exists t, tree_at h' (e_root et) t R /\ redblack t /\ sorted cmp (rb_elems t)
          /\ forall y, In y (rb_elems t) <-> P y /\ find (same cmp y) (remaining cmp [] cs) = Some y)
    /\ exists h'', p_rbdelete n h' (e_root et) = Ok h'' /\ owns h'' R.
Proof.
  intros A P cmp TC cs h R n H F Hn.
  assert (T0 : tree_at h (e_root e_new) RL R) by (exists AL; split; [reflexivity|]; split; [reflexivity|exact H]).
  destruct (erun_ok P cmp TC n cs h RL e_new [] 0%Z R T0 (kept_start P cmp) eq_refl F) as (et & h' & t & E & T & K & L).
  { cbn. lia. }
  exists et, h'. split; [exact E|]. split.
  { exists t. split; [exact T|]. split; [apply (k_rb _ _ _ _ K)|]. split; [apply (k_sorted _ _ _ _ K)|].
    intros y. split.
    - intros I. split; [|now apply (k_first _ _ _ _ K)]. apply (proj1 (Forall_forall _ _) (k_tree _ _ _ _ K)), I.
    - intros (Py & Fy). rewrite <- (kept_find P cmp TC t _ y K Py) in Fy. now apply rb_find_some in Fy. }
  apply (delete_at n h' (e_root et) t R T). assert (Zt := k_size _ _ _ _ K). cbn in L. lia.
Qed.
Print Assumptions C67_calls.

(** [jsw_rberase] of any red-black tree in order, within as many rounds as the tree has nodes: no read through NULL or a released
    node, one node released if an element is equal to the given one and none otherwise, that element gone and the others in their
    order, and a red-black tree again. *)
Theorem C67_erase : forall A (P : A -> Prop) cmp, total_cmp P cmp -> forall n (h : mem A) root t R x,
  tree_at h root t R -> redblack t -> Forall P (rb_elems t) -> sorted cmp (rb_elems t) -> P x -> rb_size t < n ->
  exists root' h' t', p_rberase cmp n h root x = Ok (root', h') /\ tree_at h' root' t' R /\ redblack t'
    /\ ((exists l y r, rb_elems t = l ++ y :: r /\ rb_elems t' = l ++ r /\ cmp y x = Eq)
        \/ (rb_elems t' = rb_elems t /\ forall y, In y (rb_elems t) -> cmp y x <> Eq)).
Proof. exact @erase_at. Qed.
Print Assumptions C67_erase.

(** Twelve elements, of which ten are removed in an order that uses every kind of rotation, two removals of elements that are not
    there, and searches between them. *)
Definition erase_calls : list (ecall (Z * Z)) :=
  (map (fun k => EInsert (k, 10 * k)) [5; 1; 4; 2; 3; 9; 8; 7; 6; 12; 10; 11] ++
   [EInsert (7, 0); ESize; EErase (7, 1); EFind (7, 1); EErase (7, 1); ESize] ++
   map (fun k => EErase (k, 0)) [12; 6; 5; 4; 2; 1; 10] ++
   [EFind (3, 0); EFind (4, 0); EInsert (4, 1); EFind (4, 0)] ++
   map (fun k => EErase (k, 0)) [11; 9; 99] ++ [ESize])%Z.
Example C67_case :
  total_cmp (fun _ => True) by_key
  /\ owns other_mem [(1%N, mkR true None 0 0)]
  /\ Forall (ecall_ok (fun _ => True)) erase_calls
  /\ eanswers by_key [] 0 erase_calls =
       (repeat EDone 13 ++ [ECount 13; EDone; EFound None; EDone; ECount 11] ++ repeat EDone 7
        ++ [EFound (Some (3, 30)); EFound None; EDone; EFound (Some (4, 1))] ++ repeat EDone 3 ++ [ECount 2])%Z
  /\ remaining by_key [] erase_calls = [(3, 30); (8, 80); (4, 1)]%Z
  /\ exists et h', e_run by_key 130 erase_calls e_new other_mem = Ok (eanswers by_key [] 0 erase_calls, et, h')
       /\ List.length (m_cells h') = 4
       /\ (exists h'', p_rbdelete 130 h' (e_root et) = Ok h'' /\ m_cells h'' = [(1%N, mkR true None 0 0)]).
Proof.
  split. { apply (total_map fst (fun _ => True) (fun _ => True) Z.compare by_key Z_total); easy. }
  split. { split; [|split]; [|split; [reflexivity|]|]; cbn; repeat constructor; cbn; easy. }
  split. { repeat constructor. }
  split; [vm_compute; reflexivity|]. split; [vm_compute; reflexivity|].
  eexists _, _. split; [vm_compute; reflexivity|]. split; [reflexivity|].
  eexists; split; [vm_compute; reflexivity|reflexivity].
Qed.
