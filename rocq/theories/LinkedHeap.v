(** Reading, writing, allocating and freeing blocks of a memory whose blocks are known; walking up. *)
From Coq Require Import ZArith NArith String Bool List Permutation Lia ZifyBool ZifyNat ZifyN.
From Verif Require Import Base Float Value Ast Config Tree Linked LinkedSpec PermTac.
Import ListNotations.
Local Open Scope Z_scope.
Local Open Scope res_scope.

(** *** Calls that finish once there is enough fuel *)
Definition fin {A} (f : nat -> result A) (r : A) : Prop := exists N, forall n, (N <= n)%nat -> f n = Ok r.

Lemma fin_ok {A} (f : nat -> result A) r : (forall n, f n = Ok r) -> fin f r.
Proof. intros H. exists O. intros n _. apply H. Qed.
Lemma fin_from {A} (f : nat -> result A) r N : (forall n, (N <= n)%nat -> f n = Ok r) -> fin f r.
Proof. intros H. now exists N. Qed.
Lemma fin_bind {A B} (f : nat -> result A) (g : nat -> A -> result B) a b :
  fin f a -> fin (fun n => g n a) b -> fin (fun n => bind (f n) (g n)) b.
Proof.
  intros (N & H) (M & K). exists (Nat.max N M). intros n L. rewrite H by lia. cbn. apply K. lia.
Qed.
Lemma fin_step {A} (f g : nat -> result A) r : (forall n, f (S n) = g n) -> fin g r -> fin f r.
Proof.
  intros E (N & H). exists (S N). intros n L. destruct n as [|n]; [lia|]. rewrite E. apply H. lia.
Qed.
Lemma fin_eq {A} (f g : nat -> result A) r : (forall n, f n = g n) -> fin g r -> fin f r.
Proof. intros E (N & H). exists N. intros n L. rewrite E. now apply H. Qed.
Lemma fin_fun {A} (f : nat -> result A) r r' : fin f r -> fin f r' -> r = r'.
Proof.
  intros (N & H) (M & K). specialize (H (Nat.max N M)). specialize (K (Nat.max N M)).
  rewrite H in K by lia. specialize (K ltac:(lia)). now injection K.
Qed.

(** *** Blocks *)
Ltac isin :=
  lazymatch goal with
  | |- In _ (_ :: _) => first [left; reflexivity | right; isin]
  | |- In _ (_ ++ _) => apply in_or_app; first [left; isin | right; isin]
  | |- In _ _ => assumption
  end.

Lemma cell_in l a o : NoDup (map fst l) -> In (a, o) l -> cell l a = Some o.
Proof.
  induction l as [|(b, o') t IH]; cbn; intros D I; [easy|]. inversion_clear D as [|? ? D1 D2].
  destruct I as [E|I].
  - injection E as -> ->. now rewrite N.eqb_refl.
  - destruct (N.eqb_spec a b) as [->|]; [|now apply IH].
    exfalso. apply D1. change b with (fst (b, o)). now apply in_map.
Qed.
Lemma cell_none l a : ~ In a (map fst l) -> cell l a = None.
Proof.
  induction l as [|(b, o') t IH]; cbn; intros H; [reflexivity|].
  destruct (N.eqb_spec a b) as [->|]; [now destruct H; left|]. apply IH. intros K. apply H. now right.
Qed.
Lemma set_keys l a o : map fst (set_cell l a o) = map fst l.
Proof. induction l as [|(b, o') t IH]; cbn; [reflexivity|]. destruct (a =? b)%N; cbn; [reflexivity|now rewrite IH]. Qed.
Lemma set_perm l a o o' R : NoDup (map fst l) -> Permutation l ((a, o) :: R) -> Permutation (set_cell l a o') ((a, o') :: R).
Proof.
  intros D P. assert (I : In (a, o) l) by (rewrite P; now left).
  assert (exists u w, l = u ++ (a, o) :: w) as (u & w & ->) by (destruct (in_split _ _ I) as (u & w & ->); eauto).
  assert (E : set_cell (u ++ (a, o) :: w) a o' = u ++ (a, o') :: w).
  { clear P I. induction u as [|(b, x) u IH]; cbn; [now rewrite N.eqb_refl|].
    cbn in D. inversion_clear D as [|? ? D1 D2]. destruct (N.eqb_spec a b) as [->|].
    - exfalso. apply D1. rewrite map_app. apply in_or_app. right. now left.
    - now rewrite IH. }
  rewrite E. rewrite <- Permutation_middle in *. apply Permutation_cons_inv in P. now rewrite P.
Qed.
Lemma del_perm l a o R : NoDup (map fst l) -> Permutation l ((a, o) :: R) -> Permutation (del_cell l a) R.
Proof.
  intros D P. assert (I : In (a, o) l) by (rewrite P; now left).
  assert (exists u w, l = u ++ (a, o) :: w) as (u & w & ->) by (destruct (in_split _ _ I) as (u & w & ->); eauto).
  assert (E : del_cell (u ++ (a, o) :: w) a = u ++ w).
  { clear P I. induction u as [|(b, x) u IH]; cbn; [now rewrite N.eqb_refl|].
    cbn in D. inversion_clear D as [|? ? D1 D2]. destruct (N.eqb_spec a b) as [->|].
    - exfalso. apply D1. rewrite map_app. apply in_or_app. right. now left.
    - now rewrite IH. }
  rewrite E. rewrite <- Permutation_middle in P. now apply Permutation_cons_inv in P.
Qed.

Section Heap.
  Context {h : heap}.

  Lemma holds_perm L L' : holds h L -> Permutation L L' -> holds h L'.
  Proof. intros (D & B & P) Q. split; [|split]; auto. now rewrite P. Qed.
  Lemma holds_load L a o : holds h L -> In (a, o) L -> load h a = Ok o.
  Proof.
    intros (D & B & P) I. unfold load. rewrite (cell_in _ a o D); [reflexivity|].
    now apply (Permutation_in _ (Permutation_sym P)).
  Qed.
  Lemma holds_pos L a o : holds h L -> In (a, o) L -> (a =? NULL)%N = false.
  Proof.
    intros (D & (_ & B) & P) I. apply (Permutation_in _ (Permutation_sym P)) in I. rewrite Forall_forall in B.
    apply B in I. cbn in I. unfold NULL. lia.
  Qed.
  Lemma holds_store L a o o' : holds h ((a, o) :: L) -> exists h', store h a o' = Ok h' /\ holds h' ((a, o') :: L).
  Proof.
    intros (D & (Z & B) & P). unfold store.
    rewrite (cell_in _ a o D) by (apply (Permutation_in _ (Permutation_sym P)); now left).
    eexists. split; [reflexivity|]. assert (Q := set_perm _ _ _ o' _ D P).
    split; [cbn; now rewrite set_keys|]. split; [|exact Q]. cbn. split; [exact Z|].
    rewrite Forall_forall in *. intros c I. apply (in_map fst) in I. rewrite set_keys in I.
    apply in_map_iff in I as (c' & E & I). rewrite <- E. now apply B.
  Qed.
  Lemma holds_release L a o : holds h ((a, o) :: L) -> exists h', release h a = Ok h' /\ holds h' L.
  Proof.
    intros H. assert (Z := holds_pos _ a o H ltac:(now left)). destruct H as (D & (Y & B) & P). unfold release. rewrite Z.
    rewrite (cell_in _ a o D) by (apply (Permutation_in _ (Permutation_sym P)); now left).
    eexists. split; [reflexivity|]. assert (Q := del_perm _ _ _ _ D P).
    assert (R : Permutation (h_cells h) ((a, o) :: del_cell (h_cells h) a)) by now rewrite Q.
    split; [|split; [split; [exact Y|]|]]; cbn.
    - apply (Permutation_map fst) in R. apply (Permutation_NoDup R) in D. now inversion D.
    - rewrite R in B. now inversion B.
    - exact Q.
  Qed.
  Lemma holds_alloc L o : holds h L -> holds (snd (alloc o h)) ((fst (alloc o h), o) :: L).
  Proof.
    intros (D & (Z & B) & P). unfold alloc. cbn. split; [|split; [split|]]; cbn.
    - constructor; [|exact D]. intros I. apply in_map_iff in I as (c & E & I). rewrite Forall_forall in B.
      apply B in I. lia.
    - lia.
    - constructor; [cbn; lia|]. eapply Forall_impl; [|exact B]. cbn. lia.
    - now rewrite P.
  Qed.

  Lemma at_cnode L a p l d : holds h L -> In (a, OCnode p l d) L -> get_cnode h a = Ok (p, l, d).
  Proof. intros H I. unfold get_cnode. now rewrite (holds_load _ _ _ H I). Qed.
  Lemma at_lnode L a p n s m : holds h L -> In (a, OLnode p n s m) L -> get_lnode h a = Ok (p, n, s, m).
  Proof. intros H I. unfold get_lnode. now rewrite (holds_load _ _ _ H I). Qed.
  Lemma at_pdir L a p n s : holds h L -> In (a, OPdir p n s) L -> get_pdir h a = Ok (p, n, s).
  Proof. intros H I. unfold get_pdir. now rewrite (holds_load _ _ _ H I). Qed.
  Lemma at_pnode L a p v s c f : holds h L -> In (a, OPnode p v s c f) L -> get_pnode h a = Ok (p, v, s, c, f).
  Proof. intros H I. unfold get_pnode. now rewrite (holds_load _ _ _ H I). Qed.
  Lemma at_cdir L a k p v s b c l r :
    holds h L -> In (a, OCdir k p v s b c l r) L -> get_cdir h a = Ok (k, p, v, s, b, c, l, r).
  Proof. intros H I. unfold get_cdir. now rewrite (holds_load _ _ _ H I). Qed.
  Lemma at_arr L a l : holds h L -> In (a, OArr l) L -> get_arr h a = Ok l.
  Proof. intros H I. unfold get_arr. now rewrite (holds_load _ _ _ H I). Qed.
  Lemma at_sub L a s : holds h L -> In (a, OSub s) L -> get_sub h a = Ok s.
  Proof. intros H I. unfold get_sub. now rewrite (holds_load _ _ _ H I). Qed.
  Lemma at_entries L a l : holds h L -> In (a, OArr l) L -> entries h (length l) a = Ok l.
  Proof.
    intros H I. unfold entries. destruct l as [|x l]; [reflexivity|]. cbn [length].
    rewrite (at_arr _ _ _ H I). cbn. now rewrite Nat.leb_refl, firstn_all.
  Qed.
  Lemma ln_entries L a l : holds h L -> incl (arr_cells a l) L -> entries h (length l) (arr_ptr a l) = Ok l.
  Proof.
    intros H I. destruct l as [|x l]; [reflexivity|]. apply (at_entries L); [exact H|]. apply I. now left.
  Qed.
  Lemma ln_subs L p la sa m l : holds h L -> incl (ln_cells p la sa m l) L -> lnode_subs h la = Ok l.
  Proof.
    intros H I. unfold lnode_subs.
    rewrite (at_lnode L la p (length l) (arr_ptr sa l) m H); [|apply I; now left]. cbn.
    apply (ln_entries L); [exact H|]. intros c K. apply I. now right.
  Qed.
  Lemma subs_read L xs : holds h L -> incl (sub_blocks xs) L -> get_subs h (map fst xs) = Ok (map snd xs).
  Proof.
    intros H. induction xs as [|(a, s) xs IH]; cbn; intros I; [reflexivity|].
    rewrite (at_sub _ a s H) by (apply I; now left). cbn. rewrite IH; [reflexivity|].
    intros c K. apply I. now right.
  Qed.
End Heap.

(** *** Arrays *)
Lemma upd_last l x y : upd (l ++ [y]) (length l) x = Some (l ++ [x]).
Proof. induction l as [|z l IH]; cbn; [reflexivity|]. now rewrite IH. Qed.

Lemma resize_ok h a l R n :
  holds h ((a, OArr l) :: R) ->
  exists a' h', resize h a n = Ok (a', h') /\ holds h' ((a', OArr (firstn n l ++ repeat NULL (n - length l))) :: R).
Proof.
  intros H. unfold resize. rewrite (at_arr _ a l H) by now left. cbn.
  destruct (holds_release _ _ _ H) as (h1 & -> & H1). cbn.
  apply (holds_alloc _ (OArr (firstn n l ++ repeat NULL (n - length l)))) in H1.
  eexists _, _. split; [reflexivity|]. exact H1.
Qed.
Lemma put_ok h a l R i x l' :
  holds h ((a, OArr l) :: R) -> upd l i x = Some l' ->
  exists h', put_arr h a i x = Ok h' /\ holds h' ((a, OArr l') :: R).
Proof.
  intros H E. unfold put_arr. rewrite (at_arr _ a l H) by now left. cbn. rewrite E.
  exact (holds_store _ _ _ _ H).
Qed.

(** An array that grows by one entry: [n] entries at [a], none if n is 0. *)
Lemma grow_ok h a l R x :
  holds h (arr_cells a l ++ R) ->
  exists a' h1 h', (match length l with O => Ok (alloc (OArr [NULL]) h) | _ => resize h (arr_ptr a l) (length l + 1) end)
    = Ok (a', h1) /\ put_arr h1 a' (length l) x = Ok h' /\ holds h' ((a', OArr (l ++ [x])) :: R).
Proof.
  intros H. destruct l as [|y l].
  - cbn in *. apply (holds_alloc _ (OArr [NULL])) in H. exists (fst (alloc (OArr [NULL]) h)), (snd (alloc (OArr [NULL]) h)).
    destruct (put_ok _ _ _ _ 0 x [x] H eq_refl) as (h' & E & H'). exists h'. split; [reflexivity|]. split; [exact E|exact H'].
  - cbn [arr_cells app] in H. remember (y :: l) as k. assert (N : exists j, length k = S j) by (subst k; cbn; eauto).
    destruct N as (j & N). replace (arr_ptr a k) with a by now subst k.
    destruct (resize_ok _ _ _ _ (length k + 1) H) as (a' & h1 & E & H1).
    rewrite firstn_all2 in H1 by lia. replace (length k + 1 - length k)%nat with 1%nat in H1 by lia.
    destruct (put_ok _ _ _ _ (length k) x (k ++ [x]) H1 (upd_last k x NULL)) as (h' & E' & H').
    exists a', h1, h'. rewrite N in E |- *. rewrite N in E'. now rewrite E.
Qed.

Lemma append_ok h p la sa m l R x :
  holds h (ln_cells p la sa m l ++ R) ->
  exists sa' h', append h la x = Ok h' /\ holds h' (ln_cells p la sa' m (l ++ [x]) ++ R).
Proof.
  intros H. unfold append. unfold ln_cells in H. cbn [app] in H.
  rewrite (at_lnode _ la p (length l) (arr_ptr sa l) m H) by now left. cbn [bind].
  assert (H1 : holds h (arr_cells sa l ++ (la, OLnode p (length l) (arr_ptr sa l) m) :: R)).
  { eapply holds_perm; [exact H|]. perm. }
  destruct (grow_ok _ _ _ _ x H1) as (a' & h1 & h2 & -> & E & H2). cbn [bind]. rewrite E. cbn [bind].
  assert (H3 : holds h2 ((la, OLnode p (length l) (arr_ptr sa l) m) :: (a', OArr (l ++ [x])) :: R)).
  { eapply holds_perm; [exact H2|]. perm. }
  destruct (holds_store _ _ _ (OLnode p (length l + 1) a' m) H3) as (h3 & E3 & H4).
  exists a', h3. split; [exact E3|]. unfold ln_cells. rewrite app_length. cbn [length].
  replace (arr_ptr a' (l ++ [x])) with a' by now destruct l.
  replace (arr_cells a' (l ++ [x])) with [(a', OArr (l ++ [x]))] by now destruct l. exact H4.
Qed.

Lemma index_lt h id l i : index_of h id l = Ok (Some i) -> (i < length l)%nat.
Proof.
  revert i. induction l as [|a l IH]; cbn; intros i H; [discriminate|].
  destruct (get_sub h a) as [s| | |]; try discriminate. cbn in H.
  destruct (id =? s_id s); [injection H as <-; lia|].
  destruct (index_of h id l) as [[j|]| | |]; try discriminate. injection H as <-. specialize (IH j eq_refl). lia.
Qed.
Lemma shift_firstn i l : (i < length l)%nat -> firstn (pred (length l)) (shift i l) = firstn i l ++ skipn (S i) l.
Proof.
  intros H. unfold shift. rewrite app_assoc, firstn_app.
  assert (E : length (firstn i l ++ skipn (S i) l) = pred (length l)).
  { rewrite app_length, firstn_length, skipn_length. lia. }
  rewrite firstn_all2 by lia. rewrite E, Nat.sub_diag. now rewrite app_nil_r.
Qed.

Lemma remove_ok h p la sa m l R id i :
  holds h (ln_cells p la sa m l ++ R) -> index_of h id l = Ok (Some i) ->
  exists sa' h', remove_sub h id la = Ok (true, h')
    /\ holds h' (ln_cells p la sa' m (firstn i l ++ skipn (S i) l) ++ R).
Proof.
  intros H I. assert (LT := index_lt _ _ _ _ I). unfold remove_sub. 
  rewrite (at_lnode _ la p (length l) (arr_ptr sa l) m H) by now left. cbn [bind].
  rewrite (ln_entries _ sa l H) by (unfold ln_cells; cbn [app]; intros c K; right; apply in_or_app; now left).
  cbn [bind]. rewrite I. cbn [bind].
  destruct l as [|y k]; [cbn in LT; lia|]. remember (y :: k) as l.
  replace (arr_ptr sa l) with sa by now subst l.
  assert (H1 : holds h ((sa, OArr l) :: (la, OLnode p (length l) sa m) :: R)).
  { eapply holds_perm; [exact H|]. unfold ln_cells. replace (arr_ptr sa l) with sa by now subst l.
    replace (arr_cells sa l) with [(sa, OArr l)] by now subst l. perm. }
  rewrite (at_arr _ sa l H1) by now left. cbn [bind]. rewrite firstn_all, skipn_all, app_nil_r.
  destruct (holds_store _ _ _ (OArr (shift i l)) H1) as (h1 & -> & H2). cbn [bind].
  assert (LS : length (shift i l) = length l).
  { unfold shift. rewrite !app_length, firstn_length, !skipn_length. lia. }
  assert (SF := shift_firstn i l LT).
  destruct (Nat.eqb_spec (pred (length l)) 0) as [Z|Z].
  - destruct (holds_release _ _ _ H2) as (h2 & -> & H3). cbn [bind].
    destruct (holds_store _ _ _ (OLnode p 0 NULL m) H3) as (h3 & -> & H4). cbn [bind].
    exists NULL, h3. split; [reflexivity|].
    replace (firstn i l ++ skipn (S i) l) with (@nil N); [exact H4|].
    rewrite <- SF, Z. reflexivity.
  - destruct (resize_ok _ _ _ _ (pred (length l)) H2) as (a' & h2 & -> & H3). cbn [bind].
    rewrite SF, LS in H3. replace (pred (length l) - length l)%nat with 0%nat in H3 by lia. cbn [repeat] in H3.
    rewrite app_nil_r in H3.
    assert (H4 : holds h2 ((la, OLnode p (length l) sa m) :: (a', OArr (firstn i l ++ skipn (S i) l)) :: R)).
    { eapply holds_perm; [exact H3|]. perm. }
    destruct (holds_store _ _ _ (OLnode p (pred (length l)) a' m) H4) as (h3 & -> & H5). cbn [bind].
    exists a', h3. split; [reflexivity|].
    assert (LE : length (firstn i l ++ skipn (S i) l) = pred (length l)).
    { rewrite <- SF, firstn_length. lia. }
    unfold ln_cells. rewrite LE.
    destruct (firstn i l ++ skipn (S i) l) as [|z q]; [cbn in LE; lia|]. exact H5.
Qed.
