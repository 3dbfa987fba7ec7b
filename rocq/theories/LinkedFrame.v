(** The subscriptions in memory: an insertion neither adds nor removes nor changes one; releasing the index removes them one by one. *)
From Coq Require Import ZArith NArith String Bool List Permutation Lia.
From Verif Require Import Base Float Value Ast Config Assign Special Match Bound Tree RbTree PredMap Source Api Linked LinkedApi.
From Verif Require Import BaseProofs LinkedSpec LinkedHeap LinkedUse.
Import ListNotations.
Local Open Scope N_scope.
Local Open Scope res_scope.

(** Whatever a function returns. *)
Definition ens {A} (r : result A) (Q : A -> Prop) : Prop := forall a, r = Ok a -> Q a.
Lemma ens_ok {A} (a : A) (Q : A -> Prop) : Q a -> ens (Ok a) Q.
Proof. intros H x [= <-]. exact H. Qed.
Lemma ens_bind {A B} (r : result A) (f : A -> result B) (Q : B -> Prop) : ens r (fun a => ens (f a) Q) -> ens (bind r f) Q.
Proof. intros H b E. apply bind_ok in E. destruct E as (a & E & F). exact (H a E b F). Qed.
Lemma ens_mono {A} (r : result A) (P Q : A -> Prop) : ens r P -> (forall a, P a -> Q a) -> ens r Q.
Proof. intros H I a E. exact (I a (H a E)). Qed.
Lemma ens_ub {A} (Q : A -> Prop) : ens UB Q.
Proof. intros a E. discriminate E. Qed.
Lemma ens_fuel {A} (Q : A -> Prop) : ens Fuel Q.
Proof. intros a E. discriminate E. Qed.
Lemma ens_abort {A} (Q : A -> Prop) : ens Abort Q.
Proof. intros a E. discriminate E. Qed.
Lemma ens_any {A} (r : result A) (Q : A -> Prop) : (forall a, Q a) -> ens r Q.
Proof. intros H a _. apply H. Qed.

(** Blocks at different addresses, none NULL. *)
Definition wfh (h : heap) : Prop := LinkedSpec.holds h (h_cells h).
(** The subscriptions. *)
Definition sub_cell (c : N * obj) : list (N * sub) := match snd c with OSub s => [(fst c, s)] | _ => [] end.
Definition subs_of (l : list (N * obj)) : list (N * sub) := flat_map sub_cell l.

Lemma subs_in l a s : In (a, s) (subs_of l) <-> In (a, OSub s) l.
Proof.
  unfold subs_of. rewrite in_flat_map. split.
  - intros ((b, o) & I & J). unfold sub_cell in J. cbn [fst snd] in J. destruct o; try destruct J as [J|[]]; try easy. now injection J as -> ->.
  - intros I. exists (a, OSub s). split; [exact I|now left].
Qed.
Lemma subs_key l a : In a (map fst (subs_of l)) -> exists s, In (a, OSub s) l.
Proof. intros I. apply in_map_iff in I. destruct I as ((b, s) & <- & I). exists s. now apply subs_in. Qed.
Lemma subs_keys l : NoDup (map fst l) -> NoDup (map fst (subs_of l)).
Proof.
  induction l as [|(a, o) t IH]; intros D; [constructor|]. cbn [map fst] in D. inversion D as [|? ? N D']; subst.
  cbn [subs_of flat_map]. rewrite map_app. unfold sub_cell at 1. cbn [fst snd].
  destruct o; try exact (IH D'). cbn. constructor; [|exact (IH D')].
  intros I. apply subs_key in I. destruct I as (s' & I). apply N. apply in_map_iff. now exists (a, OSub s').
Qed.

(** Memory with the subscriptions [S]. *)
Definition kept (S : list (N * sub)) (h : heap) : Prop := wfh h /\ subs_of (h_cells h) = S.
Definition nosub (S : list (N * sub)) (a : N) : Prop := ~ In a (map fst S).

Lemma cell_some l a o : cell l a = Some o -> In (a, o) l.
Proof.
  induction l as [|(b, o') t IH]; [discriminate|]. cbn [cell]. destruct (N.eqb_spec a b) as [->|N]; [intros [= ->]; now left|].
  intros E. right. exact (IH E).
Qed.
Lemma load_in h a o : load h a = Ok o -> In (a, o) (h_cells h).
Proof. unfold load. destruct (cell (h_cells h) a) as [x|] eqn:E; [|discriminate]. intros [= ->]. exact (cell_some _ _ _ E). Qed.
Lemma key_fun {B} (l : list (N * B)) a x y : NoDup (map fst l) -> In (a, x) l -> In (a, y) l -> x = y.
Proof.
  induction l as [|(b, z) t IH]; intros D I J; [destruct I|]. cbn in D. inversion D as [|? ? N D']; subst.
  assert (O : forall w, In (a, w) t -> In a (map fst t)) by (intros w K; apply in_map_iff; now exists (a, w)).
  destruct I as [E|I], J as [F|J].
  - congruence.
  - injection E as -> ->. elim N. exact (O y J).
  - injection F as -> ->. elim N. exact (O x I).
  - exact (IH D' I J).
Qed.
Lemma load_nosub S h a o : kept S h -> load h a = Ok o -> is_sub o = false -> nosub S a.
Proof.
  intros ((D & _) & <-) E F I. apply subs_key in I. destruct I as (s & I). apply load_in in E.
  assert (X := key_fun _ _ _ _ D E I). now subst o.
Qed.
Lemma kept_alloc S h o : kept S h -> is_sub o = false -> kept S (snd (alloc o h)) /\ nosub S (fst (alloc o h)).
Proof.
  intros (W & E) F. pose proof (holds_alloc _ o W) as W'. split.
  - split.
    + unfold wfh. cbn [alloc snd h_cells]. exact W'.
    + cbn [alloc snd h_cells subs_of flat_map]. unfold sub_cell at 1. cbn [fst snd]. destruct o; try exact E. discriminate F.
  - intros I. destruct W as (D & (_ & B) & _). rewrite <- E in I. apply subs_key in I. destruct I as (s & I).
    rewrite Forall_forall in B. specialize (B _ I). cbn in B. lia.
Qed.
Lemma kept_store S h a o : kept S h -> nosub S a -> is_sub o = false -> ens (store h a o) (kept S).
Proof.
  intros (W & E) A F h' R. unfold store in R. destruct (cell (h_cells h) a) as [x|] eqn:C; [|discriminate]. injection R as <-.
  pose proof (cell_some _ _ _ C) as I. destruct (in_split _ _ I) as (l1 & l2 & L).
  assert (X : is_sub x = false). { destruct x; try reflexivity. elim A. rewrite <- E. apply in_map_iff. exists (a, s). split; [reflexivity|now apply subs_in]. }
  assert (P : Permutation (h_cells h) ((a, x) :: l1 ++ l2)) by (rewrite L; symmetry; apply Permutation_middle).
  split.
  - destruct (@holds_store h (l1 ++ l2) a x o) as (h' & R & W'); [exact (@holds_perm h _ _ W P)|].
    unfold store in R. rewrite C in R. injection R as <-. destruct W' as (D & B & _). split; [exact D|split; [exact B|reflexivity]].
  - cbn [h_cells]. rewrite <- E. clear - X F C. induction (h_cells h) as [|(b, y) t IH]; [reflexivity|].
    cbn [cell set_cell] in *. destruct (a =? b)%N eqn:Q.
    + injection C as ->. cbn [subs_of flat_map]. unfold sub_cell at 1 3. cbn [fst snd]. destruct o, x; try reflexivity; discriminate.
    + cbn [subs_of flat_map]. f_equal. exact (IH C).
Qed.
Lemma del_subs l a o : cell l a = Some o -> is_sub o = false -> subs_of (del_cell l a) = subs_of l.
Proof.
  intros C X. induction l as [|(b, y) t IH]; [reflexivity|].
  cbn [cell del_cell] in *. destruct (a =? b)%N eqn:Q.
  - injection C as ->. cbn [subs_of flat_map]. unfold sub_cell at 2. cbn [fst snd]. destruct o; try reflexivity; discriminate.
  - cbn [subs_of flat_map]. f_equal. exact (IH C).
Qed.
Lemma wfh_release h a h' : wfh h -> release h a = Ok h' -> wfh h'.
Proof.
  intros W R. unfold release in R. destruct (a =? NULL)%N eqn:N; [now injection R as <-|].
  destruct (cell (h_cells h) a) as [x|] eqn:C; [|discriminate]. injection R as <-.
  pose proof (cell_some _ _ _ C) as I. destruct (in_split _ _ I) as (l1 & l2 & L).
  assert (P : Permutation (h_cells h) ((a, x) :: l1 ++ l2)) by (rewrite L; symmetry; apply Permutation_middle).
  destruct (@holds_release h (l1 ++ l2) a x) as (h' & R & W'); [exact (@holds_perm h _ _ W P)|].
  unfold release in R. rewrite N, C in R. injection R as <-. destruct W' as (D & B & _). split; [exact D|split; [exact B|reflexivity]].
Qed.
Lemma kept_release S h a : kept S h -> nosub S a -> ens (release h a) (kept S).
Proof.
  intros (W & E) A h' R. split; [exact (wfh_release _ _ _ W R)|].
  unfold release in R. destruct (a =? NULL)%N eqn:N; [now injection R as <-|].
  destruct (cell (h_cells h) a) as [x|] eqn:C; [|discriminate]. injection R as <-.
  assert (X : is_sub x = false). { destruct x; try reflexivity. elim A. rewrite <- E. apply in_map_iff. exists (a, s). split; [reflexivity|apply subs_in; exact (cell_some _ _ _ C)]. }
  cbn [h_cells]. rewrite <- E. exact (del_subs _ _ _ C X).
Qed.
Lemma kept_drop S h a : kept S h -> ens (drop h a) (kept S).
Proof.
  intros K. unfold drop. destruct (a =? NULL)%N; [apply ens_ok; exact K|]. apply ens_bind. intros o E.
  destruct o; try exact (ens_ub _); apply kept_release; try exact K; now apply (load_nosub _ _ _ _ K E).
Qed.

Section Kept.
  Context {S : list (N * sub)}.
  Lemma e_cnode h a : kept S h -> ens (get_cnode h a) (fun _ => nosub S a).
  Proof. intros K. apply ens_bind. intros o E. destruct o; try exact (ens_ub _); apply ens_ok; now apply (load_nosub _ _ _ _ K E). Qed.
  Lemma e_lnode h a : kept S h -> ens (get_lnode h a) (fun _ => nosub S a).
  Proof. intros K. apply ens_bind. intros o E. destruct o; try exact (ens_ub _); apply ens_ok; now apply (load_nosub _ _ _ _ K E). Qed.
  Lemma e_pdir h a : kept S h -> ens (get_pdir h a) (fun _ => nosub S a).
  Proof. intros K. apply ens_bind. intros o E. destruct o; try exact (ens_ub _); apply ens_ok; now apply (load_nosub _ _ _ _ K E). Qed.
  Lemma e_pnode h a : kept S h -> ens (get_pnode h a) (fun _ => nosub S a).
  Proof. intros K. apply ens_bind. intros o E. destruct o; try exact (ens_ub _); apply ens_ok; now apply (load_nosub _ _ _ _ K E). Qed.
  Lemma e_cdir h a : kept S h -> ens (get_cdir h a) (fun _ => nosub S a).
  Proof. intros K. apply ens_bind. intros o E. destruct o; try exact (ens_ub _); apply ens_ok; now apply (load_nosub _ _ _ _ K E). Qed.
  Lemma e_arr h a : kept S h -> ens (get_arr h a) (fun _ => nosub S a).
  Proof. intros K. apply ens_bind. intros o E. destruct o; try exact (ens_ub _); apply ens_ok; now apply (load_nosub _ _ _ _ K E). Qed.
  Lemma e_resize h a n : kept S h -> ens (resize h a n) (fun x => kept S (snd x) /\ nosub S (fst x)).
  Proof.
    intros K. apply ens_bind. eapply ens_mono; [exact (e_arr h a K)|]. cbv beta. intros l A. apply ens_bind.
    eapply ens_mono; [exact (kept_release _ _ _ K A)|]. cbv beta. intros h' K'. apply ens_ok. now apply kept_alloc.
  Qed.
  Lemma e_put h a i x : kept S h -> ens (put_arr h a i x) (kept S).
  Proof.
    intros K. apply ens_bind. eapply ens_mono; [exact (e_arr h a K)|]. cbv beta. intros l A.
    destruct (upd l i x); [|apply ens_ub]. now apply kept_store.
  Qed.
End Kept.

(** One step. *)
Ltac fstep :=
  match goal with
  | |- ens (bind _ _) _ => apply ens_bind
  | |- ens (Ok _) _ => apply ens_ok
  | |- ens UB _ => apply ens_ub
  | |- ens Fuel _ => apply ens_fuel
  | |- ens Abort _ => apply ens_abort
  | |- ens (let '(_, _) := alloc ?o ?h in _) _ =>
      match goal with K : kept ?S h |- _ =>
        let K' := fresh "K" in let A := fresh "A" in
        destruct (kept_alloc S h o K eq_refl) as (K' & A);
        let a := fresh "a" in let h' := fresh "h" in destruct (alloc o h) as (a, h'); cbn [fst snd] in K', A
      end
  | K : kept ?S ?h |- ens (store ?h _ _) _ =>
      eapply ens_mono; [apply (kept_store S h _ _ K); [assumption|reflexivity]|]; cbv beta; let h' := fresh "h" in let K' := fresh "K" in intros h' K'
  | K : kept ?S ?h |- ens (release ?h _) _ =>
      eapply ens_mono; [apply (kept_release S h _ K); assumption|]; cbv beta; let h' := fresh "h" in let K' := fresh "K" in intros h' K'
  | K : kept ?S ?h |- ens (drop ?h _) _ =>
      eapply ens_mono; [apply (kept_drop S h _ K)|]; cbv beta; let h' := fresh "h" in let K' := fresh "K" in intros h' K'
  | K : kept ?S ?h |- ens (get_cnode ?h _) _ => eapply ens_mono; [apply (e_cnode h _ K)|]; cbv beta; intros ((? & ?) & ?) ?
  | K : kept ?S ?h |- ens (get_lnode ?h _) _ => eapply ens_mono; [apply (e_lnode h _ K)|]; cbv beta; intros (((? & ?) & ?) & ?) ?
  | K : kept ?S ?h |- ens (get_pdir ?h _) _ => eapply ens_mono; [apply (e_pdir h _ K)|]; cbv beta; intros ((? & ?) & ?) ?
  | K : kept ?S ?h |- ens (get_pnode ?h _) _ => eapply ens_mono; [apply (e_pnode h _ K)|]; cbv beta; intros ((((? & ?) & ?) & ?) & ?) ?
  | K : kept ?S ?h |- ens (get_cdir ?h _) _ => eapply ens_mono; [apply (e_cdir h _ K)|]; cbv beta; intros (((((((? & ?) & ?) & ?) & ?) & ?) & ?) & ?) ?
  | K : kept ?S ?h |- ens (get_arr ?h _) _ => eapply ens_mono; [apply (e_arr h _ K)|]; cbv beta; intros ? ?
  | K : kept ?S ?h |- ens (resize ?h _ _) _ =>
      eapply ens_mono; [apply (e_resize h _ _ K)|]; cbv beta; let h' := fresh "h" in let K' := fresh "K" in intros (? & h') (K' & ?); cbn [fst snd] in *
  | K : kept ?S ?h |- ens (put_arr ?h _ _ _) _ =>
      eapply ens_mono; [apply (e_put h _ _ _ K)|]; cbv beta; let h' := fresh "h" in let K' := fresh "K" in intros h' K'
  | |- ens (if ?b then _ else _) _ => destruct b
  | |- kept _ _ => assumption
  | |- kept _ _ /\ nosub _ _ => split; assumption
  | |- ens ?r _ => (* reads only *) apply ens_any; intro
  end; cbv beta iota.

Section Frame.
  Context {S : list (N * sub)}.
  Lemma append_frame h la x : kept S h -> ens (append h la x) (kept S).
  Proof.
    intros K. unfold append. fstep. fstep.
    match goal with |- context [match ?n with O => _ | _ => _ end] => destruct n end.
    - fstep. apply ens_ok. destruct (kept_alloc S h (OArr [NULL]) K eq_refl) as (K' & A). destruct (alloc _ h) as (a, h'). cbn [fst snd] in K', A.
      repeat fstep.
    - repeat fstep.
  Qed.
  Lemma remove_frame h id la : kept S h -> ens (remove_sub h id la) (fun x => kept S (snd x)).
  Proof.
    intros K. unfold remove_sub. do 2 fstep. do 2 fstep. fstep. fstep. destruct a0; [|apply ens_ok; exact K].
    repeat fstep.
  Qed.
  Lemma move_frame h x o d : kept S h -> ens (move h x o d) (kept S).
  Proof.
    intros K. unfold move. do 2 fstep. fstep. eapply ens_mono; [exact (remove_frame h _ _ K)|]. intros (f & h') K'. cbn [snd] in K'. cbv beta iota.
    fstep; [apply ens_abort|]. now apply append_frame.
  Qed.
  Lemma new_cnode_frame c p h : kept S h -> ens (new_cnode c p h) (fun x => kept S (snd x)).
  Proof. intros K. unfold new_cnode, new_lnode. repeat fstep. Qed.
  Lemma create_cdir_frame c k p v b h : kept S h -> ens (create_cdir c k p v b h) (fun x => kept S (snd x)).
  Proof.
    intros K. unfold create_cdir. do 2 fstep. fstep. eapply ens_mono; [exact (new_cnode_frame c a _ K1)|]. intros (cn & h') K'. cbn [snd] in K'.
    cbv beta iota. repeat fstep.
  Qed.
  Lemma create_child_frame c p b h : kept S h -> ens (create_child c p b h) (fun x => kept S (snd x)).
  Proof. intros K. unfold create_child. do 2 fstep. do 2 fstep. now apply create_cdir_frame. Qed.
  Lemma create_pdir_frame c v cn h : kept S h -> ens (create_pdir c v cn h) (fun x => kept S (snd x)).
  Proof.
    intros K. unfold create_pdir. do 2 fstep. fstep.
    apply (ens_mono _ (fun x => kept S (snd x))).
    { repeat fstep. }
    intros (pd & h1) K1. cbn [snd] in K1. cbv beta iota. do 2 fstep. do 2 fstep. fstep.
    eapply ens_mono; [apply create_cdir_frame; exact K2|]. intros (cd & h3) K3. cbn [snd] in K3. cbv beta iota.
    do 2 fstep. do 2 fstep. fstep.
    match goal with |- context [match ?n with O => _ | _ => _ end] => destruct n end.
    - apply ens_ok. destruct (kept_alloc S _ (OArr [NULL]) K4 eq_refl) as (K' & A'). destruct (alloc (OArr [NULL]) _) as (a', h'). cbn [fst snd] in K', A'.
      repeat fstep.
    - repeat fstep.
  Qed.
  Lemma set_capacity_frame c la h : kept S h -> ens (set_capacity c la h) (kept S).
  Proof. intros K. unfold set_capacity. repeat fstep. Qed.
  Lemma move_loop_frame n d la : forall i h, kept S h -> ens (move_loop n d la i h) (kept S).
  Proof.
    induction n as [|n IH]; intros i h K; [apply ens_fuel|]. cbn [move_loop]. do 2 fstep.
    destruct (nth_error _ i) as [x|]; [|now apply ens_ok]. do 2 fstep. destruct a0 as [e|]; [|now apply IH].
    fstep. eapply ens_mono; [apply move_frame; exact K|]. intros h' K'. now apply IH.
  Qed.
  Lemma grow_frame n : forall c a h, kept S h ->
    ens (p_partitioning n c a h) (kept S) /\ (forall la, ens (p_loop n c a la h) (kept S)) /\ ens (p_clustering n c a h) (kept S).
  Proof.
    induction n as [|n IH]; intros c a h K; [split; [|split; [intros la|]]; apply ens_fuel|].
    split; [|split; [intros la|]]; cbn [p_partitioning p_loop p_clustering].
    - do 2 fstep. fstep. eapply ens_mono; [apply IH; exact K|]. intros h' K'. now apply set_capacity_frame.
    - do 2 fstep. fstep; [now apply ens_ok|]. do 2 fstep. destruct a1 as [v|]; [|now apply ens_ok].
      do 2 fstep. do 2 fstep. fstep; [now apply ens_ok|]. fstep. eapply ens_mono; [apply create_pdir_frame; exact K|]. intros (pn & h1) K1. cbn [snd] in K1.
      cbv beta iota. fstep. eapply ens_mono; [apply move_loop_frame; exact K1|]. intros h2 K2. cbv beta. do 2 fstep. fstep.
      eapply ens_mono; [apply IH; exact K2|]. intros h3 K3. now apply IH.
    - fstep; [now apply ens_ok|]. do 2 fstep. fstep; [now apply ens_ok|]. do 2 fstep. do 2 fstep. fstep; [now apply ens_ok|].
      fstep. apply ens_any. intros stop. cbv beta. fstep. apply (ens_mono _ (kept S)); [|intros h1 K1; now apply set_capacity_frame].
      fstep; [now apply IH|]. do 2 fstep. destruct a1 as (lb, rb). fstep.
      eapply ens_mono; [apply create_child_frame; exact K|]. intros (l & g1) L1. cbn [snd] in L1. cbv beta iota. do 2 fstep. fstep.
      eapply ens_mono; [apply create_child_frame; eassumption|]. intros (r & g2) L2. cbn [snd] in L2. cbv beta iota. do 2 fstep. fstep.
      eapply ens_mono; [apply move_loop_frame; eassumption|]. intros g3 L3. cbv beta. fstep.
      eapply ens_mono; [apply IH; eassumption|]. intros g4 L4. cbv beta. fstep.
      eapply ens_mono; [apply IH; eassumption|]. intros g5 L5. cbv beta. now apply IH.
  Qed.
  Lemma insert_frame n : forall c x cn cd h, kept S h -> ens (p_insert n c x cn cd h) (kept S).
  Proof.
    induction n as [|n IH]; intros c x cn cd h K; [apply ens_fuel|]. cbn [p_insert]. do 2 fstep. do 2 fstep. do 2 fstep. destruct a0 as (f, pn). fstep.
    - fstep. eapply ens_mono; [apply append_frame; exact K|]. intros h1 K1. cbv beta. do 2 fstep. fstep; now apply grow_frame.
    - do 2 fstep. do 2 fstep. do 2 fstep. fstep. eapply ens_mono; [apply IH; exact K|]. intros h1 K1. cbv beta. unfold update_score. repeat fstep.
  Qed.
End Frame.
