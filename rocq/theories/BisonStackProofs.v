(** The stacks as arrays are the stack as a list. *)
From Coq Require Import ZArith NArith String Bool List Lia Permutation ZifyBool ZifyNat.
From Verif Require Import Base Flex Bison Ledger HeapExpr HeapSpec PermTac LedgerProofs BisonStack.
Import ListNotations.
Local Open Scope Z_scope.
Local Open Scope list_scope.

(** ** Arrays *)
Lemma a_put_ok {A} (x : A) : forall l i, (i < List.length l)%nat ->
  exists l', a_put l i x = Ok l' /\ List.length l' = List.length l /\ nth_error l' i = Some (Some x) /\
    forall j, j <> i -> nth_error l' j = nth_error l j.
Proof.
  induction l as [|y l IH]; intros i H; cbn in H; [lia|]. destruct i as [|i]; cbn [a_put].
  - eexists. split; [reflexivity|]. split; [reflexivity|]. split; [reflexivity|]. intros [|j] N; [easy|reflexivity].
  - destruct (IH i ltac:(lia)) as (l' & -> & L & E & O). cbn [bind]. eexists. split; [reflexivity|]. cbn. split; [lia|]. split; [exact E|].
    intros [|j] N; [reflexivity|]. cbn. apply O. lia.
Qed.
Lemma nth_firstn {A} : forall (l : list A) k i, (i < k)%nat -> nth_error (firstn k l) i = nth_error l i.
Proof.
  induction l as [|x l IH]; intros [|k] i H; try lia; [now destruct i|]. destruct i as [|i]; [reflexivity|]. cbn. apply IH. lia.
Qed.
Lemma a_copy_ok {A} (l : array A) k n : (k <= List.length l)%nat -> (k <= n)%nat ->
  exists l', a_copy l k n = Ok l' /\ List.length l' = n /\ forall j, (j < k)%nat -> nth_error l' j = nth_error l j.
Proof.
  intros H1 H2. unfold a_copy. rewrite (proj2 (Nat.ltb_ge _ _) H1), (proj2 (Nat.ltb_ge _ _) H2). cbn [orb]. eexists. split; [reflexivity|]. split.
  - rewrite app_length, firstn_length, repeat_length. lia.
  - intros j H. rewrite nth_error_app1 by (rewrite firstn_length; lia). now apply nth_firstn.
Qed.
Lemma advance_ok z n b : 0 < z_union z -> n * b <= advance z n b <= n * b + gap z.
Proof.
  intros U. unfold advance, gap. pose proof (Z.div_mod (n * b + (z_union z - 1)) (z_union z) ltac:(lia)).
  pose proof (Z.mod_pos_bound (n * b + (z_union z - 1)) (z_union z) U). lia.
Qed.

(** ** The list from its bottom *)
Lemma rev_nth_low {A} (e : A) st i : (i < List.length st)%nat -> nth_error (rev (e :: st)) i = nth_error (rev st) i.
Proof. intros H. cbn [rev]. rewrite nth_error_app1 by (rewrite rev_length; lia). reflexivity. Qed.
Lemma rev_nth_top {A} (e : A) st : nth_error (rev (e :: st)) (List.length st) = Some e.
Proof. cbn [rev]. rewrite nth_error_app2 by (rewrite rev_length; lia). rewrite rev_length, Nat.sub_diag. reflexivity. Qed.
Lemma rev_nth_app {A} (t st : list A) i : nth_error (rev (t ++ st)) (List.length st + i) = nth_error (rev t) i.
Proof. rewrite rev_app_distr, nth_error_app2 by (rewrite rev_length; lia). rewrite rev_length. f_equal. lia. Qed.
Lemma rev_nth_below {A} (t st : list A) i : (i < List.length st)%nat -> nth_error (rev (t ++ st)) i = nth_error (rev st) i.
Proof. intros H. rewrite rev_app_distr, nth_error_app1 by (rewrite rev_length; lia). reflexivity. Qed.
Lemma rev_nth_some {A} (st : list A) i e : nth_error (rev st) i = Some e -> (i < List.length st)%nat.
Proof. intros H. rewrite <- rev_length. apply nth_error_Some. congruence. Qed.

Lemma pop_split {V} n : forall (st : list (Z * V)) vs ws st', pop n st vs = Ok (ws, st') ->
  exists t, st = t ++ st' /\ List.length t = n /\ ws = rev (map snd t) ++ vs.
Proof.
  induction n as [|n IH]; intros st vs ws st' E; cbn [pop] in E.
  - injection E as <- <-. exists []. auto.
  - destruct st as [|(q, v) st]; [discriminate E|]. destruct (IH _ _ _ _ E) as (t & -> & L & ->). exists ((q, v) :: t). split; [reflexivity|].
    split; [cbn; lia|]. cbn [map rev snd]. now rewrite <- app_assoc.
Qed.

Section Sim.
Context {K V R : Type}.
Variables (P : ptables) (code : K -> Z) (scan : K -> cmd V) (garbage : V).
Variable act : Z -> list V -> cmd (V * option R).
Variable z : sizes.
Hypothesis Hunion : 0 < z_union z.
Hypothesis Hbytes : 0 <= z_state z /\ 0 <= z_value z /\ stack_bytes z YYMAXDEPTH <= SIZE_MAX.
Hypothesis Hzero : z_min z <= 0 <= z_max z.
Hypothesis Htable : forall i x, at_ (p_table P) i = Ok x -> z_min z <= x <= z_max z.
Hypothesis Hdefgoto : forall i x, at_ (p_defgoto P) i = Ok x -> z_min z <= x <= z_max z.
Hypothesis Hcheck : forall i, 0 <= i <= p_last P -> exists c, at_ (p_check P) i = Ok c /\ c <> YYTERROR.
Notation stacks := (@stacks V).

(** ** The invariant *)
(** Room, and who owns the arrays; [l] is what else is allocated for stacks. *)
Definition sound (l : list Z) (k : stacks) : Prop :=
  Z.of_nat (List.length (k_ss k)) = k_size k /\ Z.of_nat (List.length (k_vs k)) = k_size k /\
  YYINITDEPTH <= k_size k <= YYMAXDEPTH /\ k_sp k = k_vp k /\ Z.of_nat (k_sp k) < k_size k /\
  (k_at k = 0 /\ holds (k_mem k) l \/ 0 < k_at k /\ holds (k_mem k) (k_at k :: l)).
(** The values of the list are in the array, but for the one at the bottom, and so are the first [n] states. *)
Definition stored (k : stacks) (st : list (Z * V)) (n : nat) : Prop :=
  List.length st = S (k_sp k) /\
  (forall i e, nth_error (rev st) i = Some e -> (i < n)%nat -> nth_error (k_ss k) i = Some (Some (fst e))) /\
  (forall i e, nth_error (rev st) i = Some e -> i <> 0%nat -> nth_error (k_vs k) i = Some (Some (snd e))).
(** The states: all can be stored, all but the current one have been looked up. *)
Definition known (st : list (Z * V)) : Prop :=
  Forall (fun e => z_min z <= fst e <= z_max z) st /\ Forall (fun e => exists p, at_ (p_pact P) (fst e) = Ok p) (tl st).

Lemma in_reach_ok l k : sound l k -> in_reach k = true.
Proof.
  intros (_ & _ & _ & _ & _ & [(E & _)|(_ & H)]); unfold in_reach; [now rewrite E|]. rewrite (holds_live _ _ _ H); [apply orb_true_r|now left].
Qed.
Lemma set_state_ok l k q v st : sound l k -> stored k ((q, v) :: st) (k_sp k) -> z_min z <= q <= z_max z ->
  exists k', set_state z k q = Ok k' /\ sound l k' /\ stored k' ((q, v) :: st) (S (k_sp k')) /\ k_size k' = k_size k.
Proof.
  intros So (L & Ss & Sv) B. unfold set_state. rewrite (in_reach_ok _ _ So). cbn [negb orb].
  replace (q <? z_min z) with false by lia. replace (z_max z <? q) with false by lia. cbn [orb].
  destruct So as (S1 & S2 & S3 & S4 & S5 & S6).
  destruct (a_put_ok q (k_ss k) (k_sp k) ltac:(lia)) as (ss & -> & L' & E & O). cbn [bind]. eexists. split; [reflexivity|].
  split; [unfold sound; cbn; now rewrite L'|]. split; [|reflexivity]. unfold stored. cbn [k_ss k_sp k_vs]. split; [exact L|]. split; [|exact Sv].
  intros i e Ei Hi. destruct (Nat.eq_dec i (k_sp k)) as [->|N].
  - rewrite E. replace (k_sp k) with (List.length st) in Ei by (cbn in L; lia). rewrite rev_nth_top in Ei. injection Ei as <-. reflexivity.
  - rewrite (O i N). apply Ss; [exact Ei|lia].
Qed.
(** Growing keeps the stacks; there is room for one more entry afterwards, unless the limit is reached. *)
Lemma grow_ok l k st : sound l k -> stored k st (S (k_sp k)) ->
  (Z.of_nat (List.length st) = YYMAXDEPTH /\ grow z k = Ok (NoMemory k)) \/
  (Z.of_nat (List.length st) < YYMAXDEPTH /\ exists k', grow z k = Ok (Grown k') /\ sound l k' /\ stored k' st (S (k_sp k')) /\
     Z.of_nat (k_sp k') < k_size k' - 1).
Proof.
  intros So St. pose proof (in_reach_ok _ _ So) as Ir. pose proof So as (S1 & S2 & S3 & S4 & S5 & S6). pose proof St as (L & Ss & Sv). unfold grow.
  destruct (k_size k - 1 <=? Z.of_nat (k_sp k)) eqn:Full; [|right; split; [unfold YYMAXDEPTH in *; lia|]; exists k; repeat (split; [easy|]); lia].
  destruct (YYMAXDEPTH <=? k_size k) eqn:Max; [left; split; [lia|reflexivity]|right]. split; [lia|].
  set (n := if YYMAXDEPTH <? k_size k * 2 then YYMAXDEPTH else k_size k * 2).
  assert (Hn : k_size k < n <= YYMAXDEPTH) by (unfold n, YYINITDEPTH in *; destruct (YYMAXDEPTH <? k_size k * 2) eqn:X; lia).
  unfold relocate.
  assert (Hb : stack_bytes z n <= SIZE_MAX).
  { destruct Hbytes as (B1 & B2 & B3). eapply Z.le_trans; [|exact B3]. unfold stack_bytes. apply Z.add_le_mono_r. apply Z.mul_le_mono_nonneg_r; lia. }
  pose proof (advance_ok z n (z_state z) Hunion) as Ad.
  assert (Hm : exists a m, malloc (k_mem k) = Ok (a, m) /\ 0 < a /\ exists m',
    (if k_at k =? 0 then Ok (tt, m) else free (k_at k) m) = Ok (tt, m') /\ holds m' (a :: l)).
  { destruct S6 as [(Ea & H)|(Pa & H)].
    - destruct (wp_malloc _ _ (fun b m' => holds m' (b :: l)) H ltac:(intros; assumption)) as (a & m & Em & Hm). exists a, m. split; [exact Em|].
      split; [eapply holds_pos; [exact Hm|now left]|]. exists m. rewrite Ea. now split.
    - destruct (wp_malloc _ _ (fun b m' => holds m' (b :: k_at k :: l)) H ltac:(intros; assumption)) as (a & m & Em & Hm). exists a, m. split; [exact Em|].
      split; [eapply holds_pos; [exact Hm|now left]|]. rewrite (proj2 (Z.eqb_neq (k_at k) 0)) by lia.
      destruct (wp_free m _ (k_at k) (a :: l) (fun _ m' => holds m' (a :: l)) Hm ltac:(perm) ltac:(intros; assumption)) as ([] & m' & Em' & Hm'). now exists m'. }
  destruct Hm as (a & m & -> & Pa & m' & Ef & Hm). cbn [bind].
  rewrite (proj2 (Z.ltb_ge _ _) Hb). cbn zeta. rewrite (proj2 (Z.ltb_ge (advance z n (z_state z)) (n * z_state z))) by lia.
  rewrite (proj2 (Z.ltb_ge (stack_bytes z n) _)) by (unfold stack_bytes; lia). cbn [orb]. rewrite Ir. cbn [negb].
  destruct (a_copy_ok (k_ss k) (S (k_sp k)) (Z.to_nat n) ltac:(lia) ltac:(lia)) as (ss & -> & Ls & Os). cbn [bind].
  destruct (a_copy_ok (k_vs k) (S (k_sp k)) (Z.to_nat n) ltac:(lia) ltac:(lia)) as (vs & -> & Lv & Ov). cbn [bind].
  rewrite Ef. cbn [bind k_sp]. replace (S (k_sp k) - 1)%nat with (k_sp k) by lia.
  replace (n - 1 <=? Z.of_nat (k_sp k)) with false by lia. eexists. split; [reflexivity|].
  split; [unfold sound; cbn; rewrite Ls, Lv; repeat (split; [lia|]); right; now split|].
  split; [|cbn; lia]. unfold stored. cbn [k_ss k_sp k_vs]. split; [exact L|]. split.
  - intros i e Ei Hi. rewrite Os by lia. now apply Ss.
  - intros i e Ei Hi. rewrite Ov by (apply rev_nth_some in Ei; lia). now apply Sv.
Qed.
Lemma push_value_ok l k v st : sound l k -> stored k st (S (k_sp k)) -> Z.of_nat (k_sp k) < k_size k - 1 ->
  exists k', push_value k v = Ok k' /\ sound l (next_state_slot k') /\ k_sp k' = k_sp k /\ k_ss k' = k_ss k /\ in_reach k' = true /\
    forall q, stored (next_state_slot k') ((q, v) :: st) (k_sp (next_state_slot k')).
Proof.
  intros So (L & Ss & Sv) B. pose proof (in_reach_ok _ _ So) as Ir. destruct So as (S1 & S2 & S3 & S4 & S5 & S6). unfold push_value. rewrite Ir. cbn [negb].
  destruct (a_put_ok v (k_vs k) (S (k_vp k)) ltac:(lia)) as (vs & -> & L' & E & O). cbn [bind]. eexists. split; [reflexivity|].
  split; [unfold sound, next_state_slot; cbn; rewrite L'; repeat (split; [lia|]); exact S6|]. split; [reflexivity|]. split; [reflexivity|].
  split; [exact Ir|]. intros q. unfold stored, next_state_slot. cbn [k_ss k_sp k_vs]. split; [cbn; lia|]. split.
  - intros i e Ei Hi. rewrite rev_nth_low in Ei by lia. apply Ss; [exact Ei|lia].
  - intros i e Ei Hi. destruct (Nat.eq_dec i (S (k_vp k))) as [->|N].
    + rewrite E. replace (S (k_vp k)) with (List.length st) in Ei by lia. rewrite rev_nth_top in Ei. now injection Ei as <-.
    + rewrite (O i N). apply rev_nth_some in Ei as Li. cbn in Li. rewrite rev_nth_low in Ei by lia. now apply Sv.
Qed.
Lemma pop_stack_ok l k t st : sound l k -> stored k (t ++ st) (S (k_sp k)) -> st <> [] ->
  exists k', pop_stack k (List.length t) = Ok k' /\ sound l k' /\ stored k' st (S (k_sp k')) /\ k_size k' = k_size k /\ (k_sp k' <= k_sp k)%nat.
Proof.
  intros (S1 & S2 & S3 & S4 & S5 & S6) (L & Ss & Sv) N. unfold pop_stack. rewrite app_length in L.
  assert (0 < List.length st)%nat by (destruct st; [easy|cbn; lia]).
  rewrite (proj2 (Nat.ltb_ge _ _)) by lia. rewrite (proj2 (Nat.ltb_ge _ _)) by lia. cbn [orb]. eexists. split; [reflexivity|].
  split; [unfold sound; cbn; repeat (split; [lia|]); exact S6|]. split; [|cbn; lia]. unfold stored. cbn [k_ss k_sp k_vs]. split; [lia|]. split.
  - intros i e Ei Hi. apply Ss; [|lia]. rewrite rev_nth_below; [exact Ei|]. now apply rev_nth_some in Ei.
  - intros i e Ei Hi. apply Sv; [|lia]. rewrite rev_nth_below; [exact Ei|]. now apply rev_nth_some in Ei.
Qed.
Lemma state_top l k q v st : sound l k -> stored k ((q, v) :: st) (S (k_sp k)) -> state_at k (k_sp k) = Ok q.
Proof.
  intros So (L & Ss & Sv). unfold state_at. rewrite (in_reach_ok _ _ So). unfold a_get.
  assert (E : nth_error (rev ((q, v) :: st)) (k_sp k) = Some (q, v)) by (replace (k_sp k) with (List.length st) by (cbn in L; lia); apply rev_nth_top).
  now rewrite (Ss _ _ E ltac:(lia)).
Qed.
Lemma values_ok l k st : forall vs t0 t1, sound l k -> stored k (t1 ++ t0 ++ st) (S (k_sp k)) -> st <> [] -> vs = rev (map snd t1) ->
  values_at k (List.length (t0 ++ st)) (List.length t1) = Ok vs.
Proof.
  intros vs t0 t1. revert vs t0. induction t1 as [|e t1 IH] using rev_ind; intros vs t0 So St N ->; [reflexivity|].
  replace (List.length (t1 ++ [e])) with (S (List.length t1)) by (rewrite app_length; cbn; lia). cbn [values_at].
  rewrite <- app_assoc in St. cbn [app] in St. rewrite map_app, rev_app_distr. cbn [map rev app].
  assert (Ev : value_at k (List.length (t0 ++ st)) = Ok (snd e)).
  { unfold value_at. rewrite (in_reach_ok _ _ So). unfold a_get. destruct St as (L & _ & Sv).
    assert (E : nth_error (rev (t1 ++ e :: t0 ++ st)) (List.length (t0 ++ st)) = Some e).
    { rewrite rev_nth_below by (cbn; lia). apply rev_nth_top. }
    rewrite (Sv _ _ E); [reflexivity|]. rewrite app_length. destruct st; [easy|cbn; lia]. }
  rewrite Ev. cbn [bind]. change (S (List.length (t0 ++ st))) with (List.length ((e :: t0) ++ st)).
  rewrite (IH (rev (map snd t1)) (e :: t0) So St N eq_refl). reflexivity.
Qed.

(** ** The end *)
Lemma pop_all_ok l : forall n k st, sound l k -> stored k st (S (k_sp k)) -> (k_sp k < n)%nat ->
  exists k', pop_all n k = Ok k' /\ sound l k'.
Proof.
  induction n as [|n IH]; intros k st So St B; [lia|]. cbn [pop_all].
  destruct (Nat.eqb_spec (k_sp k) 0) as [E|E]; [now exists k|].
  destruct st as [|(q, v) st]; [destruct St as (L & _); discriminate L|].
  rewrite (state_top _ _ _ _ _ So St). cbn [bind].
  destruct (pop_stack_ok l k [(q, v)] st So St) as (k' & Ek & So' & St' & _ & Le); [destruct St as (L & _); destruct st; [cbn in L; lia|easy]|].
  cbn [List.length] in Ek. rewrite Ek. cbn [bind]. apply (IH k' st So' St'). destruct St as (L & _), St' as (L' & _). cbn in L. lia.
Qed.
Lemma return_ok l k st : sound l k -> stored k st (S (k_sp k)) -> exists m, return_ k = Ok m /\ holds m l.
Proof.
  intros So St. unfold return_. destruct (pop_all_ok l (S (k_sp k)) k st So St ltac:(lia)) as (k' & -> & So'). cbn [bind].
  destruct So' as (_ & _ & _ & _ & _ & [(E & H)|(Pa & H)]).
  - rewrite E. cbn. now exists (k_mem k').
  - rewrite (proj2 (Z.eqb_neq (k_at k') 0)) by lia.
    destruct (wp_free _ _ (k_at k') l (fun _ m' => holds m' l) H ltac:(reflexivity) ltac:(intros; assumption)) as ([] & m' & -> & Hm'). now exists m'.
Qed.
Lemma pop_errors_ok l : forall n k q v st, sound l k -> stored k ((q, v) :: st) (S (k_sp k)) -> (k_sp k < n)%nat ->
  Forall (fun e => exists p, at_ (p_pact P) (fst e) = Ok p) ((q, v) :: st) ->
  exists k' st', pop_errors P n q k = Ok k' /\ sound l k' /\ stored k' st' (S (k_sp k')).
Proof.
  induction n as [|n IH]; intros k q v st So St B F; [lia|]. cbn [pop_errors].
  inversion F as [|? ? (p & Ep) F']; subst. cbn [fst] in Ep. rewrite Ep. cbn [bind].
  assert (X : (if p =? p_ninf P then Ok false else
        if (p + YYTERROR <? 0) || (p_last P <? p + YYTERROR) then Ok false else
        bind (at_ (p_check P) (p + YYTERROR)) (fun c =>
        if negb (c =? YYTERROR) then Ok false else
        bind (at_ (p_table P) (p + YYTERROR)) (fun a => Ok (0 <? a)))) = Ok false).
  { destruct (p =? p_ninf P); [reflexivity|]. destruct ((p + YYTERROR <? 0) || (p_last P <? p + YYTERROR)) eqn:Y; [reflexivity|].
    destruct (Hcheck (p + YYTERROR) ltac:(lia)) as (c & -> & Nc). cbn [bind]. now rewrite (proj2 (Z.eqb_neq _ _) Nc). }
  rewrite X. cbn [bind]. destruct (Nat.eqb_spec (k_sp k) 0) as [E|E]; [exists k, ((q, v) :: st); auto|].
  destruct (pop_stack_ok l k [(q, v)] st So St) as (k' & Ek & So' & St' & _ & Le); [destruct St as (L & _); destruct st; [cbn in L; lia|easy]|].
  cbn [List.length] in Ek. rewrite Ek. cbn [bind].
  destruct st as [|(q', v') st]; [destruct St' as (L & _); discriminate L|]. rewrite (state_top _ _ _ _ _ So' St'). cbn [bind].
  apply (IH k' q' v' st So' St'); [|exact F']. destruct St as (L & _), St' as (L' & _). cbn in L, L'. lia.
Qed.

(** ** Rounds *)
Lemma goto_range q x q' : goto_of P q x = Ok q' -> z_min z <= q' <= z_max z.
Proof.
  unfold goto_of. destruct (at_ (p_pgoto P) (x - p_ntokens P)) as [g| | |]; try discriminate. cbn [bind].
  destruct ((0 <=? g + q) && (g + q <=? p_last P)); [|apply Hdefgoto].
  destruct (at_ (p_check P) (g + q)) as [c| | |]; try discriminate. cbn [bind]. destruct (c =? q); [apply Htable|apply Hdefgoto].
Qed.
Lemma shift_range q la q' : move_of P q la = Ok (Shift q') -> z_min z <= q' <= z_max z.
Proof.
  unfold move_of. destruct (at_ (p_pact P) q) as [p| | |]; try discriminate. cbn [bind].
  assert (D : yydefault P q <> Ok (Shift q')).
  { unfold yydefault. destruct (at_ (p_defact P) q) as [d| | |]; try discriminate. cbn [bind]. destruct (d =? 0); discriminate. }
  destruct (p =? p_ninf P); [intros X; now elim D|]. destruct la as [t| | |]; try discriminate. cbn [bind].
  destruct ((p + t <? 0) || (p_last P <? p + t)); [intros X; now elim D|].
  destruct (at_ (p_check P) (p + t)) as [c| | |]; try discriminate. cbn [bind]. destruct (negb (c =? t)); [intros X; now elim D|].
  destruct (at_ (p_table P) (p + t)) as [a| | |] eqn:Ea; try discriminate. cbn [bind]. destruct (a <=? 0); [discriminate|].
  intros X. injection X as <-. exact (Htable _ _ Ea).
Qed.
Lemma move_pact q la mv : move_of P q la = Ok mv -> exists p, at_ (p_pact P) q = Ok p.
Proof. unfold move_of. destruct (at_ (p_pact P) q) as [p| | |]; try discriminate. eauto. Qed.

Lemma then_inv {A B} (c : cmd A) (f : A -> cmd B) m x m' : then_ c f m = Ok (x, m') -> exists a m1, c m = Ok (a, m1) /\ f a m1 = Ok (x, m').
Proof. unfold then_. destruct (c m) as [(a, m1)| | |]; try discriminate. cbn [bind]. eauto. Qed.
Lemma then_ok {A B} (c : cmd A) (f : A -> cmd B) m a m1 : c m = Ok (a, m1) -> then_ c f m = f a m1.
Proof. intros E. unfold then_. now rewrite E. Qed.
Lemma fail_inv {A} (r : result A) m a m' : fail r m = Ok (a, m') -> r = Ok a /\ m' = m.
Proof. unfold fail. destruct r; try discriminate. cbn. intros E. injection E as <- <-. auto. Qed.
Lemma fail_ok {A} (r : result A) m a : r = Ok a -> fail r m = Ok (a, m).
Proof. intros ->. reflexivity. Qed.

Lemma reduce_ok l k n st r m st' r' m' : sound l k -> stored k st (S (k_sp k)) -> Z.of_nat (k_sp k) < k_size k - 1 -> known st ->
  Forall (fun e => exists p, at_ (p_pact P) (fst e) = Ok p) st ->
  h_reduce P act n st r m = Ok ((st', r'), m') ->
  exists k' q v st0, s_reduce P act n k r m = Ok ((k', q, r'), m') /\ st' = (q, v) :: st0 /\ sound l k' /\ stored k' ((q, v) :: st0) (k_sp k') /\
    z_min z <= q <= z_max z /\ known st'.
Proof.
  intros So St B Kn F E. unfold h_reduce in E.
  apply then_inv in E. destruct E as (len & m0 & E0 & E). apply fail_inv in E0. destruct E0 as (Elen & ->).
  apply then_inv in E. destruct E as ((vs, st1) & m0 & E0 & E). apply fail_inv in E0. destruct E0 as (Epop & ->).
  apply then_inv in E. destruct E as ((v, o) & m1 & Eact & E).
  apply then_inv in E. destruct E as (x & m0 & E0 & E). apply fail_inv in E0. destruct E0 as (Ex & ->).
  destruct st1 as [|(q0, v0) st1]; [discriminate E|].
  apply then_inv in E. destruct E as (q & m0 & E0 & E). apply fail_inv in E0. destruct E0 as (Eq & ->).
  injection E as <- <- <-.
  destruct (pop_split _ _ _ _ _ Epop) as (t & Est & Lt & Evs). rewrite app_nil_r in Evs. subst st.
  unfold s_reduce. erewrite then_ok by (apply fail_ok; exact Elen). cbn zeta. rewrite <- Lt.
  pose proof St as (L & _). rewrite app_length in L. cbn [List.length] in L. pose proof So as (S1 & S2 & S3 & S4 & S5 & S6).
  rewrite (proj2 (Nat.ltb_ge (S (k_vp k)) (List.length t))) by lia.
  rewrite (proj2 (Nat.ltb_lt (S (k_vp k) - List.length t) (List.length (k_vs k)))) by lia. cbn [orb negb].
  erewrite then_ok by reflexivity. cbn beta.
  assert (Ev : values_at k (S (k_vp k) - List.length t) (List.length t) = Ok vs).
  { replace (S (k_vp k) - List.length t)%nat with (List.length ([] ++ (q0, v0) :: st1)) by (cbn [app List.length]; lia).
    eapply values_ok; [exact So|exact St|discriminate|exact Evs]. }
  erewrite then_ok by (apply fail_ok; exact Ev). cbn beta. erewrite then_ok by exact Eact. cbn beta iota.
  destruct (pop_stack_ok l k t ((q0, v0) :: st1) So St ltac:(discriminate)) as (k1 & Ek1 & So1 & St1 & Sz & Le).
  erewrite then_ok by (apply fail_ok; exact Ek1). cbn beta.
  destruct (push_value_ok l k1 v _ So1 St1 ltac:(lia)) as (k2 & Ek2 & So2 & Sp2 & Ss2 & Ir2 & St2).
  erewrite then_ok by (apply fail_ok; exact Ek2). cbn beta.
  erewrite then_ok by (apply fail_ok; exact Ex). cbn beta.
  assert (Et : state_at k2 (k_sp k2) = Ok q0).
  { pose proof (state_top _ _ _ _ _ So1 St1) as X. unfold state_at in *. rewrite Ir2, Ss2, Sp2. now rewrite (in_reach_ok _ _ So1) in X. }
  erewrite then_ok by (apply fail_ok; exact Et). cbn beta.
  erewrite then_ok by (apply fail_ok; exact Eq). cbn beta.
  apply goto_range in Eq as Rq. exists (next_state_slot k2), q, v, ((q0, v0) :: st1). split; [reflexivity|]. split; [reflexivity|].
  split; [exact So2|]. split; [apply St2|]. split; [exact Rq|]. destruct Kn as (K1 & _). apply Forall_app in K1, F. split.
  - constructor; [exact Rq|apply K1].
  - cbn [tl]. apply F.
Qed.

Lemma run_sim l : forall n q v st k la ts r m lb m', sound l k -> stored k ((q, v) :: st) (k_sp k) -> known ((q, v) :: st) ->
  h_run P code scan garbage act n ((q, v) :: st) la ts r m = Ok (lb, m') ->
  exists e, s_run P code scan garbage act z n q k la ts r m = Ok (e, m') /\
    en_out e = lb_out lb /\ en_root e = lb_root lb /\ en_la e = lb_la lb /\ en_rest e = lb_rest lb /\ holds (en_mem e) l.
Proof.
  induction n as [|n IH]; intros q v st k la ts r m lb m' So St Kn E; [discriminate E|].
  cbn [h_run] in E. cbn [s_run]. apply then_inv in E. destruct E as (x & m1 & E1 & E).
  unfold h_step in E1. unfold s_step at 1.
  destruct (set_state_ok l k q v st So St) as (k1 & Ek1 & So1 & St1 & Sz1); [destruct Kn as (K1 & _); now inversion K1|].
  destruct (grow_ok l k1 _ So1 St1) as [(Full & Eg)|(Room & k2 & Eg & So2 & St2 & B2)].
  - rewrite Full, Z.leb_refl in E1. injection E1 as <- <-. injection E as <- <-.
    destruct (return_ok l k1 _ So1 St1) as (mm & Er & Hm). eexists. split.
    + erewrite then_ok; [|erewrite then_ok by (apply fail_ok; exact Ek1); cbn beta; erewrite then_ok by (apply fail_ok; exact Eg); cbn beta iota;
        erewrite then_ok by (apply fail_ok; exact Er); reflexivity]. reflexivity.
    + cbn. auto.
  - rewrite (proj2 (Z.leb_gt _ _) Room) in E1.
    destruct (q =? p_final P) eqn:Fin.
    + injection E1 as <- <-. injection E as <- <-.
      destruct (return_ok l k2 _ So2 St2) as (mm & Er & Hm). eexists. split.
      * erewrite then_ok; [|erewrite then_ok by (apply fail_ok; exact Ek1); cbn beta; erewrite then_ok by (apply fail_ok; exact Eg); cbn beta iota;
          erewrite then_ok by (apply fail_ok; exact Er); reflexivity]. reflexivity.
      * cbn. auto.
    + apply then_inv in E1. destruct E1 as (la1 & m2 & Ef & E1).
      apply then_inv in E1. destruct E1 as (mv & m3 & E0 & E1). apply fail_inv in E0. destruct E0 as (Emv & ->).
      assert (F : Forall (fun e => exists p, at_ (p_pact P) (fst e) = Ok p) ((q, v) :: st)).
      { constructor; [now apply move_pact in Emv|apply Kn]. }
      destruct mv as [q'|rule|].
      * (* shift *)
        apply shift_range in Emv as Rq.
        assert (Push : forall w, exists k3, push_value k2 w = Ok k3 /\ sound l (next_state_slot k3) /\
            stored (next_state_slot k3) ((q', w) :: (q, v) :: st) (k_sp (next_state_slot k3)) /\ known ((q', w) :: (q, v) :: st)).
        { intros w. destruct (push_value_ok l k2 w _ So2 St2 B2) as (k3 & Ek3 & So3 & _ & _ & _ & St3). exists k3. split; [exact Ek3|].
          split; [exact So3|]. split; [apply St3|]. split; [|exact F]. constructor; [exact Rq|apply Kn]. }
        destruct ts as [|t ts].
        -- injection E1 as <- <-. destruct (Push garbage) as (k3 & Ek3 & So3 & St3 & Kn3).
           destruct (IH _ _ _ _ None [] r m2 lb m' So3 St3 Kn3 E) as (e & Ee & Q). exists e. split; [|exact Q].
           erewrite then_ok; [|erewrite then_ok by (apply fail_ok; exact Ek1); cbn beta; erewrite then_ok by (apply fail_ok; exact Eg); cbn beta iota;
             erewrite then_ok by exact Ef; cbn beta; erewrite then_ok by (apply fail_ok; exact Emv); cbn beta iota;
             erewrite then_ok by (apply fail_ok; exact Ek3); reflexivity]. exact Ee.
        -- destruct la1 as [w|]; [|discriminate E1]. injection E1 as <- <-. destruct (Push w) as (k3 & Ek3 & So3 & St3 & Kn3).
           destruct (IH _ _ _ _ None ts r m2 lb m' So3 St3 Kn3 E) as (e & Ee & Q). exists e. split; [|exact Q].
           erewrite then_ok; [|erewrite then_ok by (apply fail_ok; exact Ek1); cbn beta; erewrite then_ok by (apply fail_ok; exact Eg); cbn beta iota;
             erewrite then_ok by exact Ef; cbn beta; erewrite then_ok by (apply fail_ok; exact Emv); cbn beta iota;
             erewrite then_ok by (apply fail_ok; exact Ek3); reflexivity]. exact Ee.
      * (* reduce *)
        apply then_inv in E1. destruct E1 as ((st', r') & m3 & Ered & E1). injection E1 as <- <-.
        destruct (reduce_ok l k2 rule _ r m2 st' r' m3 So2 St2 B2 Kn F Ered) as (k3 & q3 & v3 & st3 & Es & -> & So3 & St3 & _ & Kn3).
        destruct (IH _ _ _ _ la1 ts r' m3 lb m' So3 St3 Kn3 E) as (e & Ee & Q). exists e. split; [|exact Q].
        erewrite then_ok; [|erewrite then_ok by (apply fail_ok; exact Ek1); cbn beta; erewrite then_ok by (apply fail_ok; exact Eg); cbn beta iota;
          erewrite then_ok by exact Ef; cbn beta; erewrite then_ok by (apply fail_ok; exact Emv); cbn beta iota;
          erewrite then_ok by exact Es; reflexivity]. exact Ee.
      * (* error *)
        injection E1 as <- <-. injection E as <- <-.
        destruct (pop_errors_ok l (S (k_sp k2)) k2 q v st So2 St2 ltac:(lia) F) as (k3 & st3 & Ek3 & So3 & St3).
        destruct (return_ok l k3 _ So3 St3) as (mm & Er & Hm). eexists. split.
        -- erewrite then_ok; [|erewrite then_ok by (apply fail_ok; exact Ek1); cbn beta; erewrite then_ok by (apply fail_ok; exact Eg); cbn beta iota;
             erewrite then_ok by exact Ef; cbn beta; erewrite then_ok by (apply fail_ok; exact Emv); cbn beta iota;
             erewrite then_ok by (apply fail_ok; exact Ek3); cbn beta; erewrite then_ok by (apply fail_ok; exact Er); reflexivity]. reflexivity.
        -- cbn. auto.
Qed.
Lemma yyparse_sim n ts m lb m' sm l : holds sm l -> h_yyparse P code scan garbage act n ts m = Ok (lb, m') ->
  exists e, s_yyparse P code scan garbage act z n ts sm m = Ok (e, m') /\
    en_out e = lb_out lb /\ en_root e = lb_root lb /\ en_la e = lb_la lb /\ en_rest e = lb_rest lb /\ holds (en_mem e) l.
Proof.
  intros H E. unfold h_yyparse in E. unfold s_yyparse. eapply run_sim; [| | |exact E].
  - unfold sound. cbn [k_ss k_sp k_vs k_vp k_size k_at k_mem]. rewrite !repeat_length. unfold YYINITDEPTH, YYMAXDEPTH. repeat (split; [lia|]). now left.
  - unfold stored. cbn [k_ss k_sp k_vs]. split; [reflexivity|]. split; [intros; lia|]. intros i e Ei Hi. apply rev_nth_some in Ei. cbn in Ei. lia.
  - split; [|constructor]. constructor; [exact Hzero|constructor].
Qed.
End Sim.
