(** The scanners with their buffer do what they do on texts. *)
From Coq Require Import ZArith NArith Ascii String Bool List Lia Permutation.
From Verif Require Import Base Lexer LexSpec LexProofs Flex FlexTables FlexProofs FlexBuffer.
Import ListNotations.
Local Open Scope Z_scope.
Local Open Scope list_scope.

(** ** Arrays *)
Lemma get_app (a b : list Z) i : get (a ++ b) (List.length a + i) = get b i.
Proof. unfold get. rewrite nth_error_app2 by lia. now replace (List.length a + i - List.length a)%nat with i by lia. Qed.
Lemma get_app0 (a b : list Z) : get (a ++ b) (List.length a) = get b 0.
Proof. rewrite <- (get_app a b 0). f_equal. lia. Qed.
Lemma put_app (a b : list Z) x y : put (a ++ x :: b) (List.length a) y = Ok (a ++ y :: b).
Proof. induction a as [|z a IH]; [reflexivity|]. cbn [List.length app put]. now rewrite IH. Qed.

(** ** Shifted positions *)
(** The last accepting state with positions from the start of the buffer; what was kept from an earlier token stands for
    none. *)
Definition shifted (p : nat) (la l : last) : Prop := match l with Some (q, k) => la = Some (q, (p + k)%nat) | None => True end.

Section Scanner.
Variable T : tables.
(** The last two numbers are not those of rules. *)
Hypothesis Acc : forall q a, at_ (t_accept T) q = Ok a -> a <= t_eob T.

Lemma find_le q k l a k' : find_action T q k l = Ok (a, k') -> a <= t_eob T.
Proof.
  unfold find_action. intros E. destruct (at_ (t_accept T) q) as [x| | |] eqn:Ex; try discriminate E. cbn [bind] in E.
  destruct (x =? 0); [|injection E as <- <-; now apply Acc in Ex]. destruct l as [[q1 k1]|]; [|discriminate E].
  destruct (at_ (t_accept T) q1) as [y| | |] eqn:Ey; try discriminate E. cbn [bind] in E. injection E as <- <-. now apply Acc in Ey.
Qed.
Lemma remember_shift q k p la l l' : shifted p la l -> remember T q k l = Ok l' ->
  exists la', remember T q (p + k) la = Ok la' /\ shifted p la' l'.
Proof.
  unfold remember. intros Sh E. destruct (at_ (t_accept T) q) as [a| | |]; try discriminate E. cbn [bind] in *. injection E as <-.
  eexists. split; [reflexivity|]. destruct (a =? 0); [exact Sh|reflexivity].
Qed.
Lemma match_shift s : forall n pre q k l p la q' k' l', shifted p la l -> List.length pre = (p + k)%nat -> (List.length s <= n)%nat ->
  yy_match T q s k l = Ok (q', k', l') ->
  exists la', buf_match T n (pre ++ s) q (p + k) la = Ok (q', (p + k')%nat, la') /\ shifted p la' l'.
Proof.
  induction s as [|b s IH]; intros n pre q k l p la q' k' l' Sh Hp Hn E; [discriminate E|].
  destruct n as [|n]; [cbn in Hn; lia|]. cbn [yy_match buf_match] in *. rewrite <- Hp, get_app0. cbn [get nth_error bind].
  destruct (at_ (t_ec T) b) as [c| | |]; try discriminate E. cbn [bind] in *.
  destruct (remember T q k l) as [l1| | |] eqn:E1; try discriminate E. cbn [bind] in E.
  destruct (remember_shift _ _ p la _ _ Sh E1) as (la1 & E2 & S2). rewrite Hp, E2. cbn [bind].
  destruct (next_state T chain q c) as [q1| | |]; try discriminate E. cbn [bind] in *.
  destruct (at_ (t_base T) q1) as [j| | |]; try discriminate E. cbn [bind] in *.
  destruct (j =? t_jam T).
  - injection E as <- <- <-. exists la1. split; [do 3 f_equal; lia|exact S2].
  - replace (S (p + k)) with (p + S k)%nat by lia. replace (pre ++ b :: s) with ((pre ++ [b]) ++ s) by (rewrite <- app_assoc; reflexivity).
    apply IH with l1; [exact S2|rewrite app_length; cbn; lia|cbn in Hn; lia|exact E].
Qed.
Lemma previous_shift s : forall pre post q k l p la q' l', shifted p la l -> List.length pre = (p + k)%nat ->
  previous_state T q s k l = Ok (q', l') ->
  exists la', buf_previous T (List.length s) (pre ++ s ++ post) q (p + k) la = Ok (q', la') /\ shifted p la' l'.
Proof.
  induction s as [|b s IH]; intros pre post q k l p la q' l' Sh Hp E.
  - cbn in *. injection E as <- <-. now exists la.
  - cbn [previous_state buf_previous List.length] in *. rewrite <- Hp, get_app0. cbn [get nth_error bind app]. rewrite Hp.
    destruct (if b =? 0 then Ok 1 else at_ (t_ec T) b) as [c| | |]; try discriminate E. cbn [bind] in *.
    destruct (remember T q k l) as [l1| | |] eqn:E1; try discriminate E. cbn [bind] in E.
    destruct (remember_shift _ _ p la _ _ Sh E1) as (la1 & E2 & S2). rewrite E2. cbn [bind].
    destruct (next_state T chain q c) as [q1| | |]; try discriminate E. cbn [bind] in *.
    replace (S (p + k)) with (p + S k)%nat by lia. replace (pre ++ b :: s ++ post) with ((pre ++ [b]) ++ s ++ post) by (rewrite <- app_assoc; reflexivity).
    apply IH with l1; [exact S2|rewrite app_length; cbn; lia|exact E].
Qed.
Lemma find_shift q k l p la a k' : shifted p la l -> find_action T q k l = Ok (a, k') ->
  find_action T q (p + k) la = Ok (a, (p + k')%nat).
Proof.
  unfold find_action. intros Sh E. destruct (at_ (t_accept T) q) as [x| | |]; try discriminate E. cbn [bind] in *.
  destruct (x =? 0); [|injection E as <- <-; reflexivity]. destruct l as [[q1 k1]|]; [|discriminate E]. cbn in Sh. subst la.
  destruct (at_ (t_accept T) q1) as [y| | |]; try discriminate E. cbn [bind] in *. now injection E as <- <-.
Qed.

(** ** A token *)
(** Between two tokens: the text with the kept character in its place, followed by two NULs; the next token starts after
    [pre]. *)
Record between (pre s : list Z) (g : yyguts) : Prop := {
  b_p : y_p g = List.length pre;
  b_n : y_n g = List.length (pre ++ s);
  b_put : put (y_buf g) (List.length pre) (y_hold g) = Ok (pre ++ s ++ [0; 0]) }.

Lemma split_at (l : list Z) k : (k < List.length l)%nat ->
  exists a x b, l = a ++ x :: b /\ List.length a = k /\ a = firstn k l /\ skipn k l = x :: b.
Proof.
  intros H. exists (firstn k l). destruct (skipn k l) as [|x b] eqn:E.
  - apply (f_equal (@List.length Z)) in E. rewrite skipn_length in E. cbn in E. lia.
  - exists x, b. split; [rewrite <- E; symmetry; apply firstn_skipn|]. split; [now rewrite firstn_length_le by lia|]. now split.
Qed.

(** What yy_find_action and YY_DO_BEFORE_ACTION leave behind. *)
Lemma set_up_ok (g : yyguts) q cp l p la a k bp : shifted p la l -> find_action T q cp l = Ok (a, k) -> (p + k < List.length (y_buf g))%nat ->
  exists x b a', y_buf g = a' ++ x :: b /\ List.length a' = (p + k)%nat /\
    set_up T g q (p + cp) bp la = Ok (a, mkYY (y_init g) (a' ++ 0 :: b) (y_n g) (p + k) bp (p + k - bp) x la).
Proof.
  intros Sh E H. destruct (split_at _ _ H) as (a' & x & b & Eb & La & _). exists x, b, a'. split; [exact Eb|]. split; [exact La|].
  unfold set_up. rewrite (find_shift _ _ _ _ _ _ _ Sh E). cbn [bind]. rewrite Eb, <- La, get_app0. cbn [get nth_error bind].
  now rewrite put_app.
Qed.

Lemma token_ok pre s g a k : between pre s g -> yylex1 T s = Ok (a, k) -> (a <> t_eob T + 1 -> (k <= List.length s)%nat) ->
  exists g', buf_token T g = Ok (a, g') /\ y_init g' = y_init g /\
    if a =? t_eob T + 1 then between pre s g'
    else a = t_eob T \/
      (between (pre ++ firstn k s) (skipn k s) g' /\ y_text g' = List.length pre /\ y_leng g' = k /\
       exists b, y_buf g' = pre ++ firstn k s ++ 0 :: b).
Proof.
  intros [Ep En Eb] E Hk. unfold yylex1 in E. unfold buf_token. rewrite Ep, Eb. cbn [bind].
  destruct (yy_match T 1 (s ++ [0; 0]) 0 None) as [[[q k1] l]| | |] eqn:E1; try discriminate E. cbn [bind] in E.
  destruct (match_shift (s ++ [0; 0]) (List.length (pre ++ s ++ [0; 0])) pre 1 O None (List.length pre) (y_last g) q k1 l I ltac:(lia)
    ltac:(rewrite !app_length; lia) E1) as (la & E2 & S2).
  replace (List.length pre + 0)%nat with (List.length pre) in E2 by lia. rewrite E2. cbn [bind].
  destruct (find_action T q k1 l) as [[a1 k2]| | |] eqn:E3; try discriminate E. cbn [bind] in E.
  set (g0 := mkYY (y_init g) (pre ++ s ++ [0; 0]) (y_n g) (List.length pre) (y_text g) (y_leng g) (y_hold g) la).
  assert (F : forall x b a' k', pre ++ s ++ [0; 0] = a' ++ x :: b -> List.length a' = (List.length pre + k')%nat -> (k' <= List.length s)%nat ->
    let g' := mkYY (y_init g) (a' ++ 0 :: b) (y_n g) (List.length pre + k') (List.length pre) (List.length pre + k' - List.length pre) x la in
    a' = pre ++ firstn k' s /\ put (a' ++ 0 :: b) (List.length (pre ++ firstn k' s)) x = Ok ((pre ++ firstn k' s) ++ skipn k' s ++ [0; 0])).
  { intros x b a' k' Ex La Hk' g'. assert (Ea : a' = pre ++ firstn k' s).
    { apply (f_equal (firstn (List.length pre + k'))) in Ex. rewrite <- La in Ex at 2. rewrite firstn_app_2, firstn_app in Ex.
      rewrite firstn_app in Ex. replace (List.length a' - List.length a')%nat with O in Ex by lia.
      replace (k' - List.length s)%nat with O in Ex by lia. cbn in Ex. rewrite !app_nil_r, firstn_all in Ex. now symmetry. }
    split; [exact Ea|]. rewrite <- Ea, put_app. f_equal. rewrite <- Ex, Ea, <- app_assoc. f_equal.
    rewrite app_assoc, firstn_skipn. reflexivity. }
  destruct (a1 =? t_eob T) eqn:Ea1.
  - apply Z.eqb_eq in Ea1. subst a1.
    destruct (Nat.leb k2 (List.length s)) eqn:L1; [discriminate E|]. apply Nat.leb_gt in L1.
    destruct (Nat.ltb (List.length s + 1) k2) eqn:L2; [discriminate E|]. apply Nat.ltb_ge in L2.
    assert (k2 = S (List.length s)) by lia. subst k2.
    destruct (set_up_ok g0 _ _ _ _ _ _ _ (List.length pre) S2 E3) as (x & b & a' & Ex & La & E4); [cbn [g0 y_buf]; rewrite !app_length; cbn; lia|].
    rewrite E4. cbn [bind y_buf y_p y_n y_hold y_text y_last y_init y_leng g0]. rewrite Z.eqb_refl. rewrite <- La, put_app. cbn [bind].
    cbn [g0 y_buf] in Ex. rewrite <- Ex. rewrite La, En, app_length.
    destruct (Nat.leb _ _) eqn:M1; [apply Nat.leb_le in M1; lia|]. destruct (Nat.ltb _ _) eqn:M2; [apply Nat.ltb_lt in M2; lia|].
    replace (List.length pre + S (List.length s) - List.length pre)%nat with (S (List.length s)) by lia.
    destruct (Nat.eqb (S (List.length s)) 1) eqn:L3.
    + injection E as <- <-. eexists. split; [reflexivity|]. split; [reflexivity|]. rewrite Z.eqb_refl.
      apply Nat.eqb_eq in L3. destruct s; [|cbn in L3; lia].
      assert (x = 0 /\ b = [] /\ a' = pre ++ [0]) as (-> & -> & ->).
      { cbn [app List.length] in *. assert (Ea : a' = pre ++ [0]).
        { apply (f_equal (firstn (List.length pre + 1))) in Ex. rewrite <- La in Ex at 2. rewrite firstn_app_2, firstn_app in Ex.
          replace (List.length a' - List.length a')%nat with O in Ex by lia. cbn in Ex. rewrite app_nil_r, firstn_all in Ex. now symmetry. }
        subst a'. rewrite <- app_assoc in Ex. apply app_inv_head in Ex. cbn in Ex. injection Ex as <- <-. auto. }
      constructor; cbn [y_p y_n y_buf y_hold]; [reflexivity|rewrite app_length; cbn; lia|]. apply put_app.
    + destruct (previous_state T 1 s 0 l) as [[q2 l2]| | |] eqn:E5; try discriminate E. cbn [bind] in E.
      destruct (previous_shift s pre [0; 0] 1 O l (List.length pre) la _ _ S2 ltac:(lia) E5) as (la2 & E6 & S6).
      replace (List.length pre + 0)%nat with (List.length pre) in E6 by lia.
      replace (List.length pre + List.length s - List.length pre)%nat with (List.length s) by lia. rewrite E6. cbn [bind].
      assert (Na : a <> t_eob T + 1) by (apply find_le in E; lia).
      specialize (Hk Na).
      match goal with |- context [set_up T ?G _ _ _ _] => destruct (set_up_ok G _ _ _ _ _ _ _ (List.length pre) S6 E) as (x' & b' & a'' & Ex' & La' & E7);
        [cbn [y_buf]; rewrite !app_length; cbn; lia|] end.
      rewrite E7. eexists. split; [reflexivity|]. split; [reflexivity|]. rewrite (proj2 (Z.eqb_neq _ _) Na). right.
      cbn [y_buf y_n y_init] in *. destruct (F x' b' a'' k Ex' La' Hk) as (F1 & F2).
      split; [constructor; cbn [y_p y_n y_buf y_hold]|split; [reflexivity|split; [cbn [y_leng]; lia|]]].
      * rewrite app_length, firstn_length_le by lia. reflexivity.
      * rewrite <- app_assoc, firstn_skipn, app_length. reflexivity.
      * exact F2.
      * cbn [y_buf]. exists b'. rewrite F1, <- app_assoc. reflexivity.
  - injection E as <- <-. apply Z.eqb_neq in Ea1. assert (Na : a1 <> t_eob T + 1) by (apply find_le in E3; lia). specialize (Hk Na).
    destruct (set_up_ok g0 _ _ _ _ _ _ _ (List.length pre) S2 E3) as (x & b & a' & Ex & La & E4); [cbn [g0 y_buf]; rewrite !app_length; cbn; lia|].
    rewrite E4. cbn [bind]. rewrite (proj2 (Z.eqb_neq _ _) Ea1). eexists. split; [reflexivity|]. split; [reflexivity|].
    rewrite (proj2 (Z.eqb_neq _ _) Na). right. cbn [g0 y_buf y_n y_init] in *. destruct (F x b a' k2 Ex La Hk) as (F1 & F2).
    split; [constructor; cbn [y_p y_n y_buf y_hold]|split; [reflexivity|split; [cbn [y_leng]; lia|]]].
    + rewrite app_length, firstn_length_le by lia. reflexivity.
    + rewrite <- app_assoc, firstn_skipn. exact En.
    + exact F2.
    + cbn [y_buf]. exists b. rewrite F1, <- app_assoc. reflexivity.
Qed.
End Scanner.

(** ** Texts *)
Lemma bytes_take k : forall s, firstn k (bytes s) = bytes (take k s).
Proof. unfold bytes. induction k as [|k IH]; intros [|c s]; [reflexivity..|]. cbn. now rewrite IH. Qed.
Lemma bytes_drop k : forall s, skipn k (bytes s) = bytes (drop k s).
Proof. unfold bytes. induction k as [|k IH]; intros [|c s]; [reflexivity..|]. cbn. now rewrite IH. Qed.
Lemma bytes_back s : string_of_list_ascii (map (fun b => ascii_of_N (Z.to_N b)) (bytes s)) = s.
Proof.
  unfold bytes. rewrite map_map. rewrite <- (string_of_list_ascii_of_string s) at 2. f_equal.
  rewrite <- (map_id (list_ascii_of_string s)) at 2. apply map_ext. intros c. now rewrite N2Z.id, ascii_N_embedding.
Qed.
Lemma no_nul_take k : forall s, no_nul s = true -> no_nul (take k s) = true.
Proof.
  induction k as [|k IH]; intros [|c s] N; try reflexivity. cbn [take]. unfold no_nul in *. cbn [all_chars] in *.
  apply andb_true_iff in N. destruct N as [Nc N]. rewrite Nc. cbn. now apply IH.
Qed.
Lemma byte_zero c : Ascii.eqb c zero = false -> Z.of_N (N_of_ascii c) <> 0.
Proof.
  intros N H. apply Ascii.eqb_neq in N. apply N. rewrite <- (ascii_N_embedding c). replace (N_of_ascii c) with 0%N by lia. reflexivity.
Qed.
Lemma c_string_ok t : forall n pre b, no_nul t = true -> (String.length t < n)%nat ->
  c_string n (pre ++ bytes t ++ 0 :: b) (List.length pre) = Ok (bytes t).
Proof.
  induction t as [|c t IH]; intros n pre b N Hn; (destruct n as [|n]; [cbn in Hn; lia|]); cbn [c_string]; rewrite get_app0.
  - reflexivity.
  - unfold bytes. cbn [list_ascii_of_string map app get nth_error bind]. fold (bytes t).
    unfold no_nul in N. cbn [all_chars] in N. apply andb_true_iff in N. destruct N as [Nc N]. apply negb_true_iff in Nc.
    rewrite (proj2 (Z.eqb_neq _ _) (byte_zero _ Nc)).
    replace (pre ++ Z.of_N (N_of_ascii c) :: bytes t ++ 0 :: b) with ((pre ++ [Z.of_N (N_of_ascii c)]) ++ bytes t ++ 0 :: b) by (rewrite <- app_assoc; reflexivity).
    replace (S (List.length pre)) with (List.length (pre ++ [Z.of_N (N_of_ascii c)])) by (rewrite app_length; cbn; lia).
    rewrite IH; [reflexivity|exact N|cbn in Hn; lia].
Qed.
Lemma length_bytes s : List.length (bytes s) = String.length s.
Proof. unfold bytes. rewrite map_length. induction s; cbn; congruence. Qed.

(** ** Putting a text into the buffer *)
Lemma copy_ok l : forall pre rest, List.length rest = List.length l -> forall post,
  copy_in (pre ++ rest ++ post) (List.length pre) l = Ok (pre ++ l ++ post).
Proof.
  induction l as [|b l IH]; intros pre rest H post; cbn [copy_in].
  - destruct rest; [reflexivity|discriminate H].
  - destruct rest as [|x rest]; [discriminate H|]. cbn [app]. rewrite put_app. cbn [bind].
    replace (pre ++ b :: rest ++ post) with ((pre ++ [b]) ++ rest ++ post) by (rewrite <- app_assoc; reflexivity).
    replace (S (List.length pre)) with (List.length (pre ++ [b])) by (rewrite app_length; cbn; lia).
    rewrite IH by (cbn in H; lia). rewrite <- app_assoc. reflexivity.
Qed.
Lemma scan_string_ok junk s : Z.of_nat (String.length s) <= INT_MAX - 2 ->
  exists h, get (bytes s ++ [0; 0]) 0 = Ok h /\
    scan_string junk s = Ok (mkYY false (bytes s ++ [0; 0]) (String.length s) 0 0 0 h None).
Proof.
  intros H. destruct (get (bytes s ++ [0; 0]) 0) as [h| | |] eqn:E; [|exfalso; destruct (bytes s); discriminate E..].
  exists h. split; [reflexivity|]. unfold scan_string. rewrite (proj2 (Z.ltb_ge _ _)) by lia.
  rewrite repeat_app. cbn [repeat].
  pose proof (copy_ok (bytes s) [] (repeat junk (String.length s)) ltac:(now rewrite repeat_length, length_bytes) [junk; junk]) as C.
  cbn [app List.length] in C. rewrite C. cbn [bind].
  replace (bytes s ++ [junk; junk]) with ((bytes s ++ [junk]) ++ [junk]) by (rewrite <- app_assoc; reflexivity).
  replace (S (String.length s)) with (List.length (bytes s ++ [junk])) at 1 by (rewrite app_length, length_bytes; cbn; lia).
  rewrite put_app. cbn [bind]. rewrite <- app_assoc. cbn [app]. rewrite <- (length_bytes s) at 1. rewrite put_app. cbn [bind].
  rewrite <- (length_bytes s) at 1. rewrite get_app0. cbn [get nth_error bind].
  replace (S (String.length s)) with (List.length (bytes s) + 1)%nat by (rewrite length_bytes; lia). rewrite get_app. cbn [get nth_error bind].
  cbn [Z.eqb negb orb]. unfold load_buffer_state. cbn [y_buf]. unfold get in E. unfold get. destruct (nth_error (bytes s ++ [0; 0]) 0); [|discriminate E].
  injection E as ->. reflexivity.
Qed.

(** ** All tokens *)
Section Loop.
Context {K : Type}.
Variables (T : tables) (acts : list (act K)).
Hypothesis Acc : forall q a, at_ (t_accept T) q = Ok a -> a <= t_eob T.
Hypothesis Hend : yylex1 T (bytes "") = Ok (t_eob T + 1, O).
Hypothesis Hsome : forall s, no_nul s = true -> s <> EmptyString -> exists a k x, yylex1 T (bytes s) = Ok (a, k) /\ 0 < a < t_eob T /\
  action acts a = Some x /\ (1 <= k <= String.length s)%nat.

Lemma fuel_same n : forall m s, no_nul s = true -> (String.length s < n)%nat -> (String.length s < m)%nat ->
  yylex_all T acts n s = yylex_all T acts m s.
Proof.
  induction n as [|n IH]; intros m s N Hn Hm; [lia|]. destruct m as [|m]; [lia|]. cbn [yylex_all].
  destruct s as [|c s]; [rewrite Hend; cbn [bind]; now rewrite Z.eqb_refl|].
  destruct (Hsome (String c s) N ltac:(intros H; discriminate H)) as (a & k & x & E & Ba & _ & Bk). rewrite E. cbn [bind].
  rewrite (IH m (drop k (String c s))); [reflexivity|now apply no_nul_drop|rewrite length_drop; lia|rewrite length_drop; lia].
Qed.

Lemma next_ok n : forall s pre g, between pre (bytes s) g -> no_nul s = true -> (String.length s < n)%nat ->
  (yylex_all T acts n s = Ok [] /\ exists g', buf_next T acts n g = Ok (None, g')) \/
  exists t g' pre' s', buf_next T acts n g = Ok (Some t, g') /\ y_init g' = y_init g /\ pre ++ bytes s = pre' ++ bytes s' /\
    between pre' (bytes s') g' /\ no_nul s' = true /\ (String.length s' < String.length s)%nat /\
    forall m ts, (String.length s' < m)%nat -> yylex_all T acts m s' = Ok ts -> yylex_all T acts n s = Ok (t :: ts).
Proof.
  induction n as [|n IH]; intros s pre g B N Hn; [lia|]. cbn [yylex_all buf_next]. destruct s as [|c s].
  - destruct (token_ok T Acc pre (bytes "") g _ _ B Hend ltac:(cbn; lia)) as (g' & E & _). rewrite Hend, E. cbn [bind]. rewrite Z.eqb_refl.
    left. split; [reflexivity|now exists g'].
  - destruct (Hsome (String c s) N ltac:(intros H; discriminate H)) as (a & k & x & E & Ba & Ea & Bk). rewrite E. set (s0 := String c s) in *.
    destruct (token_ok T Acc pre (bytes s0) g _ _ B E ltac:(rewrite length_bytes; lia)) as (g' & E' & Ei & H'). rewrite E'. cbn [bind].
    rewrite Ea. rewrite (proj2 (Z.eqb_neq a (t_eob T + 1))) in * by lia. rewrite (proj2 (Z.eqb_neq a 0)) by lia. rewrite (proj2 (Z.eqb_neq a (t_eob T))) by lia. cbn [orb].
    destruct H' as [H'|(B' & Et & El & b & Eb)]; [lia|]. rewrite bytes_take, bytes_drop in *.
    assert (Tx : yytext g' = Ok (take k s0)).
    { unfold yytext. rewrite Et, El, Eb. rewrite c_string_ok; [|now apply no_nul_take|rewrite !app_length, length_bytes; cbn; lia].
      cbn [bind]. rewrite length_bytes, bytes_back. replace (String.length (take k s0)) with k; [now rewrite Nat.eqb_refl|].
      symmetry. rewrite <- length_bytes, <- bytes_take. apply firstn_length_le. rewrite length_bytes. lia. }
    assert (Ld : (String.length (drop k s0) < String.length s0)%nat) by (rewrite length_drop; lia).
    destruct x as [|f|].
    + destruct (IH (drop k s0) (pre ++ bytes (take k s0)) g' B' (no_nul_drop _ _ N) ltac:(lia)) as [H|(t & g2 & pre' & s' & E2 & Ei2 & Ep & B2 & N2 & L2 & H2)]; [now left|].
      right. exists t, g2, pre', s'. split; [exact E2|]. split; [congruence|]. split.
      { rewrite <- Ep, <- app_assoc. f_equal. rewrite <- bytes_take, <- bytes_drop. symmetry. apply firstn_skipn. }
      split; [exact B2|]. split; [exact N2|]. split; [lia|]. exact H2.
    + right. rewrite Tx. cbn [bind]. exists (f (take k s0)), g', (pre ++ bytes (take k s0)), (drop k s0). split; [reflexivity|]. split; [exact Ei|]. split.
      { rewrite <- app_assoc. f_equal. rewrite <- bytes_take, <- bytes_drop. symmetry. apply firstn_skipn. }
      split; [exact B'|]. split; [now apply no_nul_drop|]. split; [exact Ld|].
      intros m ts Hm E2. rewrite (fuel_same n m) by (try apply no_nul_drop; auto; lia). rewrite E2. reflexivity.
    + left. rewrite Tx. cbn [bind]. split; [reflexivity|now exists g'].
Qed.

Lemma all_ok n : forall s pre g, between pre (bytes s) g -> y_init g = true -> no_nul s = true -> (String.length s < n)%nat ->
  exists ts g', yylex_all T acts n s = Ok ts /\ buf_all T acts n g = Ok (ts, g').
Proof.
  induction n as [|n IH]; intros s pre g B I N Hn; [lia|]. cbn [buf_all]. unfold buf_lex. rewrite I. cbn [bind].
  assert (Hl : (String.length s < S (y_n g))%nat) by (rewrite (b_n _ _ _ B), app_length, length_bytes; lia).
  destruct (next_ok (S (y_n g)) s pre g B N Hl) as [(E & g' & E')|(t & g' & pre' & s' & E' & Ei & _ & B' & N' & L' & H)].
  - exists [], g'. rewrite E'. cbn [bind]. split; [|reflexivity]. now rewrite (fuel_same (S n) (S (y_n g))).
  - rewrite E'. cbn [bind]. destruct (IH s' pre' g' B' ltac:(congruence) N' ltac:(lia)) as (ts & g2 & E2 & E3).
    exists (t :: ts), g2. rewrite E3. cbn [bind]. split; [|reflexivity]. rewrite (fuel_same (S n) (S (y_n g))) by assumption.
    apply (H n); [lia|exact E2].
Qed.
Lemma scan_all junk s : no_nul s = true -> Z.of_nat (String.length s) <= INT_MAX - 2 ->
  exists g ts g', scan_string junk s = Ok g /\ y_n g = String.length s /\ yylex_all T acts (S (String.length s)) s = Ok ts /\
    buf_all T acts (S (String.length s)) g = Ok (ts, g').
Proof.
  intros N H. destruct (scan_string_ok junk s H) as (h & Eh & E).
  assert (B : between [] (bytes s) (mkYY true (bytes s ++ [0; 0]) (String.length s) 0 0 0 h None)).
  { constructor; cbn [y_p y_n y_buf y_hold List.length app]; [reflexivity|now rewrite length_bytes|].
    destruct (bytes s ++ [0; 0]) as [|b r]; [discriminate Eh|]. cbn in Eh. injection Eh as <-. reflexivity. }
  destruct (all_ok (S (String.length s)) s [] _ B eq_refl N ltac:(lia)) as (ts & g' & E1 & E2).
  eexists _, ts, g'. split; [exact E|]. split; [reflexivity|]. split; [exact E1|]. rewrite <- E2. cbn [buf_all]. unfold buf_lex. cbn [y_init y_buf y_n y_p y_text y_leng y_hold y_last bind].
  unfold load_buffer_state. cbn [y_buf]. rewrite Eh. reflexivity.
Qed.
End Loop.

Lemma accepts_le (T : tables) : forallb (fun a => a <=? t_eob T) (t_accept T) = true -> forall q a, at_ (t_accept T) q = Ok a -> a <= t_eob T.
Proof.
  intros F q a E. unfold at_ in E. destruct (q <? 0); [discriminate E|]. destruct (nth_error (t_accept T) (Z.to_nat q)) as [x|] eqn:Ex; [|discriminate E].
  injection E as ->. rewrite forallb_forall in F. apply nth_error_In in Ex. specialize (F _ Ex). lia.
Qed.
Lemma x_scan_all junk s : no_nul s = true -> Z.of_nat (String.length s) <= INT_MAX - 2 ->
  exists g g', scan_string junk s = Ok g /\ y_n g = String.length s /\ buf_all x_tables x_actions (S (String.length s)) g = Ok (lex s, g').
Proof.
  intros N H.
  destruct (scan_all x_tables x_actions (accepts_le x_tables eq_refl) (yylex1_end x_tables x_map x_vec x_checked)
    ltac:(intros s' N' H'; destruct (yylex1_some x_tables x_map x_vec x_checked expr_rules x_actions x_vec_ok eq_refl expr_covers s' N' H')
      as (a & k & x & E & Ba & Ea & _ & Bk); exists a, k, x; split; [exact E|]; split; [cbn in Ba |- *; lia|]; now split) junk s N H)
    as (g & ts & g' & E1 & E2 & E3 & E4).
  exists g, g'. split; [exact E1|]. split; [exact E2|]. rewrite E4. do 2 f_equal.
  pose proof (x_lex_ok s N) as E5. unfold x_lex in E5. congruence.
Qed.
Lemma e_scan_all junk s : no_nul s = true -> Z.of_nat (String.length s) <= INT_MAX - 2 ->
  exists g g', scan_string junk s = Ok g /\ y_n g = String.length s /\ buf_all e_tables e_actions (S (String.length s)) g = Ok (elex s, g').
Proof.
  intros N H.
  destruct (scan_all e_tables e_actions (accepts_le e_tables eq_refl) (yylex1_end e_tables e_map e_vec e_checked)
    ltac:(intros s' N' H'; destruct (yylex1_some e_tables e_map e_vec e_checked event_rules e_actions e_vec_ok eq_refl event_covers s' N' H')
      as (a & k & x & E & Ba & Ea & _ & Bk); exists a, k, x; split; [exact E|]; split; [cbn in Ba |- *; lia|]; now split) junk s N H)
    as (g & ts & g' & E1 & E2 & E3 & E4).
  exists g, g'. split; [exact E1|]. split; [exact E2|]. rewrite E4. do 2 f_equal.
  pose proof (e_lex_ok s N) as E5. unfold e_lex in E5. congruence.
Qed.
