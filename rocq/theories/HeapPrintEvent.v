(** Printing events and variables. *)
From Coq Require Import ZArith NArith Ascii String Bool List Lia Permutation.
From Verif Require Import Base Float Value Ast Printer Flex EventObj Ledger HeapExpr HeapSpec HeapEvent HeapEventSpec PermTac LedgerProofs HeapProofs.
From Verif Require Import FlexBuffer HeapPrint HeapPrintSpec HeapPrintProofs HeapPrintOnly.
Import ListNotations.
Local Open Scope Z_scope.
Local Open Scope string_scope.
Local Open Scope list_scope.

Ltac lens := unfold short in *; do 8 (try rewrite !len_app in *; cbn [String.length String.append] in *); lia.

(** ** The buffer *)
Lemma put_length l : forall i x b, put l i x = Ok b -> (i < List.length l)%nat /\ b = firstn i l ++ x :: skipn (S i) l.
Proof.
  induction l as [|y l IH]; intros i x b E; [destruct i; discriminate E|]. destruct i as [|i]; cbn [put] in E.
  - injection E as <-. split; [cbn; lia|reflexivity].
  - destruct (put l i x) as [t| | |] eqn:Et; try discriminate E. injection E as <-. apply IH in Et as (L & ->). split; [cbn; lia|reflexivity].
Qed.
Lemma put_ok l : forall i x, (i < List.length l)%nat -> put l i x = Ok (firstn i l ++ x :: skipn (S i) l).
Proof.
  induction l as [|y l IH]; intros i x L; [cbn in L; lia|]. destruct i as [|i]; [reflexivity|]. cbn [put]. rewrite IH by (cbn in L; lia). reflexivity.
Qed.
Lemma put_at (a : list Z) x b y : put (a ++ x :: b) (List.length a) y = Ok (a ++ y :: b).
Proof. induction a as [|z a IH]; [reflexivity|]. cbn [List.length app put]. now rewrite IH. Qed.
Lemma copy_ok l : forall a t, (List.length l <= List.length t)%nat -> copy_in (a ++ t) (List.length a) l = Ok (a ++ l ++ skipn (List.length l) t).
Proof.
  induction l as [|x l IH]; intros a t L; [reflexivity|]. destruct t as [|y t]; [cbn in L; lia|]. cbn [copy_in]. rewrite put_at. cbn [bind].
  replace (a ++ x :: t) with ((a ++ [x]) ++ t) by (rewrite <- app_assoc; reflexivity).
  replace (S (List.length a)) with (List.length (a ++ [x])) by (rewrite app_length; cbn; lia).
  rewrite IH by (cbn in L; lia). rewrite <- app_assoc. reflexivity.
Qed.
Lemma copy_fits l : forall a t b, copy_in (a ++ t) (List.length a) l = Ok b -> (List.length l <= List.length t)%nat.
Proof.
  induction l as [|x l IH]; intros a t b E; [cbn; lia|]. cbn [copy_in] in E. destruct t as [|y t].
  - rewrite app_nil_r in E. destruct (put a (List.length a) x) as [q| | |] eqn:Eq; try discriminate E. apply put_length in Eq as (L & _). lia.
  - rewrite put_at in E. cbn [bind] in E.
    replace (a ++ x :: t) with ((a ++ [x]) ++ t) in E by (rewrite <- app_assoc; reflexivity).
    replace (S (List.length a)) with (List.length (a ++ [x])) in E by (rewrite app_length; cbn; lia).
    apply IH in E. cbn. lia.
Qed.
Lemma bytes_length s : List.length (bytes s) = String.length s.
Proof. unfold bytes. rewrite map_length. induction s; cbn; congruence. Qed.
Lemma bytes_app a b : bytes (a ++ b) = bytes a ++ bytes b.
Proof. unfold bytes. rewrite <- map_app. f_equal. induction a as [|c a IH]; [reflexivity|]. cbn. now rewrite IH. Qed.

(** [s] was written at the start of the buffer [buf], and one character more at most. *)
Record wrote (buf : list Z) (s : string) (o : out) : Prop := {
  w_len : o_length o = String.length s;
  w_buf : exists t, o_buf o = bytes s ++ t /\ List.length t = (List.length buf - String.length s)%nat /\ skipn 1 t = skipn (S (String.length s)) buf }.
Lemma wrote_none buf : wrote buf "" (mkOut buf 0).
Proof. split; [reflexivity|]. exists buf. split; [reflexivity|]. split; [cbn; lia|reflexivity]. Qed.
Lemma skip_skip {A} n : forall k (l : list A), skipn n (skipn k l) = skipn (k + n) l.
Proof. induction k as [|k IH]; intros l; [reflexivity|]. destruct l as [|x l]; [now rewrite !skipn_nil|]. apply IH. Qed.
Lemma sprintf_ok buf s o t m (Q : out -> ledger -> Prop) : wrote buf s o -> (String.length (s ++ t) < List.length buf)%nat -> short (s ++ t) ->
  (forall o', wrote buf (s ++ t) o' -> Q o' m) -> wp (sprintf o t) m Q.
Proof.
  intros (L & (r & Eb & Lr & Sr)) F B HQ. unfold sprintf, short in *. rewrite len_app in *.
  rewrite (proj2 (Z.ltb_ge _ _)) by lia. apply wp_then. rewrite Eb, L, <- bytes_length. eapply wp_fail.
  { apply copy_ok. rewrite app_length, bytes_length. cbn [List.length]. lia. }
  apply wp_ret. apply HQ. split; cbn [o_length o_buf]; [now rewrite bytes_length, len_app|].
  exists (0 :: skipn (S (String.length t)) r). rewrite bytes_app, <- !app_assoc. rewrite app_length, bytes_length. cbn [List.length app].
  rewrite Nat.add_1_r. split; [reflexivity|]. rewrite len_app, skipn_length. split; [lia|].
  change (skipn 1 (0 :: skipn (S (String.length t)) r)) with (skipn (S (String.length t)) r).
  change (S (String.length t)) with (1 + String.length t)%nat. rewrite <- skip_skip, Sr, skip_skip. f_equal.
Qed.
Lemma sprintf_only buf s o t : wrote buf s o -> only (sprintf o t) (fun o' => wrote buf (s ++ t) o' /\ (String.length (s ++ t) < List.length buf)%nat).
Proof.
  intros W. pose proof W as (L & (r & Eb & Lr & Sr)). intros m o' m' E. unfold sprintf in E.
  destruct (Z.ltb_spec INT_MAX (Z.of_nat (String.length t))) as [|B]; [discriminate E|].
  unfold then_, fail in E. destruct (copy_in (o_buf o) (o_length o) (bytes t ++ [0])) as [b| | |] eqn:Ec; try discriminate E. cbn [bind] in E. injection E as <- <-.
  pose proof Ec as Ef. rewrite Eb, L, <- bytes_length in Ef. apply copy_fits in Ef. rewrite app_length, bytes_length in Ef. cbn [List.length] in Ef.
  rewrite Eb, L, <- bytes_length, copy_ok in Ec by (rewrite app_length, bytes_length; cbn [List.length]; lia). injection Ec as <-.
  split; [|rewrite len_app; lia]. split; cbn [o_length o_buf]; [now rewrite L, len_app|].
  exists (0 :: skipn (S (String.length t)) r). rewrite bytes_app, <- !app_assoc. rewrite app_length, bytes_length. cbn [List.length app].
  rewrite Nat.add_1_r. split; [reflexivity|]. rewrite len_app, skipn_length. split; [lia|].
  change (skipn 1 (0 :: skipn (S (String.length t)) r)) with (skipn (S (String.length t)) r).
  change (S (String.length t)) with (1 + String.length t)%nat. rewrite <- skip_skip, Sr, skip_skip. f_equal.
Qed.
Lemma wrote_end buf s o : wrote buf s o -> (String.length s < List.length buf)%nat ->
  put (o_buf o) (o_length o) 0 = Ok (bytes s ++ 0 :: skipn (S (String.length s)) buf).
Proof.
  intros (L & (r & Eb & Lr & Sr)) F. rewrite Eb, L, <- bytes_length. destruct r as [|x r]; [cbn in Lr; lia|].
  rewrite put_at. change (skipn 1 (x :: r)) with r in Sr. now rewrite bytes_length, <- Sr.
Qed.

(** ** Variables *)
Lemma some_list_items {A} (f : A -> string) l : some_list (map f l) = match l with [] => None | _ => Some (show_items f l) end.
Proof. destruct l; [reflexivity|]. unfold some_list, commas. now rewrite items_concat. Qed.
Definition er_slot (x : option hvariable) : option variable := option_map er_variable x.
Lemma strs_map x : map (fun s => show_str (sv_string s)) (er_strs x) = map str_text (hl_items x).
Proof. unfold er_strs. now rewrite map_map. Qed.

Lemma value_ok buf pre o name v t m l : wrote buf pre o ->
  value_text (er_value v) = Some t -> short (pre ++ hs_text name ++ " = " ++ t) ->
  (String.length (pre ++ hs_text name ++ " = " ++ t) < List.length buf)%nat ->
  holds m l -> In (hs_at name) l -> incl (bl_value v) l ->
  wp (h_print_value o name v) m (fun o' m' => wrote buf (pre ++ hs_text name ++ " = " ++ t) o' /\ holds m' l).
Proof.
  intros W E B F H J I. destruct v as [b|z|f|s|e|x|x|x|x]; cbn [er_value value_text h_print_value bl_value] in *; try discriminate E.
  - injection E as <-. pstep. apply wp_arg with l; [exact H|exact J|]. now apply sprintf_ok with buf pre.
  - injection E as <-. pstep. apply wp_arg with l; [exact H|exact J|]. now apply sprintf_ok with buf pre.
  - injection E as <-. pstep. apply wp_arg with l; [exact H|exact J|]. now apply sprintf_ok with buf pre.
  - injection E as <-. pstep. apply wp_arg with l; [exact H|exact J|]. pstep. apply wp_arg with l; [exact H|apply I; now left|]. now apply sprintf_ok with buf pre.
  - injection E as <-. pstep. apply wp_arg with l; [exact H|exact J|]. now apply sprintf_ok with buf pre.
  - rewrite some_list_items in E. destruct (hi_items x) as [|z r] eqn:Ex; [discriminate E|]. rewrite <- Ex in E. injection E as <-.
    assert (S1 : short (show_items show_Z (hi_items x))) by lens.
    pstep. eapply wp_mono; [apply (ints_ok x ltac:(congruence) S1 m l H I)|]. intros s m1 (Es & Ns & H1).
    pstep. apply wp_arg with (hs_at s :: l); [exact H1|right; exact J|]. pstep. apply wp_arg with (hs_at s :: l); [exact H1|now left|].
    pstep. rewrite Es. apply sprintf_ok with buf pre; [exact W|exact F|exact B|]. intros o' W'. pstep. apply wp_drop with l; [exact H1|].
    intros m2 H2. pstep. now split.
  - rewrite strs_map, some_list_items in E. destruct (hl_items x) as [|z r] eqn:Ex; [discriminate E|]. rewrite <- Ex in E. injection E as <-.
    assert (S1 : short (show_items str_text (hl_items x))) by lens.
    pstep. eapply wp_mono; [apply (strs_ok x ltac:(congruence) S1 m l H I)|]. intros s m1 (Es & Ns & H1).
    pstep. apply wp_arg with (hs_at s :: l); [exact H1|right; exact J|]. pstep. apply wp_arg with (hs_at s :: l); [exact H1|now left|].
    pstep. rewrite Es. apply sprintf_ok with buf pre; [exact W|exact F|exact B|]. intros o' W'. pstep. apply wp_drop with l; [exact H1|].
    intros m2 H2. pstep. now split.
Qed.
Lemma value_only buf pre o name v : wrote buf pre o ->
  only (h_print_value o name v) (fun o' => exists t, value_text (er_value v) = Some t /\ wrote buf (pre ++ hs_text name ++ " = " ++ t) o' /\
    (String.length (pre ++ hs_text name ++ " = " ++ t) < List.length buf)%nat).
Proof.
  intros W. destruct v as [b|z|f|s|e|x|x|x|x]; cbn [er_value value_text h_print_value].
  1, 2, 3, 5: ostep; eapply only_mono; [apply (sprintf_only _ _ _ _ W)|]; intros o' (W' & F); eexists; (split; [reflexivity|now split]).
  - ostep. ostep. eapply only_mono; [apply (sprintf_only _ _ _ _ W)|]. intros o' (W' & F). eexists; (split; [reflexivity|now split]).
  - eapply only_then; [apply ints_only|]. intros h Hh. ostep. eapply only_then; [apply only_arg|]. intros u (-> & Nu). destruct (Hh Nu) as (N & ->).
    eapply only_then; [apply (sprintf_only _ _ _ _ W)|]. intros o' (W' & F). ostep. ostep. rewrite some_list_items.
    destruct (hi_items x) eqn:Ex; [easy|]. eexists. split; [reflexivity|]. now split.
  - eapply only_then; [apply strs_only|]. intros h Hh. ostep. eapply only_then; [apply only_arg|]. intros u (-> & Nu). destruct (Hh Nu) as (N & ->).
    eapply only_then; [apply (sprintf_only _ _ _ _ W)|]. intros o' (W' & F). ostep. ostep. rewrite strs_map, some_list_items.
    destruct (hl_items x) eqn:Ex; [easy|]. eexists. split; [reflexivity|]. now split.
  - apply only_fail. discriminate.
  - apply only_fail. discriminate.
Qed.

Lemma slot_value y t : slot_text (er_slot (Some y)) = Some t ->
  exists u, value_text (er_value (hy_value y)) = Some u /\ t = (hy_name y ++ " = " ++ u)%string.
Proof. cbn. destruct (value_text _) as [u|]; [|discriminate]. intros E. injection E as <-. now exists u. Qed.
Lemma slot_some x t : slot_text (er_slot x) = Some t -> exists y, x = Some y.
Proof. destruct x as [y|]; [now exists y|discriminate]. Qed.

Lemma loop_ok buf arr xs : forall ts pre o i m l, all_some (map slot_text (map er_slot xs)) = Some ts -> wrote buf pre o ->
  short (pre ++ match i with O => show_items (fun t => t) ts | _ => rest_text (fun t => t) ts end) ->
  (String.length (pre ++ match i with O => show_items (fun t => t) ts | _ => rest_text (fun t => t) ts end) < List.length buf)%nat ->
  holds m l -> (xs <> [] -> In arr l) -> incl (flat_map bl_slot xs) l ->
  wp (print_loop arr o i xs) m (fun o' m' =>
    wrote buf (pre ++ match i with O => show_items (fun t => t) ts | _ => rest_text (fun t => t) ts end) o' /\ holds m' l).
Proof.
  induction xs as [|x xs IH]; intros ts pre o i m l E W B F H J I; cbn [print_loop map all_some] in *.
  - injection E as <-. pstep. replace (match i with O => _ | _ => _ end) with "" by (destruct i; reflexivity). rewrite append_nil. now split.
  - destruct (slot_text (er_slot x)) as [t|] eqn:Ex; [|discriminate E]. destruct (all_some _) as [ts'|] eqn:Ets; [|discriminate E]. injection E as <-.
    destruct (slot_some _ _ Ex) as (y & ->). destruct (slot_value _ _ Ex) as (u & Eu & ->). cbn [flat_map bl_slot] in I. apply incl_app_inv in I as (Iy & Ixs).
    unfold bl_variable in Iy. apply incl_cons_inv in Iy as (Jy & Iy). apply incl_cons_inv in Iy as (Jn & Iv).
    pstep. apply wp_use with l; [exact H|apply J; easy|]. pstep.
    assert (K : match i with O => show_items (fun t => t) ((hy_name y ++ " = " ++ u)%string :: ts') | _ => rest_text (fun t => t) ((hy_name y ++ " = " ++ u)%string :: ts') end =
      ((match i with O => "" | _ => ", " end ++ hy_name y ++ " = " ++ u) ++ rest_text (fun t => t) ts')%string).
    { destruct i; [rewrite items_rest; reflexivity|cbn [rest_text]; now rewrite !append_assoc]. }
    rewrite K in *. clear K. rewrite <- append_assoc in B, F.
    assert (Wp : wp match i with O => ret o | _ => sprintf o ", " end m
      (fun o' m' => wrote buf (pre ++ match i with O => "" | _ => ", " end) o' /\ m' = m)).
    { destruct i; [pstep; now rewrite append_nil|]. unfold short in B. rewrite !len_app in B, F. apply sprintf_ok with buf pre; [exact W|rewrite len_app; lia|unfold short; rewrite len_app; lia|now intros]. }
    eapply wp_mono; [exact Wp|]. intros o1 m1 (W1 & ->). pstep. pstep. apply wp_use with l; [exact H|exact Jy|].
    eapply wp_mono; [apply (value_ok buf _ o1 (hv_attr (hy_attr y)) (hy_value y) u m l W1 Eu)|].
    + unfold hy_name in *. lens.
    + unfold hy_name in *. lens.
    + exact H.
    + exact Jn.
    + exact Iv.
    + intros o2 m2 (W2 & H2). fold (hy_name y) in W2. rewrite <- append_assoc.
      apply (IH ts' (pre ++ match i with O => "" | _ => ", " end ++ hy_name y ++ " = " ++ u)%string o2 (S i) m2 l eq_refl);
        [rewrite append_assoc in W2; exact W2|exact B|exact F|exact H2|intros _; apply J; easy|exact Ixs].
Qed.
Lemma loop_only buf arr xs : forall pre o i, wrote buf pre o ->
  only (print_loop arr o i xs) (fun o' => exists ts, all_some (map slot_text (map er_slot xs)) = Some ts /\
    wrote buf (pre ++ match i with O => show_items (fun t => t) ts | _ => rest_text (fun t => t) ts end) o').
Proof.
  induction xs as [|x xs IH]; intros pre o i W; cbn [print_loop map all_some].
  - apply only_ret. exists []. split; [reflexivity|]. replace (match i with O => _ | _ => _ end) with "" by (destruct i; reflexivity). now rewrite append_nil.
  - ostep. apply only_then with (fun o' => wrote buf (pre ++ match i with O => "" | _ => ", " end) o').
    { destruct i; [apply only_ret; now rewrite append_nil|]. eapply only_mono; [apply (sprintf_only _ _ _ _ W)|]. now intros o' (W' & _). }
    intros o1 W1. apply only_then with (fun o' => exists t, slot_text (er_slot x) = Some t /\ wrote buf ((pre ++ match i with O => "" | _ => ", " end) ++ t) o').
    { destruct x as [y|]; [|apply only_fail; discriminate]. ostep. eapply only_mono; [apply (value_only _ _ _ _ _ W1)|].
      intros o' (t & Et & W' & _). cbn. rewrite Et. eexists. split; [reflexivity|exact W']. }
    intros o2 (t & Et & W2). eapply only_mono; [apply (IH _ _ _ W2)|]. intros o3 (ts & Ets & W3). rewrite Et, Ets. exists (t :: ts).
    split; [reflexivity|]. rewrite <- (append_assoc _ _ _) in W3 || idtac.
    replace (match i with O => _ | _ => _ end) with ((match i with O => "" | _ => ", " end ++ t) ++ rest_text (fun t => t) ts)%string
      by (destruct i; [rewrite items_rest; reflexivity|cbn [rest_text]; now rewrite !append_assoc]).
    rewrite !append_assoc in *. exact W3.
Qed.
Lemma items_id ts : show_items (fun t : string => t) ts = commas ts.
Proof. rewrite items_concat, map_id. reflexivity. Qed.
Lemma er_event_slots e : er_event e = map er_slot (he_vars e).
Proof. reflexivity. Qed.

Lemma event_ok e buf t m l : event_text (er_event e) = Some t -> short t -> (String.length t < List.length buf)%nat ->
  holds m l -> incl (bl_event e) l ->
  wp (h_event_to_string e buf) m (fun b m' => b = bytes t ++ 0 :: skipn (S (String.length t)) buf /\ holds m' l).
Proof.
  unfold event_text. intros E B F H I. rewrite er_event_slots in E. destruct (all_some _) as [ts|] eqn:Ets; [|discriminate E]. injection E as <-.
  unfold bl_event in I. apply incl_cons_inv in I as (Je & I). apply incl_app_inv in I as (Ja & Iv). rewrite <- items_id in *.
  unfold h_event_to_string. pstep. apply wp_use with l; [exact H|exact Je|]. pstep.
  eapply wp_mono; [apply (loop_ok buf (he_arr e) (he_vars e) ts "" (mkOut buf 0) 0 m l Ets (wrote_none buf) B F H)|].
  - intros N. apply Ja. destruct (he_vars e); [easy|]. now left.
  - exact Iv.
  - intros o m' (W & H'). eapply wp_fail; [apply (wrote_end buf); [exact W|exact F]|]. now split.
Qed.
Lemma event_only e buf : only (h_event_to_string e buf) (fun b => exists t, event_text (er_event e) = Some t /\
  (String.length t < List.length buf)%nat /\ b = bytes t ++ 0 :: skipn (S (String.length t)) buf).
Proof.
  unfold h_event_to_string. ostep. eapply only_then; [apply (loop_only buf _ _ "" _ 0 (wrote_none buf))|]. intros o (ts & E & W).
  apply only_fail. intros b Eb. unfold event_text. rewrite er_event_slots, E. exists (commas ts). split; [reflexivity|].
  cbn [append] in W. rewrite items_id in W. pose proof W as (L & (r & Er & Lr & _)). pose proof Eb as Eb'. rewrite Er, L, <- bytes_length in Eb'.
  apply put_length in Eb' as (F & _). rewrite app_length, bytes_length in F. assert (F' : (String.length (commas ts) < List.length buf)%nat) by lia.
  split; [exact F'|]. rewrite (wrote_end _ _ _ W F') in Eb. now injection Eb as <-.
Qed.

(** ** Lines *)
Lemma seg_ok s need : In (hg_at s) need -> short (segment_text (hg_seg s)) -> gives (h_seg_text s) need (segment_text (hg_seg s)).
Proof. intros J B m l H I. unfold h_seg_text. pstep. apply wp_use with l; [exact H|now apply I|]. pstep. done_. Qed.
Lemma cap_ok k need t : In (hc_at k) need -> In (hs_at (hw_string (hc_ns k))) need -> cap_text (er_cap k) = Some t -> short t -> gives (h_cap_text k) need t.
Proof.
  intros J J' E B m l H I. unfold h_cap_text, cap_text, type_name in *. cbn [er_cap fc_type] in E.
  destruct (show_ftype (hc_type k)) as [ty| | |]; try discriminate E. injection E as <-.
  pstep. apply wp_use with l; [exact H|now apply I|]. pstep. eapply wp_fail; [reflexivity|]. pstep. apply wp_arg with l; [exact H|now apply I|]. pstep. done_.
Qed.
Lemma all_map {A B} (f : A -> option B) l r : all_some (map f l) = Some r -> forall g, (forall x, In x l -> f x = Some (g x) \/ f x = None) -> r = map g l.
Proof.
  revert r. induction l as [|x l IH]; intros r E g G; cbn in E; [now injection E as <-|]. destruct (f x) as [a|] eqn:Ex; [|discriminate E].
  destruct (all_some (map f l)) as [r'|] eqn:Er; [|discriminate E]. injection E as <-. cbn. f_equal.
  - destruct (G x (or_introl eq_refl)) as [X|X]; congruence.
  - apply IH; [reflexivity|]. intros y Hy. apply G. now right.
Qed.
Lemma all_each {A B} (f : A -> option B) l r : all_some (map f l) = Some r -> forall x, In x l -> exists b, f x = Some b.
Proof.
  revert r. induction l as [|x l IH]; intros r E y Hy; [contradiction|]. cbn in E. destruct (f x) as [a|] eqn:Ex; [|discriminate E].
  destruct (all_some (map f l)) as [r'|] eqn:Er; [|discriminate E]. destruct Hy as [<-|Hy]; [eauto|now apply (IH r')].
Qed.
Lemma inner_ok c need t m l : gives c need t -> holds m l -> incl need l ->
  wp (h_inner c) m (fun p m' => fst p = t /\ hs_at (snd p) <> 0 /\ holds m' (hs_at (snd p) :: l)).
Proof.
  intros G H I. unfold h_inner. pstep. eapply wp_mono; [exact (G m l H I)|]. intros s m' (E & N & H'). pstep.
  apply wp_arg with (hs_at s :: l); [exact H'|now left|]. pstep. now split.
Qed.
Definition cap_str (k : hcap) : string := match cap_text (er_cap k) with Some t => t | None => "" end.
Lemma printed_ok v ty t m l : printed_value (er_value v) = Some (ty, t) -> short t -> holds m l -> incl (bl_value v) l ->
  type_text v = ty /\
  wp (h_value_text v) m (fun p m' => fst p = t /\ holds m' (opt_at (hs_at (snd p)) ++ l)).
Proof.
  intros E B H I.
  assert (G : forall c need, gives c need t -> incl need l -> wp (h_inner c) m (fun p m' => fst p = t /\ holds m' (opt_at (hs_at (snd p)) ++ l))).
  { intros c need G J. eapply wp_mono; [apply (inner_ok c need t m l G H J)|]. intros p m' (Ep & Np & H'). split; [exact Ep|]. now rewrite (opt_at_some _ Np). }
  destruct v as [b|z|f|s|e|x|x|x|x]; cbn [er_value printed_value h_value_text bl_value type_text] in *.
  - injection E as <- <-. split; [reflexivity|]. pstep. now split.
  - injection E as <- <-. split; [reflexivity|]. pstep. now split.
  - injection E as <- <-. split; [reflexivity|]. pstep. now split.
  - injection E as <- <-. split; [reflexivity|]. pstep. apply wp_arg with l; [exact H|apply I; now left|]. pstep. now split.
  - injection E as <- <-. split; [reflexivity|]. pstep. now split.
  - rewrite some_list_items in E. destruct (hi_items x) as [|z r] eqn:Ex; [discriminate E|]. rewrite <- Ex in E. injection E as <- <-.
    split; [reflexivity|]. apply G with (bl_ints x); [apply ints_ok; [congruence|exact B]|exact I].
  - rewrite strs_map, some_list_items in E. destruct (hl_items x) as [|z r] eqn:Ex; [discriminate E|]. rewrite <- Ex in E. injection E as <- <-.
    split; [reflexivity|]. apply G with (bl_strs x); [apply strs_ok; [congruence|exact B]|exact I].
  - rewrite some_list_items in E. destruct (map hg_seg (hgs_items x)) as [|z r] eqn:Ex; [discriminate E|]. rewrite <- Ex in E. injection E as <- <-.
    assert (N : hgs_items x <> []) by (intros X; rewrite X in Ex; discriminate Ex).
    assert (K : show_items segment_text (map hg_seg (hgs_items x)) = show_items (fun s => segment_text (hg_seg s)) (hgs_items x)).
    { now rewrite !items_concat, map_map. }
    rewrite K in *. split; [reflexivity|]. apply G with (bl_segs x); [|exact I]. intros m0 l0 H0 I0. unfold h_segs_text, bl_segs in *.
    pstep. apply wp_use with l0; [exact H0|apply I0; now left|].
    apply (texts_ok _ (fun s => segment_text (hg_seg s)) (hgs_at x :: bl_arr (hgs_items x) (hgs_arr x) ++ map hg_at (hgs_items x))); [|exact N|exact B|exact H0|exact I0].
    intros s Hs Bs m1 l1 H1 I1. pstep. apply wp_use with l1; [exact H1| |].
    + apply I1. right. apply in_or_app. left. destruct (hgs_items x); [easy|now left].
    + apply (seg_ok s l1); [|exact Bs|exact H1|apply incl_refl]. apply I1. right. apply in_or_app. right. now apply in_map.
  - destruct (all_some (map cap_text (map er_cap (hcs_items x)))) as [r|] eqn:Er; [|discriminate E]. rewrite map_map in Er.
    assert (K : r = map cap_str (hcs_items x)).
    { apply (all_map _ _ _ Er). intros k Hk. unfold cap_str. destruct (cap_text (er_cap k)); [now left|now right]. }
    subst r. rewrite some_list_items in E. destruct (hcs_items x) as [|z r] eqn:Ex; [discriminate E|]. rewrite <- Ex in *. injection E as <- <-.
    split; [reflexivity|]. apply G with (bl_caps x); [|exact I]. intros m0 l0 H0 I0. unfold h_caps_text, bl_caps in *.
    pstep. apply wp_use with l0; [exact H0|apply I0; now left|].
    apply (texts_ok _ cap_str (hcs_at x :: bl_arr (hcs_items x) (hcs_arr x) ++ flat_map bl_cap (hcs_items x))); [|congruence|exact B|exact H0|exact I0].
    intros k Hk Bk m1 l1 H1 I1. pstep. apply wp_use with l1; [exact H1| |].
    + apply I1. right. apply in_or_app. left. destruct (hcs_items x); [easy|now left].
    + assert (Q : forall a, In a (bl_cap k) -> In a l1).
      { intros a Ha. apply I1. right. apply in_or_app. right. apply in_flat_map. now exists k. }
      apply (cap_ok k l1); [apply Q; now left|apply Q; right; now left| |exact Bk|exact H1|apply incl_refl].
      destruct (all_each _ _ _ Er k Hk) as (b & Eb). cbn beta in Eb. unfold cap_str. now rewrite Eb.
Qed.
Lemma all_forall {A B} (f : A -> option B) l r : Forall2 (fun x b => f x = Some b) l r -> all_some (map f l) = Some r.
Proof. induction 1 as [|x b l r E F IH]; [reflexivity|]. cbn. now rewrite E, IH. Qed.
Lemma forall_map {A B} (f : A -> B) l r : Forall2 (fun x b => b = f x) l r -> r = map f l.
Proof. induction 1 as [|x b l r E F IH]; [reflexivity|]. cbn. congruence. Qed.
Lemma segs_only x : only (h_segs_text x) (fun h => hs_at h <> 0 -> hgs_items x <> [] /\ hs_text h = commas (map segment_text (map hg_seg (hgs_items x)))).
Proof.
  unfold h_segs_text. ostep. eapply only_mono; [apply (texts_only _ (fun s t => t = segment_text (hg_seg s)))|].
  - intros s. ostep. unfold h_seg_text. ostep. ostep. exact E.
  - intros h Hh N. destruct (Hh N) as (Ne & ts & F & ->). split; [exact Ne|]. apply forall_map in F as ->. now rewrite items_id, map_map.
Qed.
Lemma caps_only x : only (h_caps_text x) (fun h => hs_at h <> 0 -> hcs_items x <> [] /\ exists ts, all_some (map cap_text (map er_cap (hcs_items x))) = Some ts /\ hs_text h = commas ts).
Proof.
  unfold h_caps_text. ostep. eapply only_mono; [apply (texts_only _ (fun k t => cap_text (er_cap k) = Some t))|].
  - intros k. ostep. unfold h_cap_text. ostep. eapply only_then; [apply only_fail with (R := fun a => show_ftype (hc_type k) = Ok a); now intros a|].
    intros ty Et. ostep. ostep. unfold cap_text, type_name. cbn [er_cap fc_type]. rewrite Et, E. reflexivity.
  - intros h Hh N. destruct (Hh N) as (Ne & ts & F & ->). split; [exact Ne|]. exists ts. rewrite map_map. split; [now apply all_forall|apply items_id].
Qed.
Lemma inner_only c (P : string -> Prop) : only c (fun h => hs_at h <> 0 -> P (hs_text h)) -> only (h_inner c) (fun p => P (fst p)).
Proof. intros Hc. eapply only_then; [apply Hc|]. intros h Hh. eapply only_then; [apply only_arg|]. intros t (-> & N). apply only_ret. now apply Hh. Qed.
Lemma some_commas l : l <> [] -> some_list l = Some (commas l).
Proof. now destruct l. Qed.
Lemma map_some {A B} (f : A -> B) l : l <> [] -> map f l <> [].
Proof. now destruct l. Qed.
Lemma printed_only v : only (h_value_text v) (fun p => printed_value (er_value v) = Some (type_text v, fst p)).
Proof.
  destruct v as [b|z|f|s|e|x|x|x|x]; cbn [er_value printed_value h_value_text type_text].
  1, 2, 3, 5: now apply only_ret.
  - ostep. now apply only_ret.
  - eapply only_mono; [apply (inner_only _ (fun t => hi_items x <> [] /\ t = show_items show_Z (hi_items x)) (ints_only x))|]. intros p (N & ->). rewrite (some_commas _ (map_some _ _ N)), items_concat. reflexivity.
  - eapply only_mono; [apply (inner_only _ (fun t => hl_items x <> [] /\ t = show_items str_text (hl_items x)) (strs_only x))|]. intros p (N & ->). rewrite strs_map, (some_commas _ (map_some _ _ N)), items_concat. reflexivity.
  - eapply only_mono; [apply (inner_only _ (fun t => hgs_items x <> [] /\ t = commas (map segment_text (map hg_seg (hgs_items x)))) (segs_only x))|]. intros p (N & ->). now rewrite (some_commas _ (map_some _ _ (map_some _ _ N))).
  - eapply only_mono; [apply (inner_only _ (fun t => hcs_items x <> [] /\ exists ts, all_some (map cap_text (map er_cap (hcs_items x))) = Some ts /\ t = commas ts) (caps_only x))|]. intros p (N & ts & E & ->). rewrite E.
    destruct (hcs_items x) as [|k r]; [easy|]. cbn in E. destruct (cap_text (er_cap k)); [|discriminate E]. destruct (all_some _); [|discriminate E].
    injection E as <-. reflexivity.
Qed.
Lemma line_only x : only (h_print_variable x) (fun t => line_text (er_slot x) = Some t).
Proof.
  destruct x as [y|]; cbn [h_print_variable er_slot option_map]; [|now apply only_ret].
  ostep. ostep. eapply only_then; [apply printed_only|]. intros (t & h) E. eapply only_then; [apply only_any|]. intros _ _. apply only_ret.
  unfold er_variable. cbn [line_text]. rewrite E. reflexivity.
Qed.
Lemma line_ok x t m l : line_text (er_slot x) = Some t -> short t -> holds m l -> incl (bl_slot x) l ->
  wp (h_print_variable x) m (fun s m' => s = t /\ holds m' l).
Proof.
  intros E B H I. destruct x as [y|]; cbn [er_slot option_map line_text h_print_variable bl_slot] in *; [|injection E as <-; pstep; now split].
  unfold er_variable in E. cbn [line_text] in E. destruct (printed_value (er_value (hy_value y))) as [(ty & u)|] eqn:Ep; [|discriminate E]. injection E as <-. cbn [fst snd] in *.
  unfold bl_variable in I. apply incl_cons_inv in I as (Jy & I). apply incl_cons_inv in I as (Jn & Iv).
  pstep. apply wp_use with l; [exact H|exact Jy|]. pstep. apply wp_arg with l; [exact H|exact Jn|]. pstep.
  destruct (printed_ok _ _ _ m l Ep ltac:(lens) H Iv) as (Et & W).
  eapply wp_mono; [exact W|]. intros (s & h) m' (Es & H'). cbn [fst snd] in *. subst s. pstep. unfold opt_at in H'. destruct (hs_at h =? 0)%Z.
  - pstep. pstep. rewrite Et. now split.
  - apply wp_drop with l; [exact H'|]. intros m2 H2. pstep. rewrite Et. now split.
Qed.
