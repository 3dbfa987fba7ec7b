(** Printed lines about variables and ranges say what they should. *)
From Coq Require Import ZArith NArith String Ascii Bool List Lia Decimal DecimalString DecimalFacts DecimalZ Floats.SpecFloat.
From Verif Require Import Base Float Value Ast Config Assign Special Match Bound Tree TreeSpec TreeProofs RbTree PredMap Source Api Cases Printer
  LexProofs HelpProofs LinkedApi PropsLinked DotNames DotProofs DotFine ShowDomain ShowSpec.
Import ListNotations.
Local Open Scope string_scope.

(** *** Characters *)
Lemma until_app c a b : lacks c a = true -> until c (a ++ String c b) = Some (a, b).
Proof.
  induction a as [|d a IH]; intros H; cbn [append until lacks] in *.
  - now rewrite Ascii.eqb_refl.
  - apply andb_prop in H. destruct H as (D & H). apply negb_true_iff in D. now rewrite D, (IH H).
Qed.
Lemma until_none c a : lacks c a = true -> until c a = None.
Proof.
  induction a as [|d a IH]; intros H; cbn [until lacks] in *; [easy|].
  apply andb_prop in H. destruct H as (D & H). apply negb_true_iff in D. now rewrite D, (IH H).
Qed.
Lemma lacks_app c a b : lacks c (a ++ b) = lacks c a && lacks c b.
Proof. induction a as [|d a IH]; cbn [append lacks]; [easy|]. now rewrite IH, andb_assoc. Qed.
(** Characters that no number has. *)
Definition outside (c : ascii) : Prop := c = ","%char \/ c = "]"%char \/ c = " "%char \/ c = "010"%char.
Lemma lacks_uint c d : outside c -> lacks c (NilEmpty.string_of_uint d) = true.
Proof.
  intros H. induction d; cbn [NilEmpty.string_of_uint lacks]; rewrite ?IHd; destruct H as [->|[->|[->| ->]]]; reflexivity.
Qed.
Lemma lacks_Z c z : outside c -> lacks c (show_Z z) = true.
Proof.
  intros H. unfold show_Z. destruct (Z.to_int z); cbn [NilEmpty.string_of_int lacks]; rewrite lacks_uint by easy; [easy|].
  destruct H as [->|[->|[->| ->]]]; reflexivity.
Qed.
Lemma digit_lacks c n : outside c -> (0 <= n < 10)%Z -> (ascii_of_N (48 + Z.to_N n) =? c)%char = false.
Proof.
  intros H B. assert (n = 0 \/ n = 1 \/ n = 2 \/ n = 3 \/ n = 4 \/ n = 5 \/ n = 6 \/ n = 7 \/ n = 8 \/ n = 9)%Z as K by lia.
  destruct H as [->|[->|[->| ->]]]; repeat (destruct K as [->|K]; [reflexivity|]); now subst.
Qed.
Lemma lacks_two c n : outside c -> lacks c (two_digits n) = true.
Proof.
  intros H. unfold two_digits. cbn [lacks]. rewrite !digit_lacks; auto; apply Z.mod_pos_bound; lia.
Qed.
Lemma lacks_sign c (s : bool) : outside c -> lacks c (if s then "-" else "") = true.
Proof. intros [->|[->|[->| ->]]]; now destruct s. Qed.
Lemma lacks_flt c f : outside c -> lacks c (show_flt f) = true.
Proof.
  intros H. destruct f as [s|s| |s m e]; cbn [show_flt]; cbv zeta; rewrite ?lacks_app, ?lacks_sign, ?lacks_Z, ?lacks_two by easy;
    destruct H as [->|[->|[->| ->]]]; reflexivity.
Qed.

(** *** Numbers *)
Lemma decimal_Z z : decimal (show_Z z) = Some z.
Proof. unfold decimal, show_Z. rewrite NilEmpty.isi. cbn [option_map]. now rewrite DecimalZ.of_to. Qed.
Lemma not_number z s : decimal s = None -> (show_Z z =? s) = false.
Proof. intros H. apply String.eqb_neq. intros <-. rewrite decimal_Z in H. discriminate. Qed.
Lemma int_at_Z z : int_at (show_Z z) = Some z.
Proof. unfold int_at. rewrite !not_number by reflexivity. apply decimal_Z. Qed.
Lemma size_at_Z z : size_at (show_Z z) = Some (Some z).
Proof. unfold size_at. rewrite not_number by reflexivity. now rewrite decimal_Z. Qed.
Lemma truth_at_ok b : truth_at (truth b) = Some b.
Proof. now destruct b. Qed.

(** *** The parts of a line *)
(** A text is [x] and ends with the closing bracket and the end of the line; it has no such bracket before. *)
Definition lo_text (z : Z) : string := if (z =? INT64_MIN)%Z then "INT64_MIN" else show_Z z.
Definition hi_text (z : Z) : string := if (z =? INT64_MAX)%Z then "INT64_MAX" else show_Z z.
Definition size_text (z : Z) : string := if (SIZE_MAX - 1 <=? z)%Z then "SIZE_MAX" else show_Z z.
Definition closing : string := "]
".
Lemma int_ends_eq lo hi : int_ends lo hi = lo_text lo ++ ", " ++ hi_text hi ++ closing.
Proof. unfold int_ends, lo_text, hi_text. destruct (lo =? INT64_MIN)%Z, (hi =? INT64_MAX)%Z; now rewrite ?sapp_assoc. Qed.
Lemma float_ends_eq lo hi : float_ends lo hi = float_lo lo ++ ", " ++ float_hi hi ++ closing.
Proof. unfold float_ends, float_lo, float_hi. destruct (feq lo (fopp DBL_MAX)), (feq hi DBL_MAX); now rewrite ?sapp_assoc. Qed.
Lemma size_end_eq hi : size_end hi = size_text hi ++ closing.
Proof. unfold size_end, size_text. now destruct (SIZE_MAX - 1 <=? hi)%Z. Qed.
Ltac out := first [now left|now right; left|now right; right; left|now right; right; right].
Lemma lacks_lo c z : outside c -> lacks c (lo_text z) = true.
Proof. intros H. unfold lo_text. destruct (z =? INT64_MIN)%Z; [destruct H as [->|[->|[->| ->]]]; reflexivity|now apply lacks_Z]. Qed.
Lemma lacks_hi c z : outside c -> lacks c (hi_text z) = true.
Proof. intros H. unfold hi_text. destruct (z =? INT64_MAX)%Z; [destruct H as [->|[->|[->| ->]]]; reflexivity|now apply lacks_Z]. Qed.
Lemma lacks_size c z : outside c -> lacks c (size_text z) = true.
Proof. intros H. unfold size_text. destruct (SIZE_MAX - 1 <=? z)%Z; [destruct H as [->|[->|[->| ->]]]; reflexivity|now apply lacks_Z]. Qed.
Lemma lacks_flo c f : outside c -> lacks c (float_lo f) = true.
Proof. intros H. unfold float_lo. destruct (feq f _); [destruct H as [->|[->|[->| ->]]]; reflexivity|now apply lacks_flt]. Qed.
Lemma lacks_fhi c f : outside c -> lacks c (float_hi f) = true.
Proof. intros H. unfold float_hi. destruct (feq f _); [destruct H as [->|[->|[->| ->]]]; reflexivity|now apply lacks_flt]. Qed.
Lemma int_at_lo z : int_at (lo_text z) = Some z.
Proof. unfold lo_text. destruct (Z.eqb_spec z INT64_MIN) as [->|]; [reflexivity|apply int_at_Z]. Qed.
Lemma int_at_hi z : int_at (hi_text z) = Some z.
Proof. unfold hi_text. destruct (Z.eqb_spec z INT64_MAX) as [->|]; [reflexivity|apply int_at_Z]. Qed.
Lemma size_at_text z : size_at (size_text z) = Some (limit z).
Proof. unfold size_text, limit. destruct (SIZE_MAX - 1 <=? z)%Z; [reflexivity|apply size_at_Z]. Qed.

Lemma two_ends t x y : lacks "," x = true -> lacks "," y = true ->
  ends_at t (x ++ ", " ++ y) =
  match t with
  | TBool => match truth_at x, truth_at y with Some lo, Some hi => Some (EBool lo hi) | _, _ => None end
  | TInt | TIntList => match int_at x, int_at y with Some lo, Some hi => Some (EInt lo hi) | _, _ => None end
  | TFloat => Some (EFloat x y)
  | TStr | TStrList | TIEnum => match decimal x, size_at y with Some lo, Some hi => Some (ESize lo hi) | _, _ => None end
  | TSegs | TFreqs => None
  end.
Proof. intros X Y. unfold ends_at. cbn [append]. now rewrite until_app. Qed.
Lemma one_end t x : lacks "," x = true ->
  ends_at t x = match t with TStr | TStrList | TIEnum => option_map ELimit (size_at x) | _ => None end.
Proof. intros X. unfold ends_at. now rewrite until_none. Qed.

(** A line with brackets. *)
Lemma line_ok a w undef t e E : lacks " " a = true -> lacks ")" w = true -> lacks "?" w = true -> type_of w = Some t ->
  lacks "]" e = true -> ends_at t e = Some E ->
  read_line (a ++ " (" ++ (w ++ mark undef) ++ ") [" ++ e ++ closing) = Some (a, t, undef, E).
Proof.
  intros A W Q T L H. unfold read_line. cbn [append]. rewrite until_app by easy.
  rewrite until_app by (rewrite lacks_app, W; now destruct undef).
  assert (typed (w ++ mark undef) = Some (t, undef)) as ->.
  { unfold typed. destruct undef; cbn [mark].
    - rewrite until_app by easy. now rewrite T.
    - rewrite sapp_nil. rewrite until_none by easy. now rewrite T. }
  cbn [String.eqb]. change (Ascii.eqb " " _) with false. cbv iota.
  unfold closing. rewrite until_app by easy. rewrite H. reflexivity.
Qed.

Ltac flat := rewrite ?int_ends_eq, ?float_ends_eq, ?size_end_eq; cbn [append]; rewrite ?sapp_assoc; cbn [append].

(** *** C74: printed lines *)

Lemma plain_line a w t undef E : lacks " " a = true -> lacks ")" w = true -> lacks "?" w = true -> type_of w = Some t ->
  (t = TSegs \/ t = TFreqs) -> E = ENone ->
  read_line (a ++ " (" ++ (w ++ mark undef) ++ ")
") = Some (a, t, undef, E).
Proof.
  intros A W Q T K ->. unfold read_line. cbn [append]. rewrite until_app by easy.
  rewrite until_app by (rewrite lacks_app, W; now destruct undef).
  assert (typed (w ++ mark undef) = Some (t, undef)) as ->.
  { unfold typed. destruct undef; cbn [mark].
    - rewrite until_app by easy. now rewrite T.
    - rewrite sapp_nil. rewrite until_none by easy. now rewrite T. }
  rewrite String.eqb_refl. now destruct K as [-> | ->].
Qed.

(** The line about a variable tells its name, its type, whether it may be undefined, and its values. *)
Theorem C74_domain d : lacks " " (d_attr d) = true -> proper (d_bound d) ->
  exists t, print_attr_domain d = Ok t
    /\ read_line t = Some (d_attr d, btype (d_bound d), d_undef d, of_domain (d_bound d)).
Proof.
  destruct d as [a b undef]. cbn [d_attr d_bound d_undef]. intros A P. unfold print_attr_domain. cbn [d_attr d_bound d_undef].
  assert (INTS : forall w t lo hi, lacks ")" w = true -> lacks "?" w = true -> type_of w = Some t -> (t = TInt \/ t = TIntList) ->
    read_line (a ++ " (" ++ (w ++ mark undef) ++ ") [" ++ int_ends lo hi) = Some (a, t, undef, EInt lo hi)).
  { intros w t lo hi W Q T K. rewrite int_ends_eq.
    rewrite <- (line_ok a w undef t (lo_text lo ++ ", " ++ hi_text hi) (EInt lo hi)); auto.
    - now flat.
    - rewrite !lacks_app, lacks_lo, lacks_hi by out. reflexivity.
    - rewrite two_ends by (apply lacks_lo + apply lacks_hi; out). rewrite int_at_lo, int_at_hi. now destruct K as [-> | ->]. }
  assert (SIZES : forall w t hi, lacks ")" w = true -> lacks "?" w = true -> type_of w = Some t -> (t = TStr \/ t = TStrList \/ t = TIEnum) ->
    read_line (a ++ " (" ++ (w ++ mark undef) ++ ") [" ++ size_end hi) = Some (a, t, undef, ELimit (limit hi))).
  { intros w t hi W Q T K. rewrite size_end_eq. apply line_ok; auto; [apply lacks_size; out|].
    rewrite one_end by (apply lacks_size; out). rewrite size_at_text. now destruct K as [->|[->| ->]]. }
  destruct b as [lo hi|[] lo hi|lo hi|t lo hi| |]; cbn [btype of_domain].
  - eexists. split; [reflexivity|]. rewrite <- (line_ok a "bool" undef TBool (truth lo ++ ", " ++ truth hi) (EBool lo hi)); auto.
    + now flat.
    + now destruct lo, hi.
    + rewrite two_ends by (now destruct lo + now destruct hi). now rewrite !truth_at_ok.
  - eexists. split; [reflexivity|]. rewrite <- (INTS "integer list" TIntList lo hi); auto; now flat.
  - eexists. split; [reflexivity|]. rewrite <- (INTS "integer" TInt lo hi); auto; now flat.
  - eexists. split; [reflexivity|]. rewrite <- (line_ok a "float" undef TFloat (float_lo lo ++ ", " ++ float_hi hi) (EFloat (float_lo lo) (float_hi hi))); auto.
    + now flat.
    + rewrite !lacks_app, lacks_flo, lacks_fhi by out. reflexivity.
    + rewrite two_ends by (apply lacks_flo + apply lacks_fhi; out). reflexivity.
  - destruct P as [->|[->| ->]]; eexists; (split; [reflexivity|]).
    + rewrite <- (SIZES "string" TStr hi); auto; now flat.
    + rewrite <- (SIZES "string list" TStrList hi); auto; now flat.
    + rewrite <- (SIZES "integer enum" TIEnum hi); auto; now flat.
  - eexists. split; [reflexivity|]. rewrite <- (plain_line a "segments" TSegs undef ENone); auto; now flat.
  - eexists. split; [reflexivity|]. rewrite <- (plain_line a "frequency caps" TFreqs undef ENone); auto; now flat.
Qed.
Print Assumptions C74_domain.

(** So different definitions have different lines. *)
Theorem C74_domain_same d1 d2 t : lacks " " (d_attr d1) = true -> proper (d_bound d1) -> lacks " " (d_attr d2) = true -> proper (d_bound d2) ->
  print_attr_domain d1 = Ok t -> print_attr_domain d2 = Ok t ->
  d_attr d1 = d_attr d2 /\ btype (d_bound d1) = btype (d_bound d2) /\ d_undef d1 = d_undef d2
  /\ of_domain (d_bound d1) = of_domain (d_bound d2).
Proof.
  intros A1 P1 A2 P2 E1 E2. destruct (C74_domain d1 A1 P1) as (t1 & K1 & R1). destruct (C74_domain d2 A2 P2) as (t2 & K2 & R2).
  rewrite E1 in K1. rewrite E2 in K2. injection K1 as <-. injection K2 as <-. rewrite R1 in R2. injection R2 as -> -> -> ->. auto.
Qed.
Print Assumptions C74_domain_same.

(** The line about a range tells the name of the variable, the type and both ends. *)
Theorem C74_range a b : lacks " " a = true -> proper b -> ranged b ->
  exists t, print_cdir a b = Ok t /\ read_line t = Some (a, btype b, false, of_range b).
Proof.
  intros A P R. unfold print_cdir.
  assert (INTS : forall w t lo hi, lacks ")" w = true -> lacks "?" w = true -> type_of w = Some t -> (t = TInt \/ t = TIntList) ->
    read_line (a ++ " (" ++ (w ++ mark false) ++ ") [" ++ int_ends lo hi) = Some (a, t, false, EInt lo hi)).
  { intros w t lo hi W Q T K. rewrite int_ends_eq.
    rewrite <- (line_ok a w false t (lo_text lo ++ ", " ++ hi_text hi) (EInt lo hi)); auto.
    - now flat.
    - rewrite !lacks_app, lacks_lo, lacks_hi by out. reflexivity.
    - rewrite two_ends by (apply lacks_lo + apply lacks_hi; out). rewrite int_at_lo, int_at_hi. now destruct K as [-> | ->]. }
  assert (SIZES : forall w t lo hi, lacks ")" w = true -> lacks "?" w = true -> type_of w = Some t -> (t = TStr \/ t = TStrList \/ t = TIEnum) ->
    read_line (a ++ " (" ++ (w ++ mark false) ++ ") [" ++ show_Z lo ++ ", " ++ size_end hi) = Some (a, t, false, ESize lo (limit hi))).
  { intros w t lo hi W Q T K. rewrite size_end_eq.
    rewrite <- (line_ok a w false t (show_Z lo ++ ", " ++ size_text hi) (ESize lo (limit hi))); auto.
    - now flat.
    - rewrite !lacks_app, lacks_Z, lacks_size by out. reflexivity.
    - rewrite two_ends by (apply lacks_Z + apply lacks_size; out). rewrite decimal_Z, size_at_text. now destruct K as [->|[->| ->]]. }
  destruct b as [lo hi|[] lo hi|lo hi|t lo hi| |]; cbn [btype of_domain of_range]; try easy.
  - eexists. split; [reflexivity|]. rewrite <- (line_ok a "bool" false TBool (truth lo ++ ", " ++ truth hi) (EBool lo hi)); auto.
    + now flat.
    + now destruct lo, hi.
    + rewrite two_ends by (now destruct lo + now destruct hi). now rewrite !truth_at_ok.
  - eexists. split; [reflexivity|]. rewrite <- (INTS "integer list" TIntList lo hi); auto.
  - eexists. split; [reflexivity|]. rewrite <- (INTS "integer" TInt lo hi); auto.
  - eexists. split; [reflexivity|]. rewrite <- (line_ok a "float" false TFloat (float_lo lo ++ ", " ++ float_hi hi) (EFloat (float_lo lo) (float_hi hi))); auto.
    + now flat.
    + rewrite !lacks_app, lacks_flo, lacks_fhi by out. reflexivity.
    + rewrite two_ends by (apply lacks_flo + apply lacks_fhi; out). reflexivity.
  - destruct P as [->|[->| ->]]; eexists; (split; [reflexivity|]).
    + rewrite <- (SIZES "string" TStr lo hi); auto.
    + rewrite <- (SIZES "string list" TStrList lo hi); auto.
    + rewrite <- (SIZES "integer enum" TIEnum lo hi); auto.
Qed.
Print Assumptions C74_range.

(** The ranges in the tree after any program belong to declared variables and are of a type that can be printed. *)
Lemma fine_ranges c :
  (forall T, fine_cnode c T -> forall v b, In (v, b) (ranges_cnode T) -> known c v /\ ranged b)
  /\ (forall ps, fine_pdir c ps -> forall v b, In (v, b) (ranges_pdir ps) -> known c v /\ ranged b)
  /\ (forall D w, known c w -> fine_cdir c D -> forall v b, In (v, b) (ranges_cdir w D) -> known c v /\ ranged b).
Proof.
  apply tree_mut.
  - intros m subs ps IH F. exact (IH F).
  - intros _ v b [].
  - intros w sc D IHD rest IHR (K & FD & FR) v b I. cbn [ranges_pdir] in I. apply in_app_or in I. destruct I as [I|I]; [eapply IHD|eapply IHR]; eauto.
  - intros x T IH w K (R & F) v b [[= <- <-]|I]; [easy|]. eapply IH; eauto.
  - intros x T IH l IHl r IHr w K (R & F & Fl & Fr) v b [[= <- <-]|I]; [easy|].
    apply in_app_or in I. destruct I as [I|I]; [eapply IH; eauto|]. apply in_app_or in I. destruct I as [I|I]; [eapply IHl|eapply IHr]; eauto.
Qed.
Theorem C74_tree {G : Geo} cap minpart maxsplit ds l r st v b :
  v_run (mkV (make_tree cap minpart maxsplit ds) []) l = Ok (r, st) -> In (v, b) (ranges_cnode (bt_root (v_tree st))) ->
  exists d, nthN (c_domains (bt_cfg (v_tree st))) v = Some d
    /\ (lacks " " (d_attr d) = true -> proper b ->
        exists t, print_cdir (d_attr d) b = Ok t /\ read_line t = Some (d_attr d, btype b, false, of_range b)).
Proof.
  intros E I'. assert (FT : fine_tree (v_tree st)) by (apply (run_fine l (mkV (make_tree cap minpart maxsplit ds) []) r st I E)).
  destruct (proj1 (fine_ranges _) _ FT v b I') as ((d & K) & R). exists d. split; [exact K|]. intros A P. now apply C74_range.
Qed.
Print Assumptions C74_tree.

(** The counters can be read off their line. *)
Lemma after_app p s : after p (p ++ s) = Some s.
Proof. induction p as [|a p IH]; cbn [append after]; [now destruct s|]. now rewrite Ascii.eqb_refl. Qed.
Lemma number_ok p c z s : outside c -> number_in p c (p ++ show_Z z ++ String c s) = Some (z, s).
Proof. intros O. unfold number_in. rewrite after_app, until_app by (now apply lacks_Z). now rewrite decimal_Z. Qed.
Theorem C74_report r : read_report (print_report r) = Some (r_evaluated r, r_matched r, r_memoized r, r_shorted r).
Proof.
  assert (print_report r = "evaluated = " ++ show_Z (r_evaluated r) ++ String "," (" matched = " ++ show_Z (r_matched r) ++ String ","
    (" memoized = " ++ show_Z (r_memoized r) ++ String "," (" shorted = " ++ show_Z (r_shorted r) ++ String "010" "")))) as -> by reflexivity.
  unfold read_report. rewrite !number_ok by out. reflexivity.
Qed.
Print Assumptions C74_report.
(** Different types have different texts. *)
Theorem C74_type t1 t2 : print_value_type t1 = print_value_type t2 -> t1 = t2.
Proof. now destruct t1, t2. Qed.
Print Assumptions C74_type.

(** *** Cases *)
Example C74_case :
  print_attr_domain (mkD "age" (BInt false INT64_MIN 99) true) = Ok "age (integer?) [INT64_MIN, 99]
" /\ print_attr_domain (mkD "tags" (BStr TStrList 0 (SIZE_MAX - 1)) false) = Ok "tags (string list) [SIZE_MAX]
" /\ print_attr_domain (mkD "f" (BFloat (f_of_Z (-3)) DBL_MAX) false) = Ok "f (float) [-3.00, DBL_MAX]
" /\ read_line "segs (segments?)
" = Some ("segs", TSegs, true, ENone) /\ print_cdir "c" (BStr TIEnum 2 4) = Ok "c (integer enum) [2, 4]
" /\ print_cdir "s" BSegs = Abort.
Proof. vm_compute. repeat split. Qed.
(** The ranges of a tree that was split. *)
Example C74_case_tree : match v_run link_start (link_calls 1) with
  | Ok (_, st) => (2 <= List.length (ranges_cnode (bt_root (v_tree st))))%nat
      /\ Forall (fun d => lacks " " (d_attr d) = true) (c_domains (bt_cfg (v_tree st)))
  | _ => False
  end.
Proof. vm_compute. split; [lia|]. repeat constructor. Qed.
Example C74_case_report : read_report "evaluated = 12, matched = 3, memoized = 4, shorted = 0
" = Some (12, 3, 4, 0)%Z.
Proof. reflexivity. Qed.
