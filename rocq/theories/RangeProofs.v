(** Ranges derived from expressions, and halves of ranges. *)
From Coq Require Import ZArith NArith String Bool List Lia Permutation Sorted.
From Coq Require Import ZifyBool ZifyNat ZifyN.
From Verif Require Import Base Float Value Special Ast Match Config Assign Source Bound Tree PredMap RbTree Api Spec TreeSpec Hist.
From Verif Require Import BaseProofs ListProofs SpecialProofs EvalProofs InternProofs ExtProofs ResProofs PassProofs PredProofs ShortProofs GvbProofs TreeProofs WideProofs HistProofs SearchProofs AnswerProofs ExprProofs.
Import ListNotations.
Local Open Scope Z_scope.

Lemma keys_covered c v dom pb r y0 : dom_fine dom -> pb_kind (btype dom) pb -> value_ok (btype dom) y0 ->
  pb_holds (stored c v (btype dom) y0) pb ->
  match dom with
  | BBool lo hi => Ok (BBool (pick_b (p_min pb) lo) (pick_b (p_max pb) hi))
  | BInt l lo hi => Ok (BInt l (pick_i (p_min pb) lo) (pick_i (p_max pb) hi))
  | BFloat lo hi => Ok (BFloat (pick_f (p_min pb) lo) (pick_f (p_max pb) hi))
  | BStr t lo hi => Ok (BStr t (pick_s (p_min pb) lo) (pick_s (p_max pb) hi))
  | BSegs | BFreqs => Abort
  end = Ok r -> range_covers c v dom r y0.
Proof.
  intros DF [K1 K2] VO [H1 H2] E.
  destruct dom as [lo hi|w lo hi|lo hi|w lo hi| | ]; cbn [btype] in *; try discriminate; injection E as <-; cbn [range_covers].
  - destruct y0; cbn [value_ok] in VO; try contradiction. cbn [stored] in *. intros D. unfold above, below in *. cbn [keys] in *. split.
    + destruct (p_min pb) as [[m| | | ]|]; cbn [opt kind pick_b] in *; try contradiction; [|exact (proj1 D)].
      destruct H1 as (k & [<-|[]] & H1). destruct m, b; cbn in *; easy.
    + destruct (p_max pb) as [[m| | | ]|]; cbn [opt kind pick_b] in *; try contradiction; [|exact (proj2 D)].
      destruct H2 as (k & [<-|[]] & H2). destruct m, b; cbn in *; easy.
  - destruct w; cbn [btype] in *.
    + destruct y0 as [ | | | |l| | | | ]; cbn [value_ok] in VO; try contradiction. cbn [stored] in *. intros D NE. destruct l as [|z0 l]; [easy|]. split.
      * destruct (p_min pb) as [[ |m| | ]|]; cbn [opt kind pick_i] in *; try contradiction.
        -- destruct H1 as (k & I & H1). cbn [keys] in I. exists k. split; [now apply sort_ints_In|exact H1].
        -- exists z0. split; [now left|]. apply D. now left.
      * destruct (p_max pb) as [[ |m| | ]|]; cbn [opt kind pick_i] in *; try contradiction.
        -- destruct H2 as (k & I & H2). cbn [keys] in I. exists k. split; [now apply sort_ints_In|exact H2].
        -- exists z0. split; [now left|]. apply D. now left.
    + destruct y0; cbn [value_ok] in VO; try contradiction. cbn [stored] in *. intros D. split.
      * destruct (p_min pb) as [[ |m| | ]|]; cbn [opt kind pick_i] in *; try contradiction; [|lia].
        destruct H1 as (k & [<-|[]] & H1). exact H1.
      * destruct (p_max pb) as [[ |m| | ]|]; cbn [opt kind pick_i] in *; try contradiction; [|lia].
        destruct H2 as (k & [<-|[]] & H2). exact H2.
  - destruct y0; cbn [value_ok] in VO; try contradiction. cbn [stored] in *. intros [D1 D2]. split.
    + destruct (p_min pb) as [[ | |m| ]|]; cbn [opt kind pick_f] in *; try contradiction; [|exact D1].
      destruct H1 as (k & [= <-] & H1). exact H1.
    + destruct (p_max pb) as [[ | |m| ]|]; cbn [opt kind pick_f] in *; try contradiction; [|exact D2].
      destruct H2 as (k & [= <-] & H2). exact H2.
  - cbn [dom_fine] in DF. destruct DF as [DF _]. destruct w; try (exfalso; intuition discriminate); cbn [btype value_ok] in *; try contradiction.
    all: destruct y0; cbn [value_ok] in VO; try contradiction; cbn [stored] in *.
    + intros D. split.
      * destruct (p_min pb) as [[ | | |m]|]; cbn [opt kind pick_s] in *; try contradiction; [|lia]. destruct H1 as (k & [<-|[]] & H1). exact H1.
      * destruct (p_max pb) as [[ | | |m]|]; cbn [opt kind pick_s] in *; try contradiction; [|lia]. destruct H2 as (k & [<-|[]] & H2). exact H2.
    + destruct l; [easy|contradiction].
    + intros D NE. destruct l as [|s0 l]; [easy|].
      assert (forall k, In k (keys (VStrList (sort_strs (map (fun s => istr c v (sv_string s)) (s0 :: l))))) ->
        exists s, In s (s0 :: l) /\ try_get_str c v (sv_string s) = k) as KI.
      { intros k I. cbn [keys] in I. apply in_map_iff in I. destruct I as (s' & <- & I). apply sort_strs_sub in I. apply in_map_iff in I.
        destruct I as (s & <- & I). exists s. split; [exact I|reflexivity]. }
      split.
      * destruct (p_min pb) as [[ | | |m]|]; cbn [opt kind pick_s] in *; try contradiction.
        -- destruct H1 as (k & I & H1). destruct (KI k I) as (s & IS & <-). eauto.
        -- exists s0. split; [now left|]. apply D. now left.
      * destruct (p_max pb) as [[ | | |m]|]; cbn [opt kind pick_s] in *; try contradiction.
        -- destruct H2 as (k & I & H2). destruct (KI k I) as (s & IS & <-). eauto.
        -- exists s0. split; [now left|]. apply D. now left.
    + intros D. split.
      * destruct (p_min pb) as [[ | | |m]|]; cbn [opt kind pick_s] in *; try contradiction; [|lia]. destruct H1 as (k & [<-|[]] & H1). exact H1.
      * destruct (p_max pb) as [[ | | |m]|]; cbn [opt kind pick_s] in *; try contradiction; [|lia]. destruct H2 as (k & [<-|[]] & H2). exact H2.
Qed.

Section WithGeo.
  Context {G : Geo} {FM : Floats}.
  Theorem range_safe ds t pend log ev s e x v d y r :
    reach_in mode ds t pend log -> event_ok ds ev -> In s (subs_cnode (bt_root t)) -> In e log -> s_id s = e_id e ->
    sem (e_cs e) ev (e_src e) = true ->
    decl (c_domains (bt_cfg t)) x = Some (v, d) -> lookup ev x = Some y ->
    range_ok false (e_src e) -> (forall f, y = VFloat f -> clear_of (c_domains (bt_cfg t)) v f (e_src e)) ->
    get_variable_bound v (d_bound d) (s_expr s) = Ok r ->
    range_covers (bt_cfg t) v (d_bound d) r y.
  Proof.
    intros R HO HS HE EI ST D LK RG NM GV. pose proof (reach_inv _ _ _ _ R) as I.
    destruct (inv_env _ _ _ _ _ I HO) as (p & HP & _). destruct I as [ISG IC IF IT IN (V & l & PM & PS & EL & FS)].
    destruct t as [c m root]. cbn [bt_cfg bt_pm bt_root] in *.
    assert (event_ok (c_domains c) ev) as HO' by (eapply event_ok_sig; [|exact HO]; auto).
    pose proof (make_env_ok _ _ _ HP) as EO. pose proof (ok_tabs _ IC) as TB.
    apply Forall_app in FS. destruct FS as [FS _]. rewrite Forall_forall in FS.
    apply (Permutation_in _ PS) in HS. apply in_map_iff in HS. destruct HS as ([s' e'] & <- & HS). cbn [fst] in *.
    pose proof (FS _ HS) as F. cbn [fst snd] in F. destruct F as [st_id0 st_res0 st_src0 st_good0 st_lp0 st_lf0 st_pass0 st_fail0].
    assert (e' = e) as ->.
    { apply (NoDup_eq log); auto; [|rewrite <- EL; apply in_map_iff; now exists (s', e')|congruence].
      unfold ids_of in IN. now apply NoDup_app_l in IN. }
    pose proof (lookup_typed _ _ _ _ _ _ HO' D LK) as VO. pose proof (decl_spec _ _ _ _ D) as [N _].
    unfold get_variable_bound in GV. apply bind_ok in GV. destruct GV as (pb & EG & GV).
    assert (Forall (float_apart c ev v) (src_atoms (e_src e))) as FA.
    { apply Forall_forall. intros a Ha n k f CK DN LF. pose proof (dv_type _ _ _ _ _ DN N) as TF.
      assert (y = VFloat f) as ->.
      { pose proof (read_at c ev p x v (btype (d_bound d)) EO HO' (ex_intro _ d (conj D eq_refl))) as R1. rewrite LK in R1.
        pose proof (read_at c ev p n v TFloat EO HO' DN) as R2. rewrite LF in R2. destruct R1 as [R1 _], R2 as [R2 _].
        rewrite R1 in R2. rewrite TF in *. destruct y; cbn [value_ok] in VO; try contradiction. cbn [stored] in R2. congruence. }
      destruct DN as (d' & D' & _).
      pose proof (NM f eq_refl) as K. unfold clear_of in K. rewrite Forall_forall in K. exact (K a Ha n k d' CK D'). }
    eapply keys_covered; [apply (cf_dom _ IF); rewrite nthN_nth in N; eapply nth_error_In; exact N|eapply gvb_inner_kind; eauto|exact VO| |exact GV].
    refine (gvb_sound c (e_cs e) ev p v d _ EO HO' TB N _ (e_src e) (s_expr s') st_res0 st_src0 FA false pb RG ST EG).
    pose proof (read_at c ev p x v (btype (d_bound d)) EO HO' (ex_intro _ d (conj D eq_refl))) as RD. rewrite LK in RD. exact (proj1 RD).
  Qed.
End WithGeo.

(** *** Halves *)
Theorem split_halves b : splits_ok b -> exists l r, split_value_bound b = Ok (l, r) /\ halves b l r.
Proof.
  destruct b as [lo hi|w lo hi|lo hi|w lo hi| | ]; cbn [splits_ok]; try contradiction.
  - intros [-> ->]. do 2 eexists. split; [reflexivity|]. cbn. auto.
  - intros (A & B & C & D).
    assert (exists r, split_value_bound (BInt w lo hi) = Ok r) as [r E].
    { cbn [split_value_bound]. unfold llabs_diff, ck64.
      replace ((INT64_MIN <=? hi - lo) && (hi - lo <=? INT64_MAX)) with true by (unfold INT64_MIN in *; lia). cbn [bind]. rewrite ?Z.abs_eq by lia.
      replace ((INT64_MIN <=? hi - lo) && (hi - lo <=? INT64_MAX)) with true by (unfold INT64_MIN in *; lia). cbn [bind]. rewrite ?Z.abs_eq by lia.
      destruct (Z.gtb_spec (hi - lo) 2); [eauto|]. destruct (Z.eqb_spec (hi - lo) 2).
      - replace ((INT64_MIN <=? lo + 1) && (lo + 1 <=? INT64_MAX)) with true by (unfold INT64_MIN in *; lia). cbn [bind]. eauto.
      - destruct (Z.eqb_spec (hi - lo) 1); [eauto|lia]. }
    destruct (split_int lo hi) with (t := w) (r := r) as (m & m' & -> & X & Y & Z); auto; try lia.
    exists (BInt w lo m), (BInt w m' hi). split; [exact E|]. cbn [halves]. intuition lia.
  - intros (A & B & C).
    assert (exists r, split_value_bound (BStr w lo hi) = Ok r) as [r E].
    { cbn [split_value_bound]. assert (to_uint 64 (hi - lo) = hi - lo) as E by (unfold to_uint; apply Z.mod_small; unfold SIZE_MAX, UINT64_MAX in *; lia). rewrite E.
      destruct (Z.gtb_spec (hi - lo) 2); [eauto|]. destruct (Z.eqb_spec (hi - lo) 2); [eauto|].
      destruct (Z.eqb_spec (hi - lo) 1); [eauto|lia]. }
    destruct (split_str lo hi) with (t := w) (r := r) as (m & m' & -> & X & Y & Z); auto; try lia.
    exists (BStr w lo m), (BStr w m' hi). split; [exact E|]. cbn [halves]. intuition lia.
Qed.
