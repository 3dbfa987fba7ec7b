(** The index tree: which subtrees a search may skip, and what insertion keeps. *)
From Coq Require Import ZArith NArith String Bool List Lia Permutation Sorted.
From Coq Require Import ZifyBool ZifyNat ZifyN.
From Verif Require Import Base Float Value Special Ast Match Config Assign Source Bound Tree TreeSpec.
From Verif Require Import FloatSpec BaseProofs ListProofs ExtProofs RoundProofs FloatOrd GvbProofs.
Import ListNotations.
Local Open Scope Z_scope.

Scheme cnode_mut := Induction for cnode Sort Prop
  with pdir_mut := Induction for pdir Sort Prop
  with cdir_mut := Induction for cdir Sort Prop.
Combined Scheme tree_mut from cnode_mut, pdir_mut, cdir_mut.

(** *** Ranges as integers *)
Definition blo (b : bound) : Z :=
  match b with BBool lo _ => Z.b2z lo | BInt _ lo _ => lo | BFloat lo _ => units lo | BStr _ lo _ => lo | _ => 0 end.
Definition bhi (b : bound) : Z :=
  match b with BBool _ hi => Z.b2z hi | BInt _ _ hi => hi | BFloat _ hi => units hi | BStr _ _ hi => hi | _ => 0 end.
Definition same_tag (a b : bound) : Prop :=
  match a, b with
  | BBool _ _, BBool _ _ => True
  | BInt t _ _, BInt t' _ _ => t = t'
  | BFloat _ _, BFloat _ _ => True
  | BStr t _ _, BStr t' _ _ => t = t'
  | _, _ => False
  end.

(** Are float ranges split? *)
Class Floats := mode : floats.

Section Mode.
Context {FM : Floats}.
Definition may_split : bool := can_split mode.

(** Ranges that may have been split. *)
Definition splits (b : bound) : Prop :=
  match b with
  | BBool lo hi => lo = false /\ hi = true
  | BInt _ lo hi => INT64_MIN < lo /\ lo <= hi /\ hi < INT64_MAX
  | BFloat lo hi => may_split = true /\ finite_range (BFloat lo hi)
  | BStr t lo hi => (t = TStr \/ t = TStrList \/ t = TIEnum) /\ lo = 0 /\ 0 <= hi < SIZE_MAX - 1
  | _ => False
  end.

(** Place of the range of a cdir inside the declared range. *)
Record node_rng (dom b : bound) (ol orr : bool) : Prop := {
  nr_tag : same_tag dom b;
  nr_lo : blo dom <= blo b;
  nr_ord : blo b <= bhi b;
  nr_hi : bhi b <= bhi dom;
  nr_ol : ol = false -> blo dom < blo b;
  nr_orr : orr = false -> bhi b < bhi dom;
  nr_zero : ol = true -> match b with BInt _ _ _ | BFloat _ _ => True | _ => blo b = 0 end;
  nr_float : match b with BFloat lo hi => coarse lo /\ coarse hi /\ (only_whole mode = true -> whole_width lo hi) | _ => True end;
  nr_one : orr = true -> match b with BBool _ _ => bhi b = 1 | _ => True end }.

(** An end derived from an expression lies in the range. *)
Definition low_in (b : bound) (m : bv) : Prop :=
  match b with BFloat lo _ => exists f, m = BVf f /\ fleb lo f = true | _ => blo b <= bvz m end.
Definition high_in (b : bound) (m : bv) : Prop :=
  match b with BFloat _ hi => exists f, m = BVf f /\ fleb f hi = true | _ => bvz m <= bhi b end.
(** The sub only holds for values in the range [b] (open ends are not restricted). *)
Definition sub_in (v : N) (t : vtype) (b : bound) (ol orr : bool) (s : sub) : Prop :=
  exists pb, gvb_inner v t false (s_expr s) = Ok pb
    /\ (ol = true \/ exists m, p_min pb = Some m /\ low_in b m)
    /\ (orr = true \/ exists m, p_max pb = Some m /\ high_in b m).

(** *** Well-formed trees *)
Fixpoint ok_cnode (ds : list domain) (cn : cnode) : Prop :=
  match cn with CNode _ _ ps => ok_pdir ds ps end
with ok_pdir (ds : list domain) (ps : pdir) : Prop :=
  match ps with
  | PNil => True
  | PCons v _ cd rest =>
      (exists d, nthN ds v = Some d /\ splits (d_bound d) /\ node_rng (d_bound d) (cd_bound cd) true true
                 /\ ok_cdir ds v (d_bound d) true true cd)
      /\ ok_pdir ds rest
  end
with ok_cdir (ds : list domain) (v : N) (dom : bound) (ol orr : bool) (cd : cdir) : Prop :=
  match cd with
  | CLeaf _ cn => ok_cnode ds cn
  | CSplit _ cn l r =>
      ok_cnode ds cn
      /\ (node_rng dom (cd_bound l) ol false /\ Forall (sub_in v (btype dom) (cd_bound l) ol false) (subs_cdir l)
          /\ ok_cdir ds v dom ol false l)
      /\ (node_rng dom (cd_bound r) false orr /\ Forall (sub_in v (btype dom) (cd_bound r) false orr) (subs_cdir r)
          /\ ok_cdir ds v dom false orr r)
  end.

(** *** Searching *)

(** Values of the environment have their declared kind. *)
Definition val_ok (t : vtype) (x : value) : Prop :=
  match t, x with
  | TBool, VBool _ => True
  | TInt, VInt z => is_int64 z
  | TStr, VStr s => 0 <= sv_str s
  | TIEnum, VIEnum e => 0 <= ie_id e
  | TIntList, VIntList l => incr l /\ Forall is_int64 l
  | TStrList, VStrList l => incr (map sv_str l) /\ Forall (fun s => 0 <= sv_str s <= SIZE_MAX) l
  | TFloat, VFloat _ => True
  | TSegs, _ | TFreqs, _ => True
  | _, _ => False
  end.

Lemma in_range_ok l lo hi : incr l ->
  (forall k, In k l -> (exists k', In k' l /\ lo <= k')) ->
  (forall k, In k l -> (exists k', In k' l /\ k' <= hi)) -> in_range_list l lo hi = true.
Proof.
  intros H A B. unfold in_range_list, ends. destruct l as [|x t]; [easy|].
  destruct (A x) as (k & Hk & Lk); [now left|]. destruct (B x) as (k' & Hk' & Lk'); [now left|].
  pose proof (last_incr _ x k H Hk) as La.
  assert (x <= k') as Lb.
  { destruct Hk' as [<-|Hk']; [lia|]. inversion H as [|? ? ? HF]; subst. rewrite Forall_forall in HF. now apply HF. }
  apply andb_true_intro. split; apply Z.leb_le; lia.
Qed.

Section Search.
  Variables (ds : list domain) (p : env) (hit : sub -> bool).
  Hypothesis read_ok : forall v d, nthN ds v = Some d ->
    exists o, read_var p v = Ok o /\ (d_undef d = false -> o <> None)
              /\ match o with Some x => val_ok (btype (d_bound d)) x | None => True end.
  (** A sub that is hit has its derived range satisfied. *)
  Definition honest (s : sub) : Prop :=
    hit s = true -> forall v d x pb, nthN ds v = Some d -> splits (d_bound d) ->
      read_var p v = Ok (Some x) -> gvb_inner v (btype (d_bound d)) false (s_expr s) = Ok pb -> pb_holds x pb.

  Lemma enclosed_total v d b ol orr : nthN ds v = Some d -> same_tag (d_bound d) b -> splits (d_bound d) ->
    exists r, is_event_enclosed p v b ol orr = Ok r.
  Proof.
    intros N T S. destruct (read_ok v d N) as (o & R & _ & V). unfold is_event_enclosed. rewrite R. cbn [bind].
    destruct o as [x|]; [|eauto].
    destruct (d_bound d) as [lo hi|w lo hi|lo hi|w lo hi| | ], b as [lo0 hi0|w0 lo0 hi0|lo0 hi0|w0 lo0 hi0| | ]; cbn in T, S; try easy; try subst w0.
    - destruct x; cbn in V; try easy. eauto.
    - destruct w; destruct x; cbn in V; try easy; eauto.
    - destruct x; cbn in V; try easy. eauto.
    - destruct S as ([->|[->| ->]] & _); destruct x; cbn in V; try easy; eauto.
  Qed.

  Lemma hit_enclosed v d b ol orr s : nthN ds v = Some d -> splits (d_bound d) -> node_rng (d_bound d) b ol orr ->
    sub_in v (btype (d_bound d)) b ol orr s -> honest s -> hit s = true ->
    is_event_enclosed p v b ol orr = Ok true.
  Proof.
    intros N S R (pb & EG & HL & HR) HH Hs.
    destruct (read_ok v d N) as (o & RV & _ & V).
    unfold is_event_enclosed. rewrite RV. cbn [bind]. destruct o as [x|]; [|easy].
    destruct (HH Hs v d x pb N S RV EG) as [PL PR]. destruct (gvb_inner_kind _ _ _ _ _ EG) as [KD1 KD2].
    assert (match b with BFloat _ _ => True | _ => ol = true \/ exists k, In k (keys x) /\ blo b <= k end) as KL.
    { destruct HL as [HL|(m & E & L)]; [destruct b; auto|]. rewrite E in PL, KD1. cbn [opt] in PL, KD1.
      pose proof (nr_tag _ _ _ _ R) as RT.
      destruct b; cbn [low_in] in L; try exact I; destruct m; try (destruct PL as (k & Hk & Lk); right; exists k; split; [exact Hk|lia]);
        destruct (d_bound d); cbn in RT; try contradiction; cbn [btype splits] in *; try (destruct list0); try (destruct S as ([->|[->| ->]] & _)); cbn in KD1; contradiction. }
    assert (match b with BFloat _ _ => True | _ => orr = true \/ exists k, In k (keys x) /\ k <= bhi b end) as KR.
    { destruct HR as [HR|(m & E & L)]; [destruct b; auto|]. rewrite E in PR, KD2. cbn [opt] in PR, KD2.
      pose proof (nr_tag _ _ _ _ R) as RT.
      destruct b; cbn [high_in] in L; try exact I; destruct m; try (destruct PR as (k & Hk & Lk); right; exists k; split; [exact Hk|lia]);
        destruct (d_bound d); cbn in RT; try contradiction; cbn [btype splits] in *; try (destruct list0); try (destruct S as ([->|[->| ->]] & _)); cbn in KD2; contradiction. }
    assert (match b with BFloat lo hi => forall y, x = VFloat y -> (ol = true \/ fleb lo y = true) /\ (orr = true \/ fleb y hi = true) | _ => True end) as KF.
    { clear KL KR. destruct b; try exact I. intros y ->. split.
      - destruct HL as [HL|(m & E & (f & -> & L))]; [now left|right]. rewrite E in PL. destruct PL as (y' & [= <-] & L').
        eapply fleb_trans; eauto.
      - destruct HR as [HR|(m & E & (f & -> & L))]; [now left|right]. rewrite E in PR. destruct PR as (y' & [= <-] & L').
        eapply fleb_trans; eauto. }
    clear HL HR PL PR KD1 KD2. destruct R as [RT RL RO RH Rol Rorr RZ RF R1].
    destruct (d_bound d) as [lo hi|w lo hi|lo hi|w lo hi| | ], b as [lo0 hi0|w0 lo0 hi0|lo0 hi0|w0 lo0 hi0| | ]; cbn in RT, S; try easy; try subst w0.
    - destruct x as [y| | | | | | | | ]; cbn in V; try easy. cbn [keys blo bhi] in *.
      assert (Z.b2z lo0 <= Z.b2z y) by (destruct KL as [->|(k & [<-|[]] & L)]; [specialize (RZ eq_refl); destruct y, lo0; cbn in *; lia|lia]).
      assert (Z.b2z y <= Z.b2z hi0) by (destruct KR as [->|(k & [<-|[]] & L)]; [specialize (R1 eq_refl); destruct y, hi0; cbn in *; lia|lia]).
      destruct y, lo0, hi0; cbn in *; try reflexivity; lia.
    - cbn [keys blo bhi] in *. destruct w; destruct x as [ |y| | |l| | | | ]; cbn in V; try easy.
      + destruct V as [I F]. rewrite Forall_forall in F. f_equal. apply in_range_ok; auto; cbn [keys] in *.
        * intros k Hk. destruct KL as [->|(k' & Hk' & L)].
          -- exists k. split; [easy|]. specialize (F k Hk). unfold is_int64 in F. lia.
          -- exists k'. split; [easy|]. destruct ol; [|easy]. specialize (F k' Hk'). unfold is_int64 in F. lia.
        * intros k Hk. destruct KR as [->|(k' & Hk' & L)].
          -- exists k. split; [easy|]. specialize (F k Hk). unfold is_int64 in F. lia.
          -- exists k'. split; [easy|]. destruct orr; [|easy]. specialize (F k' Hk'). unfold is_int64 in F. lia.
      + cbn [keys] in *. f_equal. apply andb_true_intro. split; apply orb_true_iff.
        * destruct KL as [->|(k & [<-|[]] & L)]; [now left|right; lia].
        * destruct KR as [->|(k & [<-|[]] & L)]; [now left|right; lia].
    - destruct x; cbn in V; try easy. destruct (KF f eq_refl) as [K1 K2]. f_equal. apply andb_true_intro. split; apply orb_true_iff; assumption.
    - cbn [keys blo bhi] in *. destruct S as ([->|[->| ->]] & _); destruct x as [ | | |y| |l| | |y]; cbn in V; try easy.
      + cbn [keys] in *. f_equal. apply andb_true_intro. split; [|apply orb_true_iff].
        * destruct KL as [->|(k & [<-|[]] & L)]; [specialize (RZ eq_refl); cbn in RZ; lia|lia].
        * destruct KR as [->|(k & [<-|[]] & L)]; [now left|right; lia].
      + cbn [keys] in *. destruct V as [I F]. rewrite Forall_forall in F. f_equal. 
        assert (forall k, In k (map sv_str l) -> 0 <= k <= SIZE_MAX) as F'.
        { intros k Hk. apply in_map_iff in Hk. destruct Hk as (y & <- & Hy). now apply F. }
        apply in_range_ok; auto.
        * intros k Hk. destruct KL as [->|(k' & Hk' & L)]; [|eauto]. exists k. split; [easy|].
          specialize (RZ eq_refl). cbn in RZ. specialize (F' k Hk). lia.
        * intros k Hk. destruct KR as [->|(k' & Hk' & L)].
          -- exists k. split; [easy|]. specialize (F' k Hk). lia.
          -- exists k'. split; [easy|]. destruct orr; [|easy]. specialize (F' k' Hk'). lia.
      + cbn [keys] in *. f_equal. apply andb_true_intro. split; [|apply orb_true_iff].
        * destruct KL as [->|(k & [<-|[]] & L)]; [specialize (RZ eq_refl); cbn in RZ; lia|lia].
        * destruct KR as [->|(k & [<-|[]] & L)]; [now left|right; lia].
  Qed.

  (** The candidates are all subs that may be hit. *)
  Definition covers (l all : list sub) : Prop :=
    exists rest, Permutation (l ++ rest) all /\ Forall (fun s => hit s = false) rest.
  Lemma covers_refl l : covers l l.
  Proof. exists []. now rewrite app_nil_r. Qed.
  Lemma covers_nil l : Forall (fun s => hit s = false) l -> covers [] l.
  Proof. intros H. exists l. now split. Qed.
  Lemma covers_app l l' a a' : covers l a -> covers l' a' -> covers (l ++ l') (a ++ a').
  Proof.
    intros (r & P & F) (r' & P' & F'). exists (r ++ r'). split.
    - rewrite <- P, <- P', <- !app_assoc. apply Permutation_app_head. rewrite !app_assoc. apply Permutation_app_tail, Permutation_app_comm.
    - apply Forall_app. now split.
  Qed.

  Theorem match_ok :
    (forall cn, ok_cnode ds cn -> Forall honest (subs_cnode cn) ->
       exists l, match_cnode ds p cn = Ok l /\ covers l (subs_cnode cn))
    /\ (forall ps, ok_pdir ds ps -> Forall honest (subs_pdir ps) ->
       exists l, match_pdir ds p ps = Ok l /\ covers l (subs_pdir ps))
    /\ (forall cd v d ol orr, nthN ds v = Some d -> splits (d_bound d) -> ok_cdir ds v (d_bound d) ol orr cd ->
       Forall honest (subs_cdir cd) ->
       exists l, match_cdir ds p v ol orr cd = Ok l /\ covers l (subs_cdir cd)).
  Proof.
    apply tree_mut; cbn [ok_cnode ok_pdir ok_cdir subs_cnode subs_pdir subs_cdir match_cnode match_pdir match_cdir].
    - intros m subs ps IH HO HH. apply Forall_app in HH. destruct HH as [H1 H2].
      destruct (IH HO H2) as (l & -> & C). eexists. split; [reflexivity|]. apply covers_app; auto using covers_refl.
    - intros _ _. exists []. split; [easy|apply covers_refl].
    - intros v sc cd IHcd rest IHr ((d & N & S & R & O) & OR) HH. apply Forall_app in HH. destruct HH as [H1 H2].
      rewrite N. destruct (read_ok v d N) as (o & RV & U & _).
      assert ((if d_undef d then Ok true else bind (read_var p v) (fun o0 => Ok (match o0 with Some _ => true | None => false end))) = Ok true) as ->.
      { destruct (d_undef d); [easy|]. rewrite RV. cbn [bind]. destruct o; [easy|]. now destruct (U eq_refl). }
      cbn [bind]. destruct (IHcd v d true true N S O H1) as (l & -> & C). cbn [bind].
      destruct (IHr OR H2) as (l' & -> & C'). cbn [bind]. eexists. split; [reflexivity|]. now apply covers_app.
    - intros b cn IH v d ol orr N S O HH. now apply IH.
    - intros b cn IHc l IHl r IHr v d ol orr N S (O & (RL & FL & OL) & (RR & FR & ORr)) HH.
      rewrite !Forall_app in HH. destruct HH as (H1 & H2 & H3).
      destruct (IHc O H1) as (a & -> & C). cbn [bind].
      destruct (enclosed_total v d (cd_bound l) ol false N (nr_tag _ _ _ _ RL) S) as (el & EL). rewrite EL. cbn [bind].
      assert (exists x, (if el then match_cdir ds p v ol false l else Ok []) = Ok x /\ covers x (subs_cdir l)) as (x & -> & CX).
      { destruct el; [now apply (IHl v d)|]. exists []. split; [easy|]. apply covers_nil.
        rewrite Forall_forall in *. intros s Hs. destruct (hit s) eqn:E; [|easy].
        rewrite (hit_enclosed v d (cd_bound l) ol false s) in EL; auto. discriminate. }
      cbn [bind].
      destruct (enclosed_total v d (cd_bound r) false orr N (nr_tag _ _ _ _ RR) S) as (er & ER). rewrite ER. cbn [bind].
      assert (exists y, (if er then match_cdir ds p v false orr r else Ok []) = Ok y /\ covers y (subs_cdir r)) as (y & -> & CY).
      { destruct er; [now apply (IHr v d)|]. exists []. split; [easy|]. apply covers_nil.
        rewrite Forall_forall in *. intros s Hs. destruct (hit s) eqn:E; [|easy].
        rewrite (hit_enclosed v d (cd_bound r) false orr s) in ER; auto. discriminate. }
      cbn [bind]. eexists. split; [reflexivity|]. apply covers_app; [easy|]. now apply covers_app.
  Qed.
End Search.

(** *** Insertion *)

(** Conditions on the declared ranges. *)
Record cfg_fine (c : config) : Prop := {
  cf_dom : forall d, In d (c_domains c) -> dom_fine (d_bound d);
  cf_float : floats_ok mode c c;
  cf_max : c_maxsplit c < SIZE_MAX - 1 }.

Lemma splitable_splits c v d : cfg_fine c -> nthN (c_domains c) v = Some d -> splitable c (d_bound d) = Ok true ->
  splits (d_bound d) /\ node_rng (d_bound d) (d_bound d) true true.
Proof.
  intros [F1 F2 F3] H S. pose proof (nthN_In _ _ _ H) as HI. specialize (F1 d HI).
  destruct (d_bound d) as [lo hi|w lo hi|lo hi|w lo hi| | ] eqn:E; cbn [dom_fine splits] in *; try easy.
  - destruct F1 as [-> ->]. split; [easy|]. constructor; cbn [blo bhi same_tag Z.b2z]; intros; try discriminate; auto; lia.
  - cbn [splitable] in S. destruct (Z.eqb_spec lo INT64_MIN), (Z.eqb_spec hi INT64_MAX); cbn in S; try discriminate S.
    split; [lia|]. constructor; cbn [blo bhi same_tag]; intros; try discriminate; auto; lia.
  - unfold floats_ok in F2. unfold may_split. destruct (can_split mode).
    + destruct (F2 v d d lo hi H H E) as [_ [K|(K & C1 & C2 & C3)]]; [rewrite E, S in K; discriminate K|]. rewrite E in K.
      split; [now split|]. destruct K as (_ & _ & K & _).
      constructor; cbn [blo bhi same_tag]; intros; try discriminate; auto; apply Z.le_refl.
    + specialize (F2 d lo hi HI E). rewrite E, S in F2. discriminate F2.
  - cbn [splitable] in S. destruct F1 as (T & -> & L). destruct (Z.eqb_spec hi SIZE_MAX); [discriminate|].
    injection S as S. rewrite Z.sub_0_r in S. unfold to_uint in S.
    rewrite Z.mod_small in S by (unfold SIZE_MAX, UINT64_MAX in *; lia).
    split; [split; [easy|]; split; [easy|]; lia|]. constructor; cbn [blo bhi same_tag]; intros; try discriminate; auto; lia.
Qed.

(** Moving subs to the children. *)
Lemma remove_first_none id l : ~ In id (map s_id l) -> remove_first id l = None.
Proof.
  induction l as [|x t IH]; cbn [remove_first map]; intros H; [easy|].
  destruct (Z.eqb_spec (s_id x) id) as [E|_]; [destruct H; now left|].
  rewrite IH; [easy|]. intros K. apply H. now right.
Qed.
Lemma distribute_ok choose rest : forall before tl tr stay ls rs,
  NoDup (map s_id (before ++ rest)) -> distribute choose before rest tl tr = Ok (stay, ls, rs) ->
  exists S L R, stay = before ++ S /\ ls = tl ++ L /\ rs = tr ++ R /\ Permutation (S ++ L ++ R) rest
    /\ Forall (fun s => choose s = Ok None) S /\ Forall (fun s => choose s = Ok (Some true)) L
    /\ Forall (fun s => choose s = Ok (Some false)) R.
Proof.
  induction rest as [|x rest IH]; intros before tl tr stay ls rs ND H; cbn [distribute] in H.
  - injection H as <- <- <-. exists [], [], []. rewrite !app_nil_r. sp; auto.
  - apply bind_ok in H. destruct H as (w & Ew & H). destruct w as [w|].
    + rewrite remove_first_none in H.
      2:{ rewrite map_app in ND. cbn in ND. apply NoDup_remove_2 in ND. intros K. apply ND, in_or_app. now left. }
      assert (NoDup (map s_id (before ++ rest))) as ND'.
      { rewrite map_app in *. cbn in ND. now apply NoDup_remove_1 in ND. }
      destruct w; apply IH in H; auto; destruct H as (S & L & R & -> & -> & -> & P & F1 & F2 & F3).
      * exists S, (x :: L), R. rewrite <- app_assoc. sp; auto.
        cbn [app]. rewrite <- Permutation_middle. now apply perm_skip.
      * exists S, L, (x :: R). rewrite <- app_assoc. sp; auto.
        rewrite app_assoc, <- Permutation_middle, <- app_assoc. now apply perm_skip.
    + apply IH in H.
      * destruct H as (S & L & R & -> & -> & -> & P & F1 & F2 & F3).
        exists (x :: S), L, R. rewrite <- app_assoc. sp; auto. cbn [app]. now apply perm_skip.
      * now rewrite <- app_assoc.
Qed.

(** The test of tree.c 190-227 puts a sub below a child only if the child's range contains its own. *)
Lemma enclosed_sub_in c s v b d ol orr : nthN (c_domains c) v = Some d -> splits (d_bound d) ->
  node_rng (d_bound d) b ol orr -> sub_is_enclosed c s v b = Ok true ->
  sub_in v (btype (d_bound d)) b ol orr s.
Proof.
  intros N S R H. unfold sub_is_enclosed in H. destruct (has_attr v s); [|discriminate].
  unfold get_domain in H. rewrite N in H. cbn [bind] in H.
  apply bind_ok in H. destruct H as (r & Er & H). unfold get_variable_bound in Er.
  apply bind_ok in Er. destruct Er as (pb & Eg & Er).
  pose proof (gvb_inner_kind v _ _ false pb Eg) as [K1 K2].
  exists pb. split; [easy|]. destruct R as [RT RL RO RH Rol Rorr RZ RF R1].
  destruct (d_bound d) as [lo hi|w lo hi|lo hi|w lo hi| | ], b as [lo0 hi0|w0 lo0 hi0|lo0 hi0|w0 lo0 hi0| | ];
    cbn in RT, S; try easy; try subst w0; injection Er as <-; injection H as H; cbn [btype blo bhi low_in high_in] in *.
  - apply andb_prop in H. destruct H as [HA HB]. split.
    + destruct (p_min pb) as [[m| | | ]|]; cbn [opt kind] in K1; try easy; cbn [pick_b] in HA.
      * right. eexists. split; [reflexivity|]. cbn [bvz]. destruct lo0, m; cbn in *; lia.
      * left. destruct ol; [easy|]. specialize (Rol eq_refl). destruct S as [-> _]. destruct lo0; cbn in *; easy.
    + destruct (p_max pb) as [[m| | | ]|]; cbn [opt kind] in K2; try easy; cbn [pick_b] in HB.
      * right. eexists. split; [reflexivity|]. cbn [bvz]. destruct hi0, m; cbn in *; lia.
      * left. destruct orr; [easy|]. specialize (Rorr eq_refl). destruct S as [_ ->]. destruct hi0; cbn in *; easy.
  - apply andb_prop in H. destruct H as [HA HB]. split.
    + destruct (p_min pb) as [[ |m| | ]|]; cbn [opt] in K1; try (destruct w; easy); cbn [pick_i] in HA.
      * right. eexists. split; [reflexivity|]. cbn [bvz]. lia.
      * left. destruct ol; [easy|]. specialize (Rol eq_refl). lia.
    + destruct (p_max pb) as [[ |m| | ]|]; cbn [opt] in K2; try (destruct w; easy); cbn [pick_i] in HB.
      * right. eexists. split; [reflexivity|]. cbn [bvz]. lia.
      * left. destruct orr; [easy|]. specialize (Rorr eq_refl). lia.
  - apply andb_prop in H. destruct H as [HA HB]. destruct S as (_ & S1 & S2 & _). destruct RF as (C1 & C2 & C3).
    apply canonical_good in S1, S2. apply coarse_good in C1, C2. split.
    + destruct (p_min pb) as [[ | |m| ]|]; cbn [opt kind] in K1; try contradiction; cbn [pick_f] in HA.
      * right. eexists. split; [reflexivity|]. eauto.
      * left. destruct ol; [reflexivity|]. specialize (Rol eq_refl). apply (leb_units _ _ C1 S1) in HA. lia.
    + destruct (p_max pb) as [[ | |m| ]|]; cbn [opt kind] in K2; try contradiction; cbn [pick_f] in HB.
      * right. eexists. split; [reflexivity|]. eauto.
      * left. destruct orr; [reflexivity|]. specialize (Rorr eq_refl). apply (leb_units _ _ S2 C2) in HB. lia.
  - apply andb_prop in H. destruct H as [HA HB]. split.
    + destruct (p_min pb) as [[ | | |m]|]; cbn [opt] in K1; try (destruct S as ([->|[->| ->]] & _); easy); cbn [pick_s] in HA.
      * right. eexists. split; [reflexivity|]. cbn [bvz]. lia.
      * left. destruct ol; [easy|]. specialize (Rol eq_refl). lia.
    + destruct (p_max pb) as [[ | | |m]|]; cbn [opt] in K2; try (destruct S as ([->|[->| ->]] & _); easy); cbn [pick_s] in HB.
      * right. eexists. split; [reflexivity|]. cbn [bvz]. lia.
      * left. destruct orr; [easy|]. specialize (Rorr eq_refl). lia.
Qed.

(** Halves of a range. *)
Lemma split_int lo hi : lo <= hi -> INT64_MIN <= lo -> hi <= INT64_MAX ->
  forall t r, split_value_bound (BInt t lo hi) = Ok r ->
  exists m m', r = (BInt t lo m, BInt t m' hi) /\ lo <= m < hi /\ lo < m' <= hi /\ m <= m' <= m + 1.
Proof.
  intros H1 H2 H3 t r H. cbn [split_value_bound] in H. unfold llabs_diff, ck64 in H.
  destruct (_ && _) in H; cbn [bind] in H; [|discriminate].
  destruct (_ && _) in H; cbn [bind] in H; [|discriminate].
  rewrite Z.abs_eq in H by lia.
  destruct (Z.gtb_spec (hi - lo) 2).
  - rewrite Z.quot_div_nonneg in H by lia. injection H as <-. do 2 eexists. split; [reflexivity|].
    assert (1 <= (hi - lo) / 2) by (apply Z.div_le_lower_bound; lia).
    assert ((hi - lo) / 2 < hi - lo) by (apply Z.div_lt; lia). lia.
  - destruct (Z.eqb_spec (hi - lo) 2).
    + apply bind_ok in H. destruct H as (m & Em & H). destruct (_ && _) in Em; [|discriminate].
      injection Em as <-. injection H as <-. do 2 eexists. split; [reflexivity|]. lia.
    + destruct (Z.eqb_spec (hi - lo) 1); [|discriminate]. injection H as <-. do 2 eexists. split; [reflexivity|]. lia.
Qed.
Lemma split_str lo hi : lo <= hi -> 0 <= lo -> hi <= SIZE_MAX ->
  forall t r, split_value_bound (BStr t lo hi) = Ok r ->
  exists m m', r = (BStr t lo m, BStr t m' hi) /\ lo <= m < hi /\ lo < m' <= hi /\ m <= m' <= m + 1.
Proof.
  intros H1 H2 H3 t r H. cbn [split_value_bound] in H. unfold SIZE_MAX, UINT64_MAX in H3.
  assert (to_uint 64 (hi - lo) = hi - lo) as E by (unfold to_uint; apply Z.mod_small; lia). rewrite E in H.
  destruct (Z.gtb_spec (hi - lo) 2).
  - assert (1 <= (hi - lo) / 2) by (apply Z.div_le_lower_bound; lia).
    assert ((hi - lo) / 2 < hi - lo) by (apply Z.div_lt; lia).
    assert (to_uint 64 (lo + (hi - lo) / 2) = lo + (hi - lo) / 2) as E' by (unfold to_uint; apply Z.mod_small; lia).
    rewrite E' in H. injection H as <-. do 2 eexists. split; [reflexivity|]. lia.
  - destruct (Z.eqb_spec (hi - lo) 2).
    + assert (to_uint 64 (lo + 1) = lo + 1) as E' by (unfold to_uint; apply Z.mod_small; lia).
      rewrite E' in H. injection H as <-. do 2 eexists. split; [reflexivity|]. lia.
    + destruct (Z.eqb_spec (hi - lo) 1); [|discriminate]. injection H as <-. do 2 eexists. split; [reflexivity|]. lia.
Qed.

Lemma split_rng dom b ol orr lb rb : splits dom -> node_rng dom b ol orr -> split_value_bound b = Ok (lb, rb) ->
  node_rng dom lb ol false /\ node_rng dom rb false orr.
Proof.
  intros S [RT RL RO RH Rol Rorr RZ RF R1] H.
  destruct dom as [lo hi|w lo hi|lo hi|w lo hi| | ], b as [lo0 hi0|w0 lo0 hi0|lo0 hi0|w0 lo0 hi0| | ];
    cbn [same_tag splits] in RT, S; try easy; try subst w0; cbn [blo bhi] in *.
  - destruct S as [-> ->]. destruct lo0, hi0; cbn [Z.b2z] in *; try lia; try discriminate. injection H as <- <-.
    split; constructor; cbn; intros; subst; try lia; auto.
  - apply split_int in H; try lia. destruct H as (m & m' & [= -> ->] & A & B & C).
    split; constructor; cbn [blo bhi same_tag]; intros; auto; lia.
  - destruct RF as (C1 & C2 & C3). apply split_float in H; auto. destruct H as (m & m' & [= -> ->] & CM & CM' & A & B & C & WW).
    split; constructor; cbn [blo bhi same_tag]; intros; auto; try lia; (split; [assumption|]; split; [assumption|]; intros Q; now apply WW, C3).
  - apply split_str in H; try lia. destruct H as (m & m' & [= -> ->] & A & B & C).
    split; constructor; cbn [blo bhi same_tag]; intros; auto; lia.
Qed.

(** The variable chosen for a new partition has a splittable range. *)
Lemma nthN_app_mid {A} (l : list A) x t : nthN (l ++ x :: t) (N.of_nat (length l)) = Some x.
Proof. rewrite nthN_nth, Nnat.Nat2N.id. rewrite nth_error_app2 by lia. now rewrite PeanoNat.Nat.sub_diag. Qed.
Definition hs_good (c : config) (acc : hs_acc) : Prop :=
  forall v, snd acc = Some v -> exists d, nthN (c_domains c) v = Some d /\ splitable c (d_bound d) = Ok true.
Lemma hs_step_good c used all s d j acc acc' : nthN (c_domains c) j = Some d -> hs_good c acc ->
  hs_step c used all s d j acc = Ok acc' -> hs_good c acc'.
Proof.
  intros N G H. unfold hs_step in H. destruct (negb _); [now injection H as <-|].
  apply bind_ok in H. destruct H as (sp & Es & H). destruct (sp && _) eqn:E; [|now injection H as <-].
  apply andb_prop in E. destruct E as [-> _]. apply bind_ok in H. destruct H as (score & _ & H).
  destruct acc as [[f best] var]. destruct (fgtb score best); injection H as <-.
  - intros v [= <-]. eauto.
  - exact G.
Qed.
Lemma hs_domains_good c used all s : forall t pre acc acc', c_domains c = pre ++ t -> hs_good c acc ->
  hs_domains c used all s t (N.of_nat (length pre)) acc = Ok acc' -> hs_good c acc'.
Proof.
  induction t as [|d t IH]; intros pre acc acc' E G H; cbn [hs_domains] in H; [now injection H as <-|].
  apply bind_ok in H. destruct H as (acc1 & H1 & H2).
  replace (N.of_nat (length pre) + 1)%N with (N.of_nat (length (pre ++ [d]))) in H2 by (rewrite app_length; cbn [length]; lia).
  eapply IH; [|eapply hs_step_good; [|exact G|exact H1]|exact H2].
  - now rewrite <- app_assoc.
  - rewrite E. apply nthN_app_mid.
Qed.
Lemma hs_subs_good c used all : forall rest acc acc', hs_good c acc ->
  hs_subs c used all rest acc = Ok acc' -> hs_good c acc'.
Proof.
  induction rest as [|s t IH]; intros acc acc' G H; cbn [hs_subs] in H; [now injection H as <-|].
  apply bind_ok in H. destruct H as (acc1 & H1 & H2). eapply IH; [|exact H2].
  eapply (hs_domains_good c used all s (c_domains c) []); eauto.
Qed.
Lemma next_highest_ok c used subs v : next_highest c used subs = Ok (Some v) ->
  exists d, nthN (c_domains c) v = Some d /\ splitable c (d_bound d) = Ok true.
Proof.
  intros H. unfold next_highest in H. apply bind_ok in H. destruct H as ([[f best] var] & H1 & H2).
  destruct f; [|discriminate]. destruct var; [|discriminate]. injection H2 as ->.
  eapply hs_subs_good in H1; [now apply H1|]. intros w. discriminate.
Qed.

(** *** Partitioning and clustering *)
Lemma update_capacity_ok c cn cn' : update_capacity c cn = Ok cn' ->
  exists m m' subs ps, cn = CNode m subs ps /\ cn' = CNode m' subs ps /\ cluster_capacity c (length subs) = Ok m'.
Proof.
  destruct cn as [m subs ps]. cbn [update_capacity]. intros H. apply bind_ok in H. destruct H as (m' & E & [= <-]).
  exists m, m', subs, ps. auto.
Qed.
Lemma pdir_app_ok ds v sc cd : forall ps, ok_pdir ds ps -> ok_pdir ds (PCons v sc cd PNil) -> ok_pdir ds (pdir_app ps v sc cd).
Proof. fix IH 1. intros [|w s d rest] H1 H2; cbn [pdir_app]; [exact H2|]. destruct H1 as [A B]. split; [exact A|]. now apply IH. Qed.
Lemma pdir_app_subs v sc cd : forall ps, subs_pdir (pdir_app ps v sc cd) = subs_pdir ps ++ subs_cdir cd.
Proof.
  fix IH 1. intros [|w s d rest]; cbn [pdir_app subs_pdir]; [now rewrite app_nil_r|]. rewrite IH. apply app_assoc.
Qed.

Definition ids (l : list sub) : list Z := map s_id l.
Lemma NoDup_perm_ids l l' : Permutation l l' -> NoDup (ids l) -> NoDup (ids l').
Proof. intros P. apply Permutation_NoDup. now apply Permutation_map. Qed.
Lemma NoDup_app_l {A} (l l' : list A) : NoDup (l ++ l') -> NoDup l.
Proof. induction l as [|x t IH]; cbn; intros H; [constructor|]. inversion H; subst. constructor; auto. intros K. apply H2, in_or_app. now left. Qed.
Lemma NoDup_app_r {A} (l l' : list A) : NoDup (l ++ l') -> NoDup l'.
Proof. induction l as [|x t IH]; cbn; intros H; [easy|]. inversion H; subst. auto. Qed.
Lemma ids_app l l' : ids (l ++ l') = ids l ++ ids l'.
Proof. apply map_app. Qed.

Theorem space_ok c (FC : cfg_fine c) : forall fuel,
  (forall used cn cn', ok_cnode (c_domains c) cn -> NoDup (ids (cn_subs cn)) ->
     space_partitioning fuel c used cn = Ok cn' ->
     ok_cnode (c_domains c) cn' /\ Permutation (subs_cnode cn') (subs_cnode cn))
  /\ (forall used v cd cd' d ol orr, nthN (c_domains c) v = Some d -> splits (d_bound d) ->
     node_rng (d_bound d) (cd_bound cd) ol orr -> ok_cdir (c_domains c) v (d_bound d) ol orr cd ->
     NoDup (ids (cn_subs (cd_cnode cd))) ->
     space_clustering fuel c used v cd = Ok cd' ->
     cd_bound cd' = cd_bound cd /\ ok_cdir (c_domains c) v (d_bound d) ol orr cd'
     /\ Permutation (subs_cdir cd') (subs_cdir cd)).
Proof.
  assert (forall cn cn', update_capacity c cn = Ok cn' -> ok_cnode (c_domains c) cn ->
    ok_cnode (c_domains c) cn' /\ subs_cnode cn' = subs_cnode cn) as UC.
  { intros cn cn' H HO. apply update_capacity_ok in H. destruct H as (m & m' & subs & ps & -> & -> & _). now split. }
  induction fuel as [|fuel [IHp IHc]]; [split; intros; discriminate|]. split.
  - intros used [m subs ps] cn' HO ND H. cbn [space_partitioning] in H.
    assert (forall r, update_capacity c (CNode m subs ps) = Ok r ->
      ok_cnode (c_domains c) r /\ Permutation (subs_cnode r) (subs_cnode (CNode m subs ps))) as KU.
    { intros r K. destruct (UC _ _ K HO) as [A B]. rewrite B. now split. }
    destruct (negb _); [now apply KU|].
    apply bind_ok in H. destruct H as (o & Eo & H). destruct o as [v|]; [|now apply KU].
    destruct (_ <? _); [now apply KU|]. clear KU.
    apply next_highest_ok in Eo. destruct Eo as (d & N & SP).
    destruct (splitable_splits c v d FC N SP) as [S RR].
    unfold get_domain in H. rewrite N in H. cbn [bind] in H.
    apply bind_ok in H. destruct H as ([[stay moved] ?] & ED & H).
    apply bind_ok in H. destruct H as (cd & EC & H).
    apply distribute_ok in ED; [|exact ND]. destruct ED as (S' & L & R & -> & -> & -> & P & _ & _ & FR).
    cbn [app] in *.
    assert (R = []) as ->.
    { destruct R as [|x R]; [easy|]. inversion FR; subst. destruct (has_attr v x); discriminate. }
    rewrite app_nil_r in P. cbn [cn_subs] in ND.
    pose proof (NoDup_perm_ids _ _ (Permutation_sym P) ND) as ND'. rewrite ids_app in ND'.
    apply (IHc _ _ _ _ d true true) in EC; auto.
    + destruct EC as (EB & OC & PC). apply IHp in H.
      * destruct H as [A B]. split; [easy|]. rewrite B. cbn [subs_cnode]. rewrite pdir_app_subs, PC.
        cbn [subs_cdir subs_cnode make_cnode subs_pdir]. rewrite app_nil_r, <- P.
        rewrite <- !app_assoc. apply Permutation_app_head. apply Permutation_app_comm.
      * cbn [ok_cnode]. apply pdir_app_ok; [exact HO|]. cbn [ok_pdir]. split; [|easy].
        exists d. rewrite EB. cbn [cd_bound]. sp; auto.
      * cbn [cn_subs]. eapply NoDup_app_l; eauto.
    + easy.
    + cbn [cd_cnode cn_subs make_cnode]. eapply NoDup_app_r; eauto.
  - intros used v cd cd' d ol orr N S RR HO ND H. cbn [space_clustering] in H.
    destruct (negb _); [injection H as <-; auto|].
    assert (forall cn cn2, ok_cnode (c_domains c) cn -> NoDup (ids (cn_subs cn)) ->
      bind (space_partitioning fuel c used cn) (fun cn1 => update_capacity c cn1) = Ok cn2 ->
      ok_cnode (c_domains c) cn2 /\ Permutation (subs_cnode cn2) (subs_cnode cn)) as PU.
    { intros cn cn2 O K E. apply bind_ok in E. destruct E as (cn1 & E1 & E2). apply IHp in E1; auto.
      destruct E1 as [A B]. destruct (UC _ _ E2 A) as [A' B']. rewrite B'. now split. }
    destruct cd as [b cn|b cn l r]; cbn [cd_bound cd_cnode] in *.
    + apply bind_ok in H. destruct H as (a & Ea & H). destruct a.
      * apply bind_ok in H. destruct H as (cn1 & E1 & H). apply bind_ok in H. destruct H as (cn2 & E2 & [= <-]).
        destruct (PU cn cn2) as [A B]; auto. now rewrite E1.
      * apply bind_ok in H. destruct H as ([lb rb] & ES & H). destruct cn as [m subs ps].
        apply bind_ok in H. destruct H as ([[stay ls] rs] & ED & H).
        apply bind_ok in H. destruct H as (cn1 & E1 & H). apply bind_ok in H. destruct H as (l & El & H).
        apply bind_ok in H. destruct H as (r & Er & H). apply bind_ok in H. destruct H as (cn2 & E2 & [= <-]).
        destruct (split_rng _ _ _ _ _ _ S RR ES) as [RL RRr].
        apply distribute_ok in ED; [|exact ND]. destruct ED as (S' & L & R & -> & -> & -> & P & _ & FL & FR).
        cbn [app] in *. cbn [cn_subs] in ND.
        pose proof (NoDup_perm_ids _ _ (Permutation_sym P) ND) as ND'. rewrite !ids_app in ND'.
        destruct (PU (CNode m S' ps) cn2) as [A B]; auto.
        { cbn [cn_subs]. eapply NoDup_app_l; eauto. }
        { now rewrite E1. }
        assert (Forall (sub_in v (btype (d_bound d)) lb ol false) L) as FL'.
        { rewrite Forall_forall in *. intros s Hs. specialize (FL s Hs). cbv beta in FL.
          apply (enclosed_sub_in c); auto. apply bind_ok in FL. destruct FL as (x & Ex & K). destruct x; [easy|].
          apply bind_ok in K. destruct K as (y & _ & K). destruct y; discriminate. }
        assert (Forall (sub_in v (btype (d_bound d)) rb false orr) R) as FR'.
        { rewrite Forall_forall in *. intros s Hs. specialize (FR s Hs). cbv beta in FR.
          apply (enclosed_sub_in c); auto. apply bind_ok in FR. destruct FR as (x & Ex & K). destruct x; [discriminate|].
          apply bind_ok in K. destruct K as (y & Ey & K). destruct y; [easy|discriminate]. }
        apply (IHc _ _ _ _ d ol false) in El; auto; [|easy|].
        2:{ cbn [cd_cnode cn_subs make_cnode]. eapply NoDup_app_l, NoDup_app_r; eauto. }
        apply (IHc _ _ _ _ d false orr) in Er; auto; [|easy|].
        2:{ cbn [cd_cnode cn_subs make_cnode]. eapply NoDup_app_r, NoDup_app_r; eauto. }
        destruct El as (BL & OL & PL), Er as (BR & OR & PR).
        cbn [subs_cdir subs_cnode subs_pdir make_cnode cd_bound] in PL, PR, BL, BR. rewrite app_nil_r in PL, PR.
        split; [easy|]. split.
        -- cbn [ok_cdir]. rewrite BL, BR. sp; auto; eapply Permutation_Forall; [apply Permutation_sym; eassumption|easy|apply Permutation_sym; eassumption|easy].
        -- cbn [subs_cdir]. rewrite B, PL, PR. cbn [subs_cnode]. rewrite <- P, <- !app_assoc.
           apply Permutation_app_head. rewrite (app_assoc L R (subs_pdir ps)). apply Permutation_app_comm.
    + apply bind_ok in H. destruct H as (cn1 & E1 & H). apply bind_ok in H. destruct H as (cn2 & E2 & [= <-]).
      cbn [ok_cdir] in HO. destruct HO as (O1 & O2 & O3).
      destruct (PU cn cn2) as [A B]; auto. { now rewrite E1. }
      split; [easy|]. split; [now cbn [ok_cdir]|]. cbn [subs_cdir]. now rewrite B.
Qed.

(** *** One insertion *)
Lemma perm_last {A} (l l' : list A) x : Permutation ((l ++ [x]) ++ l') (x :: l ++ l').
Proof. rewrite <- app_assoc. cbn [app]. symmetry. apply Permutation_middle. Qed.

Theorem ins_ok c (FC : cfg_fine c) fuel s :
  (forall cn, match cn with CNode _ _ ps =>
     forall used w ps', ok_pdir (c_domains c) ps -> NoDup (ids (s :: subs_pdir ps)) ->
       ins_pdir fuel c s used w ps = Ok ps' ->
       ok_pdir (c_domains c) ps' /\ Permutation (subs_pdir ps') (s :: subs_pdir ps) end)
  /\ (forall ps used w ps', ok_pdir (c_domains c) ps -> NoDup (ids (s :: subs_pdir ps)) ->
       ins_pdir fuel c s used w ps = Ok ps' ->
       ok_pdir (c_domains c) ps' /\ Permutation (subs_pdir ps') (s :: subs_pdir ps))
  /\ (forall cd used v cd' d ol orr, nthN (c_domains c) v = Some d -> splits (d_bound d) ->
       node_rng (d_bound d) (cd_bound cd) ol orr -> ok_cdir (c_domains c) v (d_bound d) ol orr cd ->
       NoDup (ids (s :: subs_cdir cd)) ->
       ins_cdir fuel c s used v cd = Ok cd' ->
       cd_bound cd' = cd_bound cd /\ ok_cdir (c_domains c) v (d_bound d) ol orr cd'
       /\ Permutation (subs_cdir cd') (s :: subs_cdir cd)).
Proof.
  apply tree_mut.
  - intros m subs ps IH. exact IH.
  - intros used w ps' _ _ H. discriminate.
  - intros v sc cd IHcd rest IHr used w ps' HO ND H. cbn [ins_pdir] in H. cbn [ok_pdir] in HO.
    destruct HO as ((d & N & S & RR & O) & OR). cbn [subs_pdir] in *.
    destruct (w =? v)%N.
    + apply bind_ok in H. destruct H as (cd' & E & H). apply bind_ok in H. destruct H as (sc' & _ & [= <-]).
      apply (IHcd _ _ _ d true true) in E; auto.
      * destruct E as (EB & OC & P). split.
        -- cbn [ok_pdir]. split; [|easy]. exists d. rewrite EB. sp; auto.
        -- cbn [subs_pdir]. now rewrite P.
      * rewrite app_comm_cons, ids_app in ND. eapply NoDup_app_l; eauto.
    + apply bind_ok in H. destruct H as (rest' & E & [= <-]). apply IHr in E; auto.
      * destruct E as [A B]. split; [cbn [ok_pdir]; eauto 10|]. cbn [subs_pdir]. rewrite B. symmetry. apply Permutation_middle.
      * eapply NoDup_app_r. rewrite <- ids_app. eapply NoDup_perm_ids; [|exact ND]. rewrite <- Permutation_middle. reflexivity.
  - intros b cn IHcn used v cd' d ol orr N S RR HO ND H. destruct cn as [m subs ps]. cbn [ins_cdir] in H.
    cbn [ok_cdir ok_cnode cd_bound] in HO, RR. cbn [subs_cdir subs_cnode] in ND.
    apply bind_ok in H. destruct H as (o & _ & H). destruct o as [w|].
    + apply bind_ok in H. destruct H as (ps' & E & [= <-]). apply IHcn in E; auto.
      * destruct E as [A B]. split; [easy|]. split; [exact A|]. cbn [subs_cdir subs_cnode]. rewrite B. symmetry. apply Permutation_middle.
      * eapply NoDup_app_r. rewrite <- ids_app. eapply NoDup_perm_ids; [|exact ND]. rewrite <- Permutation_middle. reflexivity.
    + apply (proj2 (space_ok c FC fuel)) with (d := d) (ol := ol) (orr := orr) in H; auto.
      * cbn [subs_cdir subs_cnode] in *. destruct H as (A & B & C). split; [easy|]. split; [easy|]. rewrite C. apply perm_last.
      * cbn [cd_cnode cn_subs]. eapply NoDup_app_l. rewrite <- ids_app. eapply NoDup_perm_ids; [|exact ND].
        symmetry. apply perm_last.
  - intros b cn IHcn l IHl r IHr used v cd' d ol orr N S RR HO ND H. destruct cn as [m subs ps]. cbn [ins_cdir] in H.
    cbn [ok_cdir ok_cnode cd_bound] in HO, RR. cbn [subs_cdir subs_cnode] in ND.
    destruct HO as (O1 & (RL & FL & OL) & (RR' & FR & ORr)).
    assert (NoDup (ids (s :: subs_cdir l)) /\ NoDup (ids (s :: subs_cdir r)) /\ NoDup (ids (s :: subs ++ subs_pdir ps))) as (ND1 & ND2 & ND3).
    { assert (NoDup (ids ((s :: subs_cdir l) ++ (subs ++ subs_pdir ps) ++ subs_cdir r))) as K1.
      { eapply NoDup_perm_ids; [|exact ND]. cbn [app]. apply perm_skip. rewrite !app_assoc. apply Permutation_app_tail.
        rewrite Permutation_app_comm. now rewrite !app_assoc. }
      assert (NoDup (ids ((s :: subs_cdir r) ++ (subs ++ subs_pdir ps) ++ subs_cdir l))) as K2.
      { eapply NoDup_perm_ids; [|exact ND]. cbn [app]. apply perm_skip. rewrite !app_assoc.
        rewrite Permutation_app_comm. now rewrite !app_assoc. }
      rewrite ids_app in K1, K2. rewrite app_comm_cons, ids_app in ND. repeat split; eapply NoDup_app_l; eauto. }
    apply bind_ok in H. destruct H as (el & EL & H). destruct el.
    { apply bind_ok in H. destruct H as (l' & E & [= <-]). apply (IHl _ _ _ d ol false) in E; auto.
      destruct E as (EB & OC & P). split; [easy|]. split.
      - cbn [ok_cdir ok_cnode]. rewrite EB. sp; auto.
        eapply Permutation_Forall; [apply Permutation_sym, P|]. constructor; [|easy]. eapply enclosed_sub_in; eauto.
      - cbn [subs_cdir]. rewrite P. cbn [app]. symmetry. apply Permutation_middle. }
    apply bind_ok in H. destruct H as (er & ER & H). destruct er.
    { apply bind_ok in H. destruct H as (r' & E & [= <-]). apply (IHr _ _ _ d false orr) in E; auto.
      destruct E as (EB & OC & P). split; [easy|]. split.
      - cbn [ok_cdir ok_cnode]. rewrite EB. sp; auto.
        eapply Permutation_Forall; [apply Permutation_sym, P|]. constructor; [|easy]. eapply enclosed_sub_in; eauto.
      - cbn [subs_cdir]. rewrite P, !app_assoc. symmetry. apply Permutation_middle. }
    apply bind_ok in H. destruct H as (o & _ & H). destruct o as [w|].
    + apply bind_ok in H. destruct H as (ps' & E & [= <-]). apply IHcn in E; auto.
      * destruct E as [A B]. split; [easy|]. split.
        -- cbn [ok_cdir ok_cnode]. sp; auto.
        -- cbn [subs_cdir subs_cnode]. rewrite B. rewrite <- Permutation_middle. reflexivity.
      * eapply NoDup_app_r. rewrite <- ids_app. eapply NoDup_perm_ids; [|exact ND3]. rewrite <- Permutation_middle. reflexivity.
    + apply (proj2 (space_ok c FC fuel)) with (d := d) (ol := ol) (orr := orr) in H; auto.
      * cbn [subs_cdir subs_cnode] in *. destruct H as (A & B & C). split; [easy|]. split; [easy|]. rewrite C.
        rewrite !app_assoc. rewrite <- (app_assoc subs). cbn [app]. do 3 (rewrite <- ?app_assoc). symmetry. cbn [app]. apply Permutation_middle.
      * cbn [ok_cdir ok_cnode]. sp; auto.
      * cbn [cd_cnode cn_subs]. eapply NoDup_app_l. rewrite <- ids_app. eapply NoDup_perm_ids; [|exact ND3].
        symmetry. apply perm_last.
Qed.

Theorem insert_root_ok c fuel s cn cn' : cfg_fine c -> ok_cnode (c_domains c) cn -> NoDup (ids (s :: subs_cnode cn)) ->
  insert_root fuel c s cn = Ok cn' -> ok_cnode (c_domains c) cn' /\ Permutation (subs_cnode cn') (s :: subs_cnode cn).
Proof.
  intros FC HO ND H. destruct cn as [m subs ps]. cbn [insert_root] in H. cbn [subs_cnode] in *.
  apply bind_ok in H. destruct H as (o & _ & H). destruct o as [w|].
  - apply bind_ok in H. destruct H as (ps' & E & [= <-]). apply (proj1 (proj2 (ins_ok c FC fuel s))) in E; auto.
    + destruct E as [A B]. split; [easy|]. cbn [subs_cnode]. rewrite B. symmetry. apply Permutation_middle.
    + eapply NoDup_app_r. rewrite <- ids_app. eapply NoDup_perm_ids; [|exact ND]. rewrite <- Permutation_middle. reflexivity.
  - apply (proj1 (space_ok c FC fuel)) in H; auto.
    + destruct H as [A B]. split; [easy|]. rewrite B. cbn [subs_cnode]. apply perm_last.
    + cbn [cn_subs]. eapply NoDup_app_l. rewrite <- ids_app. eapply NoDup_perm_ids; [|exact ND].
      symmetry. apply perm_last.
Qed.

(** Widening the declared ranges keeps the tree well formed. *)
Definition wider (b b' : bound) : Prop :=
  splits b -> splits b' /\ btype b' = btype b
    /\ (same_tag b b') /\ blo b' <= blo b /\ bhi b <= bhi b' .
Lemma same_tag_trans a b c : same_tag a b -> same_tag a c -> same_tag b c.
Proof. destruct a, b, c; cbn; try easy; congruence. Qed.
Lemma node_rng_wider dom dom' b ol orr : splits dom -> wider dom dom' -> node_rng dom b ol orr -> node_rng dom' b ol orr.
Proof.
  intros S W [RT RL RO RH Rol Rorr RZ RF R1]. destruct (W S) as (S' & _ & T & L & H).
  constructor; auto; try lia. eapply same_tag_trans; eauto.
Qed.
Theorem ok_wider ds ds' :
  (forall v d, nthN ds v = Some d -> exists d', nthN ds' v = Some d' /\ wider (d_bound d) (d_bound d')) ->
  (forall cn, ok_cnode ds cn -> ok_cnode ds' cn)
  /\ (forall ps, ok_pdir ds ps -> ok_pdir ds' ps)
  /\ (forall cd v dom dom' ol orr, splits dom -> wider dom dom' -> ok_cdir ds v dom ol orr cd -> ok_cdir ds' v dom' ol orr cd).
Proof.
  intros W. apply tree_mut; cbn [ok_cnode ok_pdir ok_cdir]; auto.
  - intros v sc cd IHcd rest IHr ((d & N & S & RR & O) & OR). split; [|auto].
    destruct (W v d N) as (d' & N' & WD). exists d'. destruct (WD S) as (S' & _). sp; auto.
    + exact (node_rng_wider _ _ _ _ _ S WD RR).
    + exact (IHcd _ _ _ _ _ S WD O).
  - intros b cn IHc l IHl r IHr v dom dom' ol orr S WD (O & (RL & FL & OL) & (RR & FR & OR)).
    destruct (WD S) as (S' & ET & _). rewrite ET. sp; auto.
    + exact (node_rng_wider _ _ _ _ _ S WD RL).
    + exact (IHl _ _ _ _ _ S WD OL).
    + exact (node_rng_wider _ _ _ _ _ S WD RR).
    + exact (IHr _ _ _ _ _ S WD OR).
Qed.
End Mode.
