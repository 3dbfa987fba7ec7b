(** Searches in trees whose float ranges may be split. *)
From Coq Require Import ZArith NArith String Bool List Lia Permutation Sorted.
From Coq Require Import ZifyBool ZifyNat ZifyN.
From Verif Require Import Base Float Value Special Ast Match Config Assign Source Bound Tree PredMap RbTree Api Spec TreeSpec Hist.
From Verif Require Import BaseProofs ListProofs EvalProofs InternProofs ExtProofs ResProofs PassProofs PredProofs ShortProofs GvbProofs TreeProofs WideProofs HistProofs SearchProofs AnswerProofs.
Import ListNotations.
Local Open Scope Z_scope.

Section WithGeo.
  Context {G : Geo}.
  Variables (ds : list domain) (t : betree) (pend : list (sub * entry)) (log : list entry) (ev : event).
  Hypotheses (R : reach_in Splits ds t pend log) (HP : few_preds t) (HO : event_ok ds ev).

  Lemma split_inv : @inv G Splits ds t pend log.
  Proof. exact (@reach_inv G Splits ds t pend log R). Qed.
  Lemma split_nodup : NoDup (map e_id log).
  Proof. pose proof (@iv_ids G Splits _ _ _ _ split_inv) as N. unfold ids_of in N. now apply NoDup_app_l in N. Qed.

  Theorem split_search : complete ds ev ->
    exists r, betree_search t ev make_report = Ok (true, r) /\ NoDup (r_subs r) /\ r_matched r = Z.of_nat (length (r_subs r))
      /\ (forall id, In id (r_subs r) -> exists e, In e log /\ e_id e = id /\ (calm t ev e -> sem (e_cs e) ev (e_src e) = true))
      /\ (forall e, In e log -> calm t ev e -> range_ok false (e_src e) -> clear (c_domains (bt_cfg t)) ev (e_src e) ->
            (In (e_id e) (r_subs r) <-> sem (e_cs e) ev (e_src e) = true)).
  Proof.
    intros HC. destruct (search_decides ds t pend log ev R HP HO make_report) as [[_ [r E]]|[K _]]; [|contradiction].
    destruct (search_once ds t pend log ev R HP HO _ _ E) as [N M].
    exists r. sp; auto.
    - intros id H. exact (search_sound ds t pend log ev R HP HO _ _ _ E H).
    - intros e He CA RG CL. destruct (search_each ds t pend log ev R HP HO e HC He) as (r' & E' & K); [split; auto|].
      rewrite E in E'. injection E' as <-. exact K.
  Qed.
  Theorem split_search_exact : complete ds ev -> fair Splits t ev log ->
    exists r, betree_search t ev make_report = Ok (true, r) /\ Permutation (r_subs r) (hits ev log).
  Proof. exact (search_exact ds t pend log ev R HP HO). Qed.
  Theorem split_exists : complete ds ev ->
    exists b r, betree_exists t ev = Ok b /\ betree_search t ev make_report = Ok (true, r)
      /\ (b = true <-> r_subs r <> [])
      /\ (b = true -> exists e, In e log /\ (calm t ev e -> sem (e_cs e) ev (e_src e) = true))
      /\ (forall e, In e log -> fair_one Splits t ev e -> sem (e_cs e) ev (e_src e) = true -> b = true).
  Proof.
    intros HC. destruct (exists_agrees ds t pend log ev R HP HO HC) as (b & r & EB & E & K). exists b, r. sp; auto.
    - intros H. apply K in H. destruct (r_subs r) as [|id l] eqn:S; [congruence|].
      destruct (search_sound ds t pend log ev R HP HO _ _ id E) as (e & H1 & _ & H2); [rewrite S; now left|]. eauto.
    - intros e He HF T. apply K. destruct (search_each ds t pend log ev R HP HO e HC He HF) as (r' & E' & Q).
      rewrite E in E'. injection E' as <-. apply Q in T. intros N. rewrite N in T. destruct T.
  Qed.
  Theorem split_refuses r : ~ complete ds ev -> betree_search t ev r = Ok (false, r).
  Proof.
    intros HC. destruct (@inv_env G Splits _ _ _ _ _ split_inv HO) as (p & E & HV).
    unfold betree_search. rewrite E. cbn [bind]. destruct (validate_variables _ p) eqn:K; [|reflexivity].
    exfalso. now apply HC, HV.
  Qed.
End WithGeo.

(** Ranges whose widths are whole numbers are split like others. *)
Lemma whole_ok c c' : floats_ok WholeSplits c c' -> floats_ok Splits c c'.
Proof.
  intros F v d d' lo hi A B C. destruct (F v d d' lo hi A B C) as [F1 F2]. split; [exact F1|].
  destruct F2 as [F2|(F2 & F3 & F4 & _)]; [now left|]. right. sp; auto. discriminate.
Qed.
Lemma whole_reach ds t pend log : reach_in WholeSplits ds t pend log -> reach_in Splits ds t pend log.
Proof.
  intros R. induction R.
  - apply r_init; auto. now apply whole_ok.
  - eapply r_insert; eauto.
  - eapply r_refused; eauto.
  - eapply r_make; eauto. now apply whole_ok.
  - eapply r_make_refused; eauto.
  - eapply r_insert_sub; eauto.
  - eapply r_change; eauto. now apply whole_ok.
  - apply r_declare; auto. now apply whole_ok.
  - eapply r_empty; eauto.
Qed.
