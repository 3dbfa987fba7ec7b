(** A variable that is declared after insertions is ignored by the subscriptions inserted before. *)
From Coq Require Import ZArith NArith String Bool List Permutation Lia.
From Coq Require Import ZifyBool ZifyNat ZifyN.
From Verif Require Import Base Float Value Ast Config Assign Special Match Bound Tree PredMap Source Api Spec TreeSpec Hist.
From Verif Require Import BaseProofs ListProofs ResProofs PredProofs HistProofs AnswerProofs.
Import ListNotations.
Local Open Scope Z_scope.

(** The event without its values for an attribute. *)
Definition without (name : string) (ev : event) : event :=
  filter (fun p => negb (String.eqb (lower (fst p)) name)) ev.

Lemma lookup_without name x : lower x <> name -> forall ev, lookup (without name ev) x = lookup ev x.
Proof.
  intros H. induction ev as [|[n o] t IH]; [reflexivity|]. cbn [without filter lookup fst]. fold (without name t).
  destruct (String.eqb_spec (lower n) name) as [E|E]; cbn [negb].
  - rewrite IH. destruct (lookup t x); [reflexivity|]. destruct (String.eqb_spec (lower n) (lower x)); [congruence|reflexivity].
  - cbn [lookup]. now rewrite IH.
Qed.
Lemma decl_app_inv ds d x i d' : decl (ds ++ [d]) x = Some (i, d') ->
  decl ds x = Some (i, d') \/ i = N.of_nat (List.length ds) /\ d' = d /\ d_attr d = lower x.
Proof.
  intros H. destruct (decl ds x) as [[i0 d0]|] eqn:E.
  - left. unfold decl in *. now rewrite (decl_from_app [d] _ _ _ _ _ E) in H.
  - right. assert (forall ds j, decl_from ds (lower x) j = None -> decl_from (ds ++ [d]) (lower x) j = Some (i, d') ->
      i = (j + N.of_nat (List.length ds))%N /\ d' = d /\ d_attr d = lower x) as K.
    { clear. induction ds as [|a ds IH]; intros j; cbn [decl_from app List.length].
      - destruct (String.eqb_spec (d_attr d) (lower x)); [|discriminate]. intros _ [= <- <-]. repeat split; [lia|easy].
      - destruct (String.eqb _ _); [discriminate|]. intros A B. destruct (IH _ A B) as (-> & K). split; [lia|exact K]. }
    unfold decl in *. destruct (K _ _ E H) as (A & B). split; [lia|exact B].
Qed.

Section WithGeo.
  Context {G : Geo}.
  Lemma sem_atom_lookup cs ev ev' a : (forall x, In x (atom_attrs a) -> lookup ev' x = lookup ev x) ->
    sem_atom cs ev' a = sem_atom cs ev a.
  Proof.
    intros H.
    destruct a as [x|b|op x []|op x []|op x []|op [] x|op x []|[] x|ty ns vl w|op [x|] id s|la lo r|op x p];
      cbn [sem_atom atom_attrs In] in *; rewrite ?H by auto; try reflexivity.
  Qed.
  Lemma sem_lookup cs ev ev' x : (forall a, In a (src_attrs x) -> lookup ev' a = lookup ev a) -> sem cs ev' x = sem cs ev x.
  Proof.
    induction x as [a|x IH|x IHx y IHy|x IHx y IHy]; intros H; cbn [sem]; unfold src_attrs in *; cbn [src_atoms flat_map] in *.
    - apply sem_atom_lookup. intros z Z0. apply H. rewrite app_nil_r. exact Z0.
    - now rewrite IH.
    - rewrite flat_map_app in H. rewrite IHx, IHy; [reflexivity|..]; intros z Z0; apply H, in_or_app; auto.
    - rewrite flat_map_app in H. rewrite IHx, IHy; [reflexivity|..]; intros z Z0; apply H, in_or_app; auto.
  Qed.
  Lemma atom_attrs_declared ds cs a x : atom_ok ds cs a -> In x (atom_attrs a) -> declared ds x.
  Proof.
    assert (forall y t, has_type ds y t -> declared ds y) as K by (intros y t (v & d & D & _); now exists v, d).
    destruct a as [y|b|op y []|op y []|op y []|op [] y|op y []|[] y|ty ns vl w|op [y|] id s|la lo r|op y p];
      cbn [atom_ok atom_attrs In]; intros A B;
      repeat match goal with
        | H : _ /\ _ |- _ => destruct H
        | H : _ \/ _ |- _ => destruct H
        | H : False |- _ => destruct H
        end; subst; eauto.
  Qed.
  Lemma src_attrs_declared ds cs x a : src_ok ds cs x -> In a (src_attrs x) -> declared ds a.
  Proof.
    unfold src_ok, src_attrs. intros F H. apply in_flat_map in H. destruct H as (y & I & H).
    rewrite Forall_forall in F. eapply atom_attrs_declared; eauto.
  Qed.

  Lemma inv_log_ok {FM : TreeProofs.Floats} ds t pend log e : inv ds t pend log -> In e log -> src_ok ds (e_cs e) (e_src e).
  Proof.
    intros [ISG _ _ _ _ (V & l & _ & _ & EL & FS)] I. rewrite <- EL in I. apply in_map_iff in I.
    destruct I as ([s e'] & <- & I). rewrite Forall_forall in FS.
    pose proof (FS _ (in_or_app _ _ _ (or_introl I))) as S. cbn [snd]. eapply src_ok_sig; [|apply S]. now symmetry.
  Qed.

  Theorem late_ignored {fm} ds t pend log d ev :
    reach_in fm ds t pend log -> few_preds t -> decls_ok (ds ++ [d]) ->
    floats_ok fm (bt_cfg (betree_declare t d)) (bt_cfg (betree_declare t d)) -> fair fm (betree_declare t d) ev log ->
    (S (List.length ds) mod 64 <> 0)%nat -> (forall d', In d' ds -> d_attr d' <> d_attr d) ->
    event_ok (ds ++ [d]) ev -> complete (ds ++ [d]) ev ->
    exists r r', betree_search (betree_declare t d) ev make_report = Ok (true, r)
      /\ betree_search t (without (d_attr d) ev) make_report = Ok (true, r') /\ Permutation (r_subs r) (r_subs r').
  Proof.
    intros R FP D W FA M ND EO C.
    assert (forall x i d', decl ds x = Some (i, d') -> lower x <> d_attr d) as NL.
    { intros x i d' E L. apply decl_spec in E. destruct E as [N A]. apply nthN_In in N. apply (ND _ N). congruence. }
    assert (event_ok ds (without (d_attr d) ev)) as EO'.
    { intros n v I. apply filter_In in I. cbn [fst] in I. destruct I as [I L].
      destruct (String.eqb_spec (lower n) (d_attr d)) as [|L']; [discriminate L|].
      destruct (EO _ _ I) as (i & d' & E & V). destruct (decl_app_inv _ _ _ _ _ E) as [E'|(_ & _ & A)]; [eauto|congruence]. }
    assert (complete ds (without (d_attr d) ev)) as C'.
    { intros i d' N U. destruct (C i d') as (n & E & L); [|exact U|].
      { rewrite nthN_app_last. pose proof (nthN_Some_lt _ _ _ N). destruct (N.eqb_spec i (N.of_nat (List.length ds))); [lia|exact N]. }
      exists n. destruct (decl_app_inv _ _ _ _ _ E) as [E'|(A & _)].
      - split; [exact E'|]. rewrite lookup_without by eauto. exact L.
      - pose proof (nthN_Some_lt _ _ _ N). lia. }
    assert (fair fm t (without (d_attr d) ev) log) as FA'.
    { pose proof (iv_sig _ _ _ _ (reach_inv _ _ _ _ R)) as SG.
      unfold fair in *. rewrite Forall_forall in *. intros e He. destruct (FA e He) as (CA & RG & CL). split; [|split; [exact RG|]].
      { eapply short_ok_given; [|exact CA]. intros n Hn GN.
        pose proof (inv_log_ok _ _ _ _ _ (reach_inv _ _ _ _ R) He) as O.
        destruct (src_attrs_declared _ _ _ _ O Hn) as (v & d' & E). destruct GN as [(i & d0 & GD & GU)|GN]; [left|right].
        - cbn [betree_declare bt_cfg add_domain c_domains] in GD.
          destruct (decl_app_inv _ _ _ _ _ GD) as [GD'|(_ & _ & A)]; [now exists i, d0|]. exfalso. eapply NL; eauto.
        - rewrite lookup_without by eauto. exact GN. }
      destruct CL as [CL|CL]; [now left|right]. unfold clear in *.
      eapply Forall_impl; [|exact CL]. cbv beta. intros a CE n k f v d' K DC FR LK.
      assert (declared ds n) as (i & d0 & D0).
      { eapply declared_keeps; [apply sig_keeps; symmetry; exact SG|]. now exists v, d'. }
      rewrite lookup_without in LK by eauto.
      eapply CE; eauto. cbn [betree_declare bt_cfg add_domain c_domains]. unfold decl in *. exact (decl_from_app _ _ _ _ _ _ DC). }
    destruct (search_exact _ _ _ _ _ R FP EO' C' FA') as (r' & S' & P').
    destruct (@search_exact G fm (ds ++ [d]) (betree_declare t d) pend log ev) as (r & S0 & P0); auto using r_declare.
    exists r, r'. split; [exact S0|]. split; [exact S'|]. rewrite P0, P'.
    assert (hits (without (d_attr d) ev) log = hits ev log) as ->; [|reflexivity].
    unfold hits. f_equal. apply filter_ext_in. intros e I. apply sem_lookup. intros x X.
    pose proof (inv_log_ok _ _ _ _ _ (reach_inv _ _ _ _ R) I) as O.
    destruct (src_attrs_declared _ _ _ _ O X) as (v & d' & E). apply lookup_without. eauto.
  Qed.

  Theorem emptied {fm} ds t pend log ev : reach_in fm ds t pend log -> event_ok ds ev -> complete ds ev ->
    exists r, betree_search (empty_tree t) ev make_report = Ok (true, r) /\ r_subs r = [] /\ r_matched r = 0.
  Proof.
    intros R EO C. assert (few_preds (empty_tree t)) as FP by (unfold few_preds; cbn; lia).
    destruct (search_exact _ _ _ _ _ (r_empty _ _ _ _ R) FP EO C (Forall_nil _)) as (r & H & P). exists r. split; [exact H|].
    apply Permutation_sym, Permutation_nil in P. split; [exact P|].
    destruct (search_once _ _ _ _ _ (r_empty _ _ _ _ R) FP EO _ _ H) as [_ K]. now rewrite P in K.
  Qed.
End WithGeo.
