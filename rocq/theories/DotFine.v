(** Trees that can be drawn: insertion and the other calls keep them so.  What a drawing shows. *)
From Coq Require Import ZArith NArith String Ascii Bool List Permutation Lia ZifyBool ZifyNat ZifyN.
From Verif Require Import Base BaseProofs Float Value Ast Config Assign Special Match Bound Tree TreeSpec TreeProofs Printer PredMap Source Api
  ExtProofs ObjProofs Linked LinkedApi DotFile.
From Verif Require Import DotSpec DotNames DotProofs.
Import ListNotations.
Local Open Scope list_scope.
Local Open Scope res_scope.

(** *** Calls keep trees drawable *)
Lemma splitable_ranged c b : splitable c b = Ok true -> ranged b.
Proof. now destruct b. Qed.
Lemma split_ranged b lb rb : split_value_bound b = Ok (lb, rb) -> ranged lb /\ ranged rb.
Proof.
  destruct b; cbn [split_value_bound]; intros H; try discriminate.
  - destruct (Bool.eqb _ _); [discriminate|]. now injection H as <- <-.
  - apply bind_ok in H. destruct H as (w & _ & H).
    destruct (_ >? _)%Z; [now injection H as <- <-|]. destruct (_ =? 2)%Z.
    + apply bind_ok in H. destruct H as (m & _ & H). now injection H as <- <-.
    + destruct (_ =? 1)%Z; [now injection H as <- <-|discriminate].
  - destruct (fgtb _ _); [now injection H as <- <-|]. destruct (feq _ _); [now injection H as <- <-|].
    destruct (feq _ _); [now injection H as <- <-|discriminate].
  - destruct (_ >? _)%Z; [now injection H as <- <-|]. destruct (_ =? 2)%Z; [now injection H as <- <-|].
    destruct (_ =? 1)%Z; [now injection H as <- <-|discriminate].
Qed.
Lemma fine_app c v sc cd : forall ps, fine_pdir c ps -> known c v -> fine_cdir c cd -> fine_pdir c (pdir_app ps v sc cd).
Proof. fix IH 1. destruct ps as [|w s d rest]; cbn [pdir_app fine_pdir]; [easy|]. intros (A & B & C) H K. auto. Qed.

Theorem space_fine c : forall fuel,
  (forall used cn cn', fine_cnode c cn -> space_partitioning fuel c used cn = Ok cn' -> fine_cnode c cn')
  /\ (forall used v cd cd', fine_cdir c cd -> space_clustering fuel c used v cd = Ok cd' -> fine_cdir c cd').
Proof.
  assert (UC : forall cn cn', update_capacity c cn = Ok cn' -> fine_cnode c cn -> fine_cnode c cn').
  { intros cn cn' H HO. apply update_capacity_ok in H. destruct H as (m & m' & subs & ps & -> & -> & _). exact HO. }
  induction fuel as [|fuel [IHp IHc]]; [split; intros; discriminate|]. split.
  - intros used [m subs ps] cn' HF H. cbn [space_partitioning] in H.
    destruct (negb _); [now apply (UC _ _ H)|].
    apply bind_ok in H. destruct H as (o & Eo & H). destruct o as [v|]; [|now apply (UC _ _ H)].
    destruct (_ <? _)%Z; [now apply (UC _ _ H)|].
    apply next_highest_ok in Eo. destruct Eo as (d & N & SP).
    unfold get_domain in H. rewrite N in H. cbn [bind] in H.
    apply bind_ok in H. destruct H as ([[stay moved] ?] & ED & H).
    apply bind_ok in H. destruct H as (cd & EC & H).
    eapply IHp; [|exact H]. cbn [fine_cnode] in *. apply fine_app; [easy|now exists d|].
    eapply IHc; [|exact EC]. cbn [fine_cdir make_cnode fine_cnode fine_pdir]. split; [now apply (splitable_ranged c)|easy].
  - intros used v cd cd' HF H. cbn [space_clustering] in H.
    destruct (negb _); [injection H as <-; auto|].
    destruct cd as [b cn|b cn l r]; cbn [cd_bound cd_cnode fine_cdir] in *.
    + apply bind_ok in H. destruct H as (a & Ea & H). destruct a.
      * apply bind_ok in H. destruct H as (cn1 & E1 & H). apply bind_ok in H. destruct H as (cn2 & E2 & [= <-]).
        cbn [fine_cdir]. split; [easy|]. eapply UC; [exact E2|]. eapply IHp; [|exact E1]. easy.
      * apply bind_ok in H. destruct H as ([lb rb] & ES & H). destruct cn as [m subs ps].
        apply bind_ok in H. destruct H as ([[stay ls] rs] & ED & H).
        apply bind_ok in H. destruct H as (cn1 & E1 & H). apply bind_ok in H. destruct H as (l & El & H).
        apply bind_ok in H. destruct H as (r & Er & H). apply bind_ok in H. destruct H as (cn2 & E2 & [= <-]).
        destruct (split_ranged _ _ _ ES) as (RL & RR). cbn [fine_cdir]. split; [easy|]. split; [|split].
        -- eapply UC; [exact E2|]. eapply IHp; [|exact E1]. easy.
        -- eapply IHc; [|exact El]. easy.
        -- eapply IHc; [|exact Er]. easy.
    + apply bind_ok in H. destruct H as (cn1 & E1 & H). apply bind_ok in H. destruct H as (cn2 & E2 & [= <-]).
      cbn [fine_cdir]. destruct HF as (A & B & C). split; [easy|]. split; [|easy]. eapply UC; [exact E2|]. now apply IHp in E1.
Qed.
Theorem ins_fine c fuel s :
  (forall cn, match cn with CNode _ _ ps =>
     forall used w ps', fine_pdir c ps -> ins_pdir fuel c s used w ps = Ok ps' -> fine_pdir c ps' end)
  /\ (forall ps used w ps', fine_pdir c ps -> ins_pdir fuel c s used w ps = Ok ps' -> fine_pdir c ps')
  /\ (forall cd used v cd', fine_cdir c cd -> ins_cdir fuel c s used v cd = Ok cd' -> fine_cdir c cd').
Proof.
  apply tree_mut.
  - intros m subs ps IH. exact IH.
  - intros used w ps' _ H. discriminate.
  - intros v sc cd IHcd rest IHr used w ps' HF H. cbn [ins_pdir] in H. cbn [fine_pdir] in HF. destruct HF as (F1 & F2 & F3).
    destruct (w =? v)%N.
    + apply bind_ok in H. destruct H as (cd' & E & H). apply bind_ok in H. destruct H as (sc' & ES & [= <-]).
      cbn [fine_pdir]. split; [easy|]. split; [|easy]. eapply IHcd; eauto.
    + apply bind_ok in H. destruct H as (rest' & E & [= <-]). cbn [fine_pdir]. split; [easy|]. split; [easy|]. eapply IHr; eauto.
  - intros b cn IHcn used v cd' HF H. destruct cn as [m subs ps]. cbn [ins_cdir] in H. cbn [fine_cdir fine_cnode] in *.
    apply bind_ok in H. destruct H as (o & _ & H). destruct o as [w|].
    + apply bind_ok in H. destruct H as (ps' & E & [= <-]). cbn [fine_cdir fine_cnode]. split; [easy|]. eapply IHcn; eauto. easy.
    + eapply (proj2 (space_fine c fuel)); [|exact H]. easy.
  - intros b cn IHcn l IHl r IHr used v cd' HF H. destruct cn as [m subs ps]. cbn [ins_cdir] in H. cbn [fine_cdir fine_cnode] in *.
    destruct HF as (F1 & F2 & F3 & F4).
    apply bind_ok in H. destruct H as (el & EL & H). destruct el.
    { apply bind_ok in H. destruct H as (l' & E & [= <-]). cbn [fine_cdir fine_cnode]. split; [easy|]. split; [easy|]. split; [|easy]. eapply IHl; eauto. }
    apply bind_ok in H. destruct H as (er & ER & H). destruct er.
    { apply bind_ok in H. destruct H as (r' & E & [= <-]). cbn [fine_cdir fine_cnode]. split; [easy|]. split; [easy|]. split; [easy|]. eapply IHr; eauto. }
    apply bind_ok in H. destruct H as (o & _ & H). destruct o as [w|].
    + apply bind_ok in H. destruct H as (ps' & E & [= <-]). cbn [fine_cdir fine_cnode]. split; [easy|]. split; [|easy]. eapply IHcn; eauto.
    + eapply (proj2 (space_fine c fuel)); [|exact H]. easy.
Qed.
Lemma insert_root_fine c fuel s cn cn' : fine_cnode c cn -> insert_root fuel c s cn = Ok cn' -> fine_cnode c cn'.
Proof.
  intros HF H. destruct cn as [m subs ps]. cbn [insert_root fine_cnode] in *.
  apply bind_ok in H. destruct H as (o & _ & H). destruct o as [w|].
  - apply bind_ok in H. destruct H as (ps' & E & [= <-]). cbn [fine_cnode]. eapply (proj1 (proj2 (ins_fine c fuel s))); eauto.
  - eapply (proj1 (space_fine c fuel)) in H; eauto.
Qed.

(** More variables. *)
Lemma fine_more c c' : (forall v, known c v -> known c' v) ->
  (forall cn, fine_cnode c cn -> fine_cnode c' cn) /\ (forall ps, fine_pdir c ps -> fine_pdir c' ps) /\ (forall cd, fine_cdir c cd -> fine_cdir c' cd).
Proof.
  intros K. apply tree_mut.
  - intros m subs ps IH F. now apply IH.
  - easy.
  - intros v sc cd IHc rest IHr (A & B & C). cbn [fine_pdir]. split; [now apply K|]. split; [now apply IHc|now apply IHr].
  - intros b cn IH (A & B). cbn [fine_cdir]. split; [exact A|now apply IH].
  - intros b cn IH l IHl r IHr (A & B & C & D). cbn [fine_cdir]. split; [exact A|]. split; [now apply IH|]. split; [now apply IHl|now apply IHr].
Qed.
Lemma ext_known c c' v : ext c c' -> known c v -> known c' v.
Proof. intros X (d & N). destruct (ext_dom _ _ _ _ X N) as (d' & N' & _). now exists d'. Qed.
Lemma fine_ext c c' cn : ext c c' -> fine_cnode c cn -> fine_cnode c' cn.
Proof. intros X. apply fine_more. intros v. now apply ext_known. Qed.

Definition fine_tree (t : betree) : Prop := fine_cnode (bt_cfg t) (bt_root t).
Lemma insert_sub_fine t s t' : fine_tree t -> insert_sub t s = Ok t' -> fine_tree t'.
Proof.
  unfold insert_sub, fine_tree. intros F H. apply bind_ok in H. destruct H as (r & E & [= <-]). cbn [bt_cfg bt_root].
  eapply insert_root_fine; eauto.
Qed.
Lemma insert_expr_fine t id cs e b t' : fine_tree t -> insert_expr t id cs e = Ok (b, t') -> fine_tree t'.
Proof.
  unfold insert_expr. intros F H. cbv zeta in H. apply bind_ok in H. destruct H as (ok & _ & H).
  destruct ok; [|now injection H as <- <-]. cbn [negb] in H.
  destruct (assign_constants cs _) as [e1|]; [|now injection H as <- <-].
  apply bind_ok in H. destruct H as ((e2 & c2) & E2 & H). apply bind_ok in H. destruct H as ((e3 & c3) & E3 & H).
  apply bind_ok in H. destruct H as ((e4 & c4) & E4 & H). apply bind_ok in H. destruct H as ((e5 & m5) & E5 & H).
  apply bind_ok in H. destruct H as (s & Es & H). apply bind_ok in H. destruct H as (t1 & E6 & [= <- <-]).
  eapply insert_sub_fine; [|exact E6]. unfold fine_tree in *. cbn [bt_cfg bt_root]. eapply fine_ext; [|exact F].
  eapply ext_trans; [eapply assign_str_ext; eauto|]. eapply ext_trans; [eapply assign_ie_ext; eauto|eapply fix_ext; eauto].
Qed.
Lemma make_sub_fine t id cs e o t' : fine_tree t -> make_sub_expr t id cs e = Ok (o, t') -> fine_tree t'.
Proof.
  unfold make_sub_expr. intros F H. cbv zeta in H. apply bind_ok in H. destruct H as (ok & _ & H).
  destruct ok; [|now injection H as <- <-]. cbn [negb] in H.
  apply bind_ok in H. destruct H as ((e2 & c2) & E2 & H). apply bind_ok in H. destruct H as ((e3 & c3) & E3 & H).
  apply bind_ok in H. destruct H as ((e4 & c4) & E4 & H).
  assert (X : ext (bt_cfg t) c4).
  { eapply ext_trans; [eapply assign_str_ext; eauto|]. eapply ext_trans; [eapply assign_ie_ext; eauto|eapply fix_ext; eauto]. }
  apply bind_ok in H. destruct H as (ok & _ & H).
  destruct ok; cbn [negb] in H; [|injection H as <- <-; unfold fine_tree in *; cbn [set_cfg bt_cfg bt_root]; eapply fine_ext; eauto].
  destruct (assign_constants cs _) as [e5|]; [|injection H as <- <-; unfold fine_tree in *; cbn [set_cfg bt_cfg bt_root]; eapply fine_ext; eauto].
  apply bind_ok in H. destruct H as (c6 & E6 & H). apply bind_ok in H. destruct H as ((e7 & m7) & E7 & H).
  apply bind_ok in H. destruct H as (s & Es & [= <- <-]). unfold fine_tree in *. cbn [bt_cfg bt_root].
  eapply fine_ext; [|exact F]. eapply ext_trans; [exact X|]. eapply change_ext; eauto.
Qed.
Lemma change_fine t e t' : fine_tree t -> change_boundaries_expr t e = Ok t' -> fine_tree t'.
Proof.
  unfold change_boundaries_expr. intros F H. cbv zeta in H.
  apply bind_ok in H. destruct H as ((e2 & c2) & E2 & H). apply bind_ok in H. destruct H as ((e3 & c3) & E3 & H).
  apply bind_ok in H. destruct H as ((e4 & c4) & E4 & H). apply bind_ok in H. destruct H as (c5 & E5 & [= <-]).
  unfold fine_tree in *. cbn [set_cfg bt_cfg bt_root]. eapply fine_ext; [|exact F].
  eapply ext_trans; [eapply assign_str_ext; eauto|]. eapply ext_trans; [eapply assign_ie_ext; eauto|].
  eapply ext_trans; [eapply fix_ext; eauto|eapply change_ext; eauto].
Qed.
Lemma declare_fine t d : fine_tree t -> fine_tree (betree_declare t d).
Proof.
  unfold fine_tree. cbn [betree_declare set_cfg bt_cfg bt_root]. apply fine_more. intros v (x & N). exists x.
  cbn [add_domain c_domains]. now apply nthN_app1.
Qed.

Section Run.
  Context {G : Geo}.
  Lemma call_fine st k a st' : fine_tree (v_tree st) -> v_call st k = Ok (a, st') -> fine_tree (v_tree st').
  Proof.
    intros F H. destruct k; cbn [v_call] in H.
    - apply bind_ok in H. destruct H as ((b & t) & E & [= <- <-]). eapply insert_expr_fine; eauto.
    - apply bind_ok in H. destruct H as ((o & t) & E & H). apply make_sub_fine in E; [|exact F]. destruct o; now injection H as <- <-.
    - destruct (nth_error _ _) as [(s, u)|]; [|discriminate]. apply bind_ok in H. destruct H as (t & E & [= <- <-]).
      eapply insert_sub_fine; eauto.
    - apply bind_ok in H. destruct H as (t & E & [= <- <-]). eapply change_fine; eauto.
    - injection H as <- <-. now apply declare_fine.
    - injection H as <- <-. exact I.
    - apply bind_ok in H. destruct H as ((b & r) & E & [= <- <-]). exact F.
    - apply bind_ok in H. destruct H as (b & E & [= <- <-]). exact F.
  Qed.
  Lemma run_fine l : forall st r st', fine_tree (v_tree st) -> v_run st l = Ok (r, st') -> fine_tree (v_tree st').
  Proof.
    induction l as [|k l IH]; intros st r st' F H; cbn [v_run] in H; [now injection H as <- <-|].
    apply bind_ok in H. destruct H as ((a & st1) & E & H). apply bind_ok in H. destruct H as ((r1 & st2) & E1 & [= <- <-]).
    eapply IH; [|exact E1]. eapply call_fine; eauto.
  Qed.
End Run.

(** *** What a drawing shows *)
Lemma ids_app l l' : ids_shown (l ++ l') = ids_shown l ++ ids_shown l'.
Proof. apply flat_map_app. Qed.
Lemma not_drawn T : drawn T = false -> subs_cnode T = [].
Proof. destruct T as [m [|s l] [|v sc cd rest]]; now cbn. Qed.

Section Shown.
  Context (c : config).
  Lemma ids_nodes :
    (forall T root t, ids_shown (nodes_cnode c root t T) = map s_id (subs_cnode T))
    /\ (forall ps t, ids_shown (nodes_pdir c t ps) = map s_id (subs_pdir ps))
    /\ (forall D s, ids_shown (nodes_cdir c s D) = map s_id (subs_cdir D)).
  Proof.
    assert (W : forall T s b, (forall root t, ids_shown (nodes_cnode c root t T) = map s_id (subs_cnode T)) ->
      ids_shown (if drawn T then nodes_cnode c false (to_range s b) T else []) = map s_id (subs_cnode T)).
    { intros T s b H. destruct (drawn T) eqn:E; [apply H|]. now rewrite (not_drawn _ E). }
    apply tree_mut.
    - intros m subs ps IH root t. cbn [nodes_cnode subs_cnode]. rewrite map_app.
      transitivity (ids_shown (match subs with [] => [] | _ => [ISubs ("lnode_" ++ t)%string (map s_id subs)] end)
        ++ ids_shown (match ps with PNil => [] | _ => nodes_pdir c t ps end)).
      + destruct subs, ps; cbn [ids_shown flat_map app]; rewrite ?app_nil_r; reflexivity.
      + f_equal; [destruct subs; cbn; now rewrite ?app_nil_r|]. rewrite <- (IH t). now destruct ps.
    - reflexivity.
    - intros v sc D IHD rest IHR t. cbn [nodes_pdir subs_pdir]. rewrite map_app, <- (IHD (to_pnode c t v)), <- (IHR t), <- ids_app. reflexivity.
    - intros b T IH s. cbn [nodes_cdir subs_cdir]. now apply W.
    - intros b T IH l IHl r IHr s. cbn [nodes_cdir subs_cdir]. rewrite !map_app, !ids_app, W by exact IH. now rewrite IHl, IHr.
  Qed.
  Lemma ids_edges :
    (forall T root t, ids_shown (edges_cnode c root t T) = [] /\ ids_shown (ranks_cnode c t T) = [])
    /\ (forall ps t, ids_shown (edges_pdir c t ps) = [] /\ ids_shown (ranks_pdir c t ps) = [])
    /\ (forall D s table, ids_shown (edges_cdir c s table D) = [] /\ ids_shown (ranks_cdir c s D) = []).
  Proof.
    apply tree_mut.
    - intros m subs ps IH root t. destruct (IH t) as (A & B). cbn [edges_cnode ranks_cnode]. split.
      + destruct subs, ps; cbn [ids_shown flat_map app]; try reflexivity; exact A.
      + destruct ps; [reflexivity|exact B].
    - easy.
    - intros v sc D IHD rest IHR t. cbn [edges_pdir ranks_pdir]. cbv zeta.
      destruct (IHD (to_pnode c t v) ("cdir_" ++ to_range (to_pnode c t v) (cd_bound D))%string) as (A & B). destruct (IHR t) as (A' & B').
      split; [change (ids_shown (edges_cdir c (to_pnode c t v) ("cdir_" ++ to_range (to_pnode c t v) (cd_bound D))%string D ++ edges_pdir c t rest) = [])
        |change (ids_shown (ranks_cdir c (to_pnode c t v) D ++ ranks_pdir c t rest) = [])]; rewrite ids_app.
      + now rewrite A, A'.
      + now rewrite B, B'.
    - intros b T IH s table. destruct (IH false (to_range s b)) as (A & B). cbn [edges_cdir ranks_cdir]. destruct (drawn T); [|easy]. split; [exact A|exact B].
    - intros b T IH l IHl r IHr s table. destruct (IH false (to_range s b)) as (A & B). cbn [edges_cdir ranks_cdir]. rewrite !ids_app.
      destruct (IHl s table) as (Al & Bl), (IHr s table) as (Ar & Br). rewrite Al, Ar, Bl, Br, !app_nil_r. destruct (drawn T); [|easy]. split; [exact A|exact B].
  Qed.
  Theorem ids_drawing T : ids_shown (drawing c T) = map s_id (subs_cnode T).
  Proof.
    unfold drawing. rewrite !ids_app, (proj1 ids_nodes). destruct (proj1 ids_edges T true ""%string) as (-> & ->). now rewrite !app_nil_r.
  Qed.

  (** Every range of a cdir is in its table. *)
  Fixpoint bounds_of (D : cdir) : list bound :=
    match D with CLeaf b _ => [b] | CSplit b _ l r => b :: bounds_of l ++ bounds_of r end.
  Lemma bounds_level s D b : In b (bounds_of D) ->
    exists d, (d < height D)%nat /\ In (Some (("cdir_" ++ to_range s b)%string, shown_range b)) (level_of s d (Some D)).
  Proof.
    revert b. induction D as [b0 T|b0 T l IHl r IHr]; intros b I; cbn [bounds_of height] in *.
    - destruct I as [<-|[]]. exists O. split; [lia|]. now left.
    - destruct I as [<-|I]; [exists O; split; [lia|now left]|]. apply in_app_or in I. destruct I as [I|I].
      + destruct (IHl _ I) as (d & L & K). exists (S d). split; [lia|]. cbn [level_of]. apply in_or_app. now left.
      + destruct (IHr _ I) as (d & L & K). exists (S d). split; [lia|]. cbn [level_of]. apply in_or_app. now right.
  Qed.

  Lemma table_ports s D table l b : In (ITable table (rows_of s D)) l -> In b (bounds_of D) ->
    In (table, ("cdir_" ++ to_range s b)%string) (ports_shown l).
  Proof.
    intros I J. destruct (bounds_level s D b J) as (d & L & K). unfold ports_shown. apply in_flat_map.
    exists (ITable table (rows_of s D)). split; [exact I|]. apply in_flat_map.
    exists (Some (("cdir_" ++ to_range s b)%string, shown_range b)). split; [|now left].
    apply in_concat. exists (level_of s d (Some D)). split; [|exact K]. unfold rows_of.
    apply (in_map (fun d => level_of s d (Some D))). apply in_seq. lia.
  Qed.
  Lemma node_in name attrs l : In (INode name attrs) l -> In name (nodes_shown l).
  Proof. intros I. unfold nodes_shown. apply in_flat_map. exists (INode name attrs). split; [exact I|now left]. Qed.
  Lemma cnode_in root t T l : incl (nodes_cnode c root t T) l -> In (cnode_name root t) (nodes_shown l).
  Proof. intros I. destruct T. apply (node_in _ cnode_style), I. now left. Qed.

  Lemma ranks_in s D l : incl (nodes_cdir c s D) l -> forall first, Forall (fun x => In (snd x) (nodes_shown l)) (rank_of s first D).
  Proof.
    assert (W : forall T b first, incl (if drawn T then nodes_cnode c false (to_range s b) T else []) l ->
      Forall (fun x => In (snd x) (nodes_shown l)) (if drawn T then [(negb first, cnode_name false (to_range s b))] else [])).
    { intros T b first I. destruct (drawn T); [|constructor]. constructor; [|constructor]. cbn [snd]. now apply (cnode_in _ _ T). }
    induction D as [b T|b T x IHx y IHy]; intros I first; cbn [nodes_cdir rank_of] in *; [now apply W|].
    rewrite !Forall_app. split; [|split].
    - apply W. intros z Z. apply I. apply in_or_app. now left.
    - apply IHx. intros z Z. apply I. apply in_or_app. right. apply in_or_app. now left.
    - apply IHy. intros z Z. apply I. apply in_or_app. right. apply in_or_app. now right.
  Qed.
  Lemma pnodes_in t ps l : incl (nodes_pdir c t ps) l ->
    Forall (fun v => In ("pnode_" ++ to_pnode c t v ++ "_fake")%string (nodes_shown l)) (pnodes_of t ps).
  Proof.
    revert ps. fix IH 1. intros [|v sc D rest] I; cbn [pnodes_of nodes_pdir] in *; [constructor|]. constructor.
    - apply (node_in _ fake_style), I. right. now left.
    - apply IH. intros z Z. apply I. right. right. right. apply in_or_app. now right.
  Qed.
  Lemma commas_in (P : string -> Prop) l : Forall P l -> Forall (fun x => P (snd x)) (commas l).
  Proof.
    intros F. destruct F as [|x l A F]; cbn [commas]; constructor; [exact A|]. induction F; cbn [map]; constructor; auto.
  Qed.

  Lemma decl_all :
    (forall T root t l, incl (nodes_cnode c root t T) l -> Forall (declared l) (edges_cnode c root t T ++ ranks_cnode c t T))
    /\ (forall ps t l, incl (nodes_pdir c t ps) l -> Forall (declared l) (edges_pdir c t ps ++ ranks_pdir c t ps))
    /\ (forall D s table l, incl (nodes_cdir c s D) l ->
         (forall b, In b (bounds_of D) -> In (table, ("cdir_" ++ to_range s b)%string) (ports_shown l)) ->
         Forall (declared l) (edges_cdir c s table D ++ ranks_cdir c s D)).
  Proof.
    assert (W : forall T s b table l,
      (forall root t l, incl (nodes_cnode c root t T) l -> Forall (declared l) (edges_cnode c root t T ++ ranks_cnode c t T)) ->
      incl (if drawn T then nodes_cnode c false (to_range s b) T else []) l ->
      In (table, ("cdir_" ++ to_range s b)%string) (ports_shown l) ->
      Forall (declared l) (if drawn T then IPort table ("cdir_" ++ to_range s b) (cnode_name false (to_range s b)) :: edges_cnode c false (to_range s b) T else [])
      /\ Forall (declared l) (if drawn T then ranks_cnode c (to_range s b) T else [])).
    { intros T s b table l H I J. destruct (drawn T); [|easy]. specialize (H false (to_range s b) l I). apply Forall_app in H. destruct H as (H1 & H2).
      split; [|exact H2]. constructor; [|exact H1]. cbn [declared]. split; [exact J|]. now apply (cnode_in _ _ T). }
    apply tree_mut.
    - intros m subs ps IH root t l I. assert (CN := cnode_in _ _ _ _ I). cbn [nodes_cnode edges_cnode ranks_cnode] in *.
      assert (LN : In ("lnode_" ++ t)%string (nodes_shown l)) by (apply (node_in _ lnode_style), I; right; now left).
      assert (E1 : Forall (declared l) (IEdge (cnode_name root t) ("lnode_" ++ t)
        :: match subs with [] => [] | _ => [IEdge ("lnode_" ++ t) ("lnode_" ++ t ++ "_subs")] end)).
      { constructor; [now split|]. destruct subs as [|s subs]; [constructor|]. constructor; [|constructor]. cbn [declared]. split; [exact LN|].
        unfold nodes_shown. apply in_flat_map. exists (ISubs ("lnode_" ++ t) (map s_id (s :: subs))). split.
        - apply I. right. right. apply in_or_app. left. now left.
        - left. now rewrite cat_assoc. }
      destruct ps as [|v sc D rest].
      + rewrite app_nil_r, app_nil_r. exact E1.
      + set (ps := PCons v sc D rest) in *.
        assert (IP : incl (nodes_pdir c t ps) l).
        { intros z Z. apply I. right. right. apply in_or_app. right. now right. }
        specialize (IH t l IP). apply Forall_app in IH. destruct IH as (H1 & H2).
        apply Forall_app. split.
        * rewrite app_comm_cons. apply Forall_app. split; [exact E1|]. constructor; [|exact H1].
          cbn [declared]. split; [exact CN|]. split; [apply (node_in _ (pnode_style c v)), IP; now left|].
          unfold groups_shown. apply in_flat_map. eexists. split; [apply I; right; right; apply in_or_app; right; now left|]. now left.
        * constructor; [|exact H2]. cbn [declared]. apply (commas_in (fun x => In x (nodes_shown l))), Forall_map. now apply pnodes_in.
    - intros t l _. constructor.
    - intros v sc D IHD rest IHR t l I. cbn [nodes_pdir edges_pdir ranks_pdir] in *. cbv zeta.
      set (table := ("cdir_" ++ to_range (to_pnode c t v) (cd_bound D))%string) in *.
      assert (IT : In (ITable table (rows_of (to_pnode c t v) D)) l) by (apply I; right; right; now left).
      assert (ID : incl (nodes_cdir c (to_pnode c t v) D) l) by (intros z Z; apply I; right; right; right; apply in_or_app; now left).
      assert (IR : incl (nodes_pdir c t rest) l) by (intros z Z; apply I; right; right; right; apply in_or_app; now right).
      specialize (IHD _ table _ ID (fun b => table_ports _ _ _ _ b IT)). specialize (IHR _ _ IR).
      apply Forall_app in IHD. destruct IHD as (H1 & H2). apply Forall_app in IHR. destruct IHR as (H3 & H4).
      assert (P1 : In ("pnode_" ++ to_pnode c t v)%string (nodes_shown l)) by (apply (node_in _ (pnode_style c v)), I; now left).
      assert (P2 : In ("pnode_" ++ to_pnode c t v ++ "_fake")%string (nodes_shown l)) by (apply (node_in _ fake_style), I; right; now left).
      cbn [app]. constructor; [now split|]. constructor.
      + cbn [declared]. split; [exact P2|]. split.
        * unfold nodes_shown. apply in_flat_map. eexists. split; [exact IT|now left].
        * unfold groups_shown. apply in_flat_map. eexists. split; [exact IT|now left].
      + rewrite !Forall_app. split; [now split|]. constructor; [|apply Forall_app; now split]. cbn [declared]. now apply ranks_in.
    - intros b T IH s table l I J. cbn [nodes_cdir edges_cdir ranks_cdir] in *.
      destruct (W T s b table l IH I (J b (or_introl eq_refl))) as (A & B). apply Forall_app. now split.
    - intros b T IH x IHx y IHy s table l I J. cbn [nodes_cdir edges_cdir ranks_cdir bounds_of] in *.
      destruct (W T s b table l IH) as (A & B); [intros z Z; apply I; apply in_or_app; now left|apply J; now left|].
      assert (X : Forall (declared l) (edges_cdir c s table x ++ ranks_cdir c s x)).
      { apply IHx; [intros z Z; apply I; apply in_or_app; right; apply in_or_app; now left|]. intros b' K. apply J. right. apply in_or_app. now left. }
      assert (Y : Forall (declared l) (edges_cdir c s table y ++ ranks_cdir c s y)).
      { apply IHy; [intros z Z; apply I; apply in_or_app; right; apply in_or_app; now right|]. intros b' K. apply J. right. apply in_or_app. now right. }
      apply Forall_app in X. apply Forall_app in Y. rewrite !Forall_app. tauto.
  Qed.
  Lemma nodes_declared :
    (forall T root t l, Forall (declared l) (nodes_cnode c root t T)) /\ (forall ps t l, Forall (declared l) (nodes_pdir c t ps))
    /\ (forall D s l, Forall (declared l) (nodes_cdir c s D)).
  Proof.
    assert (W : forall T s b l, (forall root t l, Forall (declared l) (nodes_cnode c root t T)) ->
      Forall (declared l) (if drawn T then nodes_cnode c false (to_range s b) T else [])).
    { intros T s b l H. destruct (drawn T); [apply H|constructor]. }
    apply tree_mut.
    - intros m subs ps IH root t l. cbn [nodes_cnode]. constructor; [exact I|]. constructor; [exact I|]. apply Forall_app. split.
      + destruct subs; [constructor|]. now repeat constructor.
      + destruct ps; [constructor|]. constructor; [exact I|apply IH].
    - intros t l. constructor.
    - intros v sc D IHD rest IHR t l. cbn [nodes_pdir]. do 3 (constructor; [exact I|]). apply Forall_app. split; [apply IHD|apply IHR].
    - intros b T IH s l. now apply W.
    - intros b T IH x IHx y IHy s l. cbn [nodes_cdir]. rewrite !Forall_app. split; [now apply W|]. split; [apply IHx|apply IHy].
  Qed.
  Theorem drawing_declared T : Forall (declared (drawing c T)) (drawing c T).
  Proof.
    unfold drawing at 2. apply Forall_app. split; [apply nodes_declared|].
    apply decl_all. intros z Z. unfold drawing. apply in_or_app. now left.
  Qed.
End Shown.
