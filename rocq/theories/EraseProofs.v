(** Removal from a linked red-black tree. *)
From Coq Require Import ZArith NArith Bool List Permutation Sorted Lia ZifyBool ZifyNat ZifyN.
From Verif Require Import Base RbTree CmpProofs RbProofs PermTac LinkedRb LinkedRbSpec LinkedRbProofs LinkedErase.
Import ListNotations.
Local Open Scope res_scope.

Section RB.
  Context {A : Type}.
  Notation blocks := (list (N * rnode A)).
  Notation aframe := (@aframe A).

  (** *** One round on trees with addresses *)
  Definition side (dir : bool) (l r : art A) : art A := if dir then r else l.
  Definition reddened (f : aframe) : aframe := mkAF (a_addr f) (a_dir f) true (a_data f) (a_sib f).
  (** jsw_rbtree.c 229-249: q and its children are black; [fq] is the frame of q, [path] leads to q. *)
  Definition borrow (path : list aframe) (fq : aframe) : list aframe :=
    match path with
    | [] => [fq]
    | fp :: rest =>
        match a_sib fp with
        | AL => fq :: path
        | AN sa sc sd sl sr =>
            let last := a_dir fp in
            let y := side last sl sr in
            let z := side (negb last) sl sr in
            match y with
            | AN ya true yd yl yr =>
                reddened fq :: mkAF (a_addr fp) last false (a_data fp) (side last yl yr)
                  :: mkAF ya last true yd (anode sa false sd last (side (negb last) yl yr) z) :: rest
            | _ =>
                if is_red (er z) then
                  reddened fq :: mkAF (a_addr fp) last false (a_data fp) y :: mkAF sa last true sd (setb false z) :: rest
                else reddened fq :: mkAF (a_addr fp) last false (a_data fp) (AN sa true sd sl sr) :: rest
            end
        end
    end.
  (** jsw_rbtree.c 224-251; [x] is the child of q in the direction of the search. *)
  Definition redden (path : list aframe) (fq : aframe) (x : art A) : list aframe :=
    if a_red fq || is_red (er x) then fq :: path else
    match a_sib fq with
    | AN sa true sd sl sr =>
        mkAF (a_addr fq) (a_dir fq) true (a_data fq) (side (a_dir fq) sl sr)
          :: mkAF sa (a_dir fq) false sd (side (negb (a_dir fq)) sl sr) :: path
    | _ => borrow path fq
    end.

  Lemma an_side a c d (l r : art A) dir : AN a c d l r = anode a c d dir (side dir l r) (side (negb dir) l r).
  Proof. now destruct dir. Qed.
  Lemma cells_side a c d (l r : art A) dir :
    Permutation (cells (AN a c d l r)) ((a, rc c (Some d) dir (ptr (side dir l r)) (ptr (side (negb dir) l r))) :: cells (side dir l r) ++ cells (side (negb dir) l r)).
  Proof. rewrite (an_side a c d l r dir). apply cells_anode. Qed.

  (** A property of paths that a round keeps: two cases to look at. *)
  Lemma redden_cases (Q : list aframe -> Prop) path fq x :
    (a_red fq || is_red (er x) = true -> Q (fq :: path)) ->
    (forall qa dir qd sa sd sl sr, fq = mkAF qa dir false qd (AN sa true sd sl sr) -> is_red (er x) = false ->
       Q (mkAF qa dir true qd (side dir sl sr) :: mkAF sa dir false sd (side (negb dir) sl sr) :: path)) ->
    (forall qa dir qd qs, fq = mkAF qa dir false qd qs -> is_red (er x) = false -> is_red (er qs) = false -> Q (borrow path fq)) ->
    Q (redden path fq x).
  Proof.
    intros H1 H2 H3. unfold redden. destruct (a_red fq || is_red (er x)) eqn:E; [auto|]. apply orb_false_elim in E. destruct E as (E1 & E2).
    destruct fq as [qa dir qc qd qs]. cbn [a_red a_addr a_dir a_data a_sib] in *. subst qc.
    destruct qs as [|sa [] sd sl sr]; eauto.
  Qed.
  Lemma borrow_cases (Q : list aframe -> Prop) path fq :
    (path = [] -> Q [fq]) ->
    (forall fp rest, path = fp :: rest -> a_sib fp = AL -> Q (fq :: path)) ->
    (forall pa last pc pd sa sc sd ya yd yl yr z rest, path = mkAF pa last pc pd (anode sa sc sd last (AN ya true yd yl yr) z) :: rest ->
       Q (reddened fq :: mkAF pa last false pd (side last yl yr) :: mkAF ya last true yd (anode sa false sd last (side (negb last) yl yr) z) :: rest)) ->
    (forall pa last pc pd sa sc sd y z rest, path = mkAF pa last pc pd (anode sa sc sd last y z) :: rest -> is_red (er y) = false -> is_red (er z) = true ->
       Q (reddened fq :: mkAF pa last false pd y :: mkAF sa last true sd (setb false z) :: rest)) ->
    (forall pa last pc pd sa sc sd y z rest, path = mkAF pa last pc pd (anode sa sc sd last y z) :: rest -> is_red (er y) = false -> is_red (er z) = false ->
       Q (reddened fq :: mkAF pa last false pd (anode sa true sd last y z) :: rest)) ->
    Q (borrow path fq).
  Proof.
    intros H1 H2 H3 H4 H5. unfold borrow. destruct path as [|[pa last pc pd ps] rest]; [auto|]. cbn [a_addr a_dir a_red a_data a_sib] in *.
    destruct ps as [|sa sc sd sl sr]; [eapply H2; reflexivity|]. rewrite (an_side sa sc sd sl sr last) in *. rewrite (an_side sa true sd sl sr last).
    destruct (side last sl sr) as [|ya [] yd yl yr] eqn:E; [|eapply H3; reflexivity|];
      (destruct (is_red (er (side (negb last) sl sr))) eqn:Z; [eapply H4|eapply H5]; eauto).
  Qed.

  (** It keeps what is left and right of [x]. *)
  Lemma redden_sides path fq x : lefts (map erf (redden path fq x)) = lefts (map erf (fq :: path)) /\ rights (map erf (redden path fq x)) = rights (map erf (fq :: path)).
  Proof.
    apply redden_cases; [auto| |].
    - intros qa dir qd sa sd sl sr -> _. destruct dir; cbn; repeat (rewrite <- app_assoc; cbn [app]); auto.
    - intros qa dir qd qs -> _ _. apply borrow_cases; [intros ->; auto|auto| | |];
        intros; subst path; destruct last; cbn; rewrite ?er_setb, ?elems_set_black; repeat (rewrite <- app_assoc; cbn [app]); destruct dir;
        cbn; repeat (rewrite <- app_assoc; cbn [app]); auto.
  Qed.
  (** The first node of the path to the right of [x], if it is at the address [f]. *)
  Fixpoint marked (f : N) (ok : A -> Prop) (path : list aframe) : Prop :=
    match path with [] => False | ff :: rest => if a_dir ff then marked f ok rest else a_addr ff = f /\ ok (a_data ff) end.
  Lemma redden_marked f ok path fq x : marked f ok (fq :: path) -> marked f ok (redden path fq x).
  Proof.
    apply redden_cases; [auto| |].
    - intros qa dir qd sa sd sl sr -> _. destruct dir; cbn; auto.
    - intros qa dir qd qs -> _ _. apply borrow_cases; [intros ->; auto|auto| | |]; intros until 1; intros; subst path; destruct dir, last; cbn in *; auto.
  Qed.

  (** *** Colours and heights *)
  Lemma pathok_black (path : list (frame A)) n b : pathok n b path -> pathok n false path.
  Proof. destruct path as [|f rest]; cbn; [auto|]. intros (H & K). split; [exact H|]. destruct (f_red f); [|exact K]. tauto. Qed.
  (** q or its child is red; or q is the root and its other child is black. *)
  Definition ready (path : list aframe) (red : bool) : Prop :=
    match path with [] => True | fq :: rest => a_red fq = true \/ red = true \/ rest = [] /\ is_red (er (a_sib fq)) = false end.
  Lemma rbt_node_inv n c d dir (x y : rb A) : rbt n (node c d dir x y) ->
    exists k, n = (if c then k else S k) /\ rbt k x /\ rbt k y /\ (c = true -> is_red x = false /\ is_red y = false).
  Proof.
    destruct dir, c; cbn [node]; intros H.
    - apply rbt_inv_red in H. exists n. tauto.
    - apply rbt_inv_black in H. destruct H as (k & -> & H1 & H2). exists k. repeat split; auto; discriminate.
    - apply rbt_inv_red in H. exists n. tauto.
    - apply rbt_inv_black in H. destruct H as (k & -> & H1 & H2). exists k. repeat split; auto; discriminate.
  Qed.
  Lemma redden_rb path fq x k : rbt k (er x) -> pathok k (is_red (er x)) (map erf (fq :: path)) -> ready path (a_red fq) ->
    pathok k (is_red (er x)) (map erf (redden path fq x)) /\ ready (redden path fq x) (is_red (er x)).
  Proof.
    intros RX PK RD. revert PK.
    apply redden_cases with (Q := fun p => pathok k (is_red (er x)) (map erf (fq :: path)) -> pathok k (is_red (er x)) (map erf p) /\ ready p (is_red (er x))).
    - intros E PK. split; [exact PK|]. cbn. apply orb_prop in E. tauto.
    - intros qa dir qd sa sd sl sr -> NX PK. rewrite NX in *. cbn [map erf pathok f_sib f_red a_sib a_red a_dir a_data a_addr] in PK. destruct PK as (RS & PK).
      rewrite (an_side sa true sd sl sr dir), er_anode in RS. apply rbt_node_inv in RS. destruct RS as (k' & <- & R1 & R2 & R3). destruct (R3 eq_refl) as (N1 & N2).
      cbn. auto 10.
    - intros qa dir qd qs -> NX NS PK. rewrite NX in *. cbn [map erf pathok f_sib f_red a_sib a_red a_dir a_data a_addr] in PK. destruct PK as (RS & PK).
      cbn [a_red] in RD.
      assert (PB : forall pa last pc pd ps rest, path = mkAF pa last pc pd ps :: rest ->
        rbt (S k) (er ps) /\ is_red (er ps) = false /\ pathok (S k) true (map erf rest)).
      { intros pa last pc pd ps rest ->. cbn in PK, RD. destruct PK as (R & PK). split; [exact R|]. destruct pc.
        - destruct PK as (_ & N & PK). auto.
        - destruct RD as [RD|[RD|(-> & RD)]]; try discriminate. split; [exact RD|exact Logic.I]. }
      apply borrow_cases.
      + intros ->. cbn. split; [split; [exact RS|exact Logic.I]|]. auto.
      + intros fp rest -> E. destruct fp as [pa last pc pd ps]. cbn in E. subst ps. destruct (PB _ _ _ _ _ _ eq_refl) as (R & _). cbn in R. inversion R.
      + intros pa last pc pd sa sc sd ya yd yl yr z rest ->. destruct (PB _ _ _ _ _ _ eq_refl) as (R & N & PR). rewrite er_anode in R, N.
        rewrite is_red_node in N. subst sc. apply rbt_node_inv in R. destruct R as (k' & E & R1 & R2 & _). injection E as <-.
        rewrite (an_side ya true yd yl yr last), er_anode in R1. apply rbt_node_inv in R1. destruct R1 as (k' & <- & Y1 & Y2 & Y3). destruct (Y3 eq_refl) as (N1 & N2).
        cbn. rewrite er_anode, is_red_node. pose proof (rbt_node k false sd last _ _ Y2 R2 ltac:(discriminate)). auto 12.
      + intros pa last pc pd sa sc sd y z rest -> NY NZ. destruct (PB _ _ _ _ _ _ eq_refl) as (R & N & PR). rewrite er_anode in R, N.
        rewrite is_red_node in N. subst sc. apply rbt_node_inv in R. destruct R as (k' & E & R1 & R2 & _). injection E as <-.
        cbn. rewrite er_setb. destruct (rbt_set_black _ _ R2 NZ) as (RZ & _). rewrite is_red_set_black. auto 12.
      + intros pa last pc pd sa sc sd y z rest -> NY NZ. destruct (PB _ _ _ _ _ _ eq_refl) as (R & N & PR). rewrite er_anode in R, N.
        rewrite is_red_node in N. subst sc. apply rbt_node_inv in R. destruct R as (k' & E & R1 & R2 & _). injection E as <-.
        cbn. rewrite er_anode. pose proof (rbt_node k true sd last _ _ R1 R2 ltac:(auto)). pose proof (pathok_black _ _ _ PR). auto 12.
  Qed.

  (** *** A round in memory *)
  Variable hd : N.
  Definition dof (path : list aframe) : bool := match path with [] => true | f :: _ => a_dir f end.
  Lemma red_cell (h : mem A) L a c d dir x y : owns h ((a, rc c d dir x y) :: L) -> red_at h a = Ok c.
  Proof.
    intros H. unfold red_at. assert (I : In (a, rc c d dir x y) ((a, rc c d dir x y) :: L)) by now left.
    rewrite (owns_pos h _ _ _ H I), (owns_load h _ _ _ H I). now destruct dir.
  Qed.
  Lemma top_link (h : mem A) rest c L : owns h (pcells hd rest c ++ L) -> get_link h (top_addr hd rest) (dof rest) = Ok c.
  Proof. intros H. destruct rest as [|f rest]; exact (get_dir _ _ _ _ _ _ _ _ H). Qed.
  Lemma both_black (h : mem A) t ct dt last p cp dp px py s cs ds sx sy L :
    owns h ((t, rc ct dt last p s) :: (p, rc cp dp last px py) :: (s, rc cs ds last sx sy) :: L) ->
    exists h', (do l <- get_link h t false; do h <- set_red h l false; do r <- get_link h t true; set_red h r false) = Ok h'
      /\ owns h' ((t, rc ct dt last p s) :: (p, rc false dp last px py) :: (s, rc false ds last sx sy) :: L).
  Proof.
    intros H. destruct last.
    - rewrite (get_neg h _ t ct dt true p s H : get_link h t false = Ok s). cbn [bind].
      assert (H1 : owns h ((s, rc cs ds true sx sy) :: (t, rc ct dt true p s) :: (p, rc cp dp true px py) :: L)) by (eapply owns_perm; [exact H|]; perm).
      destruct (red_set _ _ _ _ _ _ _ _ false H1) as (h1 & -> & H2). cbn [bind].
      assert (H3 : owns h1 ((t, rc ct dt true p s) :: (p, rc cp dp true px py) :: (s, rc false ds true sx sy) :: L)) by (eapply owns_perm; [exact H2|]; perm).
      rewrite (get_dir _ _ _ _ _ _ _ _ H3). cbn [bind].
      destruct (red_set _ _ _ _ _ _ _ _ false (swap_owns _ _ _ _ H3)) as (h2 & -> & H4). eexists. split; [reflexivity|]. now apply swap_owns.
    - rewrite (get_dir _ _ _ _ _ _ _ _ H). cbn [bind].
      destruct (red_set _ _ _ _ _ _ _ _ false (swap_owns _ _ _ _ H)) as (h1 & -> & H2). cbn [bind]. apply swap_owns in H2.
      rewrite (get_neg h1 _ t ct dt false p s H2 : get_link h1 t true = Ok s). cbn [bind].
      assert (H3 : owns h1 ((s, rc cs ds false sx sy) :: (t, rc ct dt false p s) :: (p, rc false dp false px py) :: L)) by (eapply owns_perm; [exact H2|]; perm).
      destruct (red_set _ _ _ _ _ _ _ _ false H3) as (h2 & -> & H4). eexists. split; [reflexivity|]. eapply owns_perm; [exact H4|]. perm.
  Qed.
  Lemma paint_ok (h : mem A) rest t ct dt last p cp dp px py s cs ds sx sy q cq dq qdir qx qy L (pp : N) :
    owns h (pcells hd rest t ++ (t, rc ct dt last p s) :: (p, rc cp dp last px py) :: (s, rc cs ds last sx sy) :: (q, rc cq dq qdir qx qy) :: L) ->
    exists h', (do t <- get_link h (top_addr hd rest) (dof rest);
                do h <- set_red h t true;
                do h <- set_red h q true;
                do l <- get_link h t false;
                do h <- set_red h l false;
                do r <- get_link h t true;
                do h <- set_red h r false;
                Ok (pp, h)) = Ok (pp, h')
      /\ owns h' (pcells hd rest t ++ (t, rc true dt last p s) :: (p, rc false dp last px py) :: (s, rc false ds last sx sy) :: (q, rc true dq qdir qx qy) :: L).
  Proof.
    intros H. rewrite (top_link _ _ _ _ H). cbn [bind].
    assert (H1 : owns h ((t, rc ct dt last p s) :: (p, rc cp dp last px py) :: (s, rc cs ds last sx sy) :: (q, rc cq dq qdir qx qy) :: pcells hd rest t ++ L))
      by (eapply owns_perm; [exact H|]; perm).
    destruct (red_set _ _ _ _ _ _ _ _ true H1) as (h1 & -> & H2). cbn [bind].
    assert (H3 : owns h1 ((q, rc cq dq qdir qx qy) :: (t, rc true dt last p s) :: (p, rc cp dp last px py) :: (s, rc cs ds last sx sy) :: pcells hd rest t ++ L))
      by (eapply owns_perm; [exact H2|]; perm).
    destruct (red_set _ _ _ _ _ _ _ _ true H3) as (h2 & -> & H4). cbn [bind].
    assert (H5 : owns h2 ((t, rc true dt last p s) :: (p, rc cp dp last px py) :: (s, rc cs ds last sx sy) :: (q, rc true dq qdir qx qy) :: pcells hd rest t ++ L))
      by (eapply owns_perm; [exact H4|]; perm).
    destruct (both_black _ _ _ _ _ _ _ _ _ _ _ _ _ _ _ _ H5) as (h3 & E & H6).
    destruct (get_link h2 t false) as [l| | |]; try discriminate. cbn [bind] in *. destruct (set_red h2 l false) as [h2'| | |]; try discriminate. cbn [bind] in *.
    destruct (get_link h2' t true) as [r| | |]; try discriminate. cbn [bind] in *. rewrite E. cbn [bind].
    eexists. split; [reflexivity|]. eapply owns_perm; [exact H6|]. perm.
  Qed.

  Lemma redden_ok h x fq path L g :
    owns h (cells x ++ pcells hd (fq :: path) (ptr x) ++ L) -> (path <> [] -> g = top_addr hd (tl path)) ->
    exists h', p_redden h g (top_addr hd path) (a_addr fq) (dof path) (a_dir fq) = Ok (top_addr hd (tl (redden path fq x)), h')
      /\ owns h' (cells x ++ pcells hd (redden path fq x) (ptr x) ++ L).
  Proof.
    intros H G. unfold p_redden.
    assert (HQ : owns h ((a_addr fq, rc (a_red fq) (Some (a_data fq)) (a_dir fq) (ptr x) (ptr (a_sib fq))) :: cells x ++ cells (a_sib fq) ++ pcells hd path (a_addr fq) ++ L))
      by (eapply owns_perm; [exact H|]; unfold pcells; cbn [top_addr top_cell around]; perm).
    rewrite (red_cell _ _ _ _ _ _ _ _ HQ). cbn [bind]. unfold redden.
    destruct (a_red fq) eqn:RQ; cbn [orb]. { eexists. split; [reflexivity|exact H]. }
    rewrite (get_dir _ _ _ _ _ _ _ _ HQ). cbn [bind]. rewrite (ptr_red _ _ _ H). cbn [bind].
    destruct (is_red (er x)) eqn:RX. { eexists. split; [reflexivity|exact H]. }
    rewrite (get_neg _ _ _ _ _ _ _ _ HQ). cbn [bind].
    assert (HS : owns h (cells (a_sib fq) ++ cells x ++ (a_addr fq, rc false (Some (a_data fq)) (a_dir fq) (ptr x) (ptr (a_sib fq))) :: pcells hd path (a_addr fq) ++ L))
      by (eapply owns_perm; [exact HQ|]; perm).
    rewrite (ptr_red _ _ _ HS). cbn [bind].
    destruct fq as [qa dir qc qd qs]. cbn [a_addr a_dir a_red a_data a_sib] in *. subst qc.
    destruct (is_red (er qs)) eqn:RS.
    - (* the other child of q is red *)
      destruct qs as [|sa sc sd sl sr]; [discriminate|]. destruct sc; [|discriminate]. rewrite (an_side sa true sd sl sr dir) in HS. rewrite ptr_anode in HS.
      assert (H1 : owns h ((qa, rc false (Some qd) dir (ptr x) sa) :: (sa, rc true (Some sd) dir (ptr (side dir sl sr)) (ptr (side (negb dir) sl sr)))
                     :: cells (side dir sl sr) ++ cells (side (negb dir) sl sr) ++ cells x ++ pcells hd path qa ++ L)).
      { eapply owns_perm; [exact HS|]. rewrite cells_anode. perm. }
      destruct (single_ok _ _ _ _ _ _ _ _ _ _ _ _ H1) as (h1 & -> & H2). cbn [bind].
      assert (H3 : owns h1 (pcells hd path qa ++ (qa, rc true (Some qd) dir (ptr x) (ptr (side dir sl sr))) :: (sa, rc false (Some sd) dir qa (ptr (side (negb dir) sl sr)))
                     :: cells (side dir sl sr) ++ cells (side (negb dir) sl sr) ++ cells x ++ L)) by (eapply owns_perm; [exact H2|]; perm).
      destruct (relink_ok _ _ _ _ sa _ H3) as (h2 & E & H4). fold (dof path) in E. rewrite E. cbn [bind].
      eexists. split; [reflexivity|]. eapply owns_perm; [exact H4|]. unfold pcells. cbn [top_addr top_cell around a_addr a_red a_data a_dir a_sib]. perm.
    - assert (EQ : match qs with
              | AN sa true sd sl sr => mkAF qa dir true qd (side dir sl sr) :: mkAF sa dir false sd (side (negb dir) sl sr) :: path
              | _ => borrow path (mkAF qa dir false qd qs) end = borrow path (mkAF qa dir false qd qs)) by (destruct qs as [|sa [] sd sl sr]; easy).
      rewrite EQ. clear EQ RS HS. unfold borrow. destruct path as [|[pa last pc pd ps] rest].
      { assert (HP : owns h ((hd, rc false None true qa 0%N) :: (qa, rc false (Some qd) dir (ptr x) (ptr qs)) :: cells x ++ cells qs ++ L))
          by (eapply owns_perm; [exact H|]; unfold pcells; cbn [top_addr top_cell around a_addr a_red a_data a_dir a_sib]; perm).
        cbn [top_addr dof]. rewrite (get_neg _ _ _ _ _ _ _ _ HP). cbn. eexists. split; [reflexivity|exact H]. }
      rewrite G by discriminate. clear G. cbn [top_addr dof tl a_addr a_dir a_red a_data a_sib] in *.
      assert (HP : owns h ((pa, rc pc (Some pd) last qa (ptr ps)) :: cells ps ++ pcells hd rest pa ++ (qa, rc false (Some qd) dir (ptr x) (ptr qs)) :: cells x ++ cells qs ++ L))
        by (eapply owns_perm; [exact H|]; unfold pcells; cbn [top_addr top_cell around a_addr a_red a_data a_dir a_sib]; perm).
      rewrite (get_neg _ _ _ _ _ _ _ _ HP). cbn [bind]. destruct ps as [|sa sc sd sl sr]. { cbn. eexists. split; [reflexivity|exact H]. }
      eapply owns_perm in HP; [|rewrite (cells_side sa sc sd sl sr last); reflexivity]. cbn [ptr] in HP. remember (side last sl sr) as y eqn:Ey. remember (side (negb last) sl sr) as z eqn:Ez.
      assert (HS : owns h ((sa, rc sc (Some sd) last (ptr y) (ptr z)) :: (pa, rc pc (Some pd) last qa sa) :: cells y ++ cells z ++ pcells hd rest pa
                    ++ (qa, rc false (Some qd) dir (ptr x) (ptr qs)) :: cells x ++ cells qs ++ L)) by (eapply owns_perm; [exact HP|]; perm).
      cbn [ptr]. rewrite (owns_pos _ _ sa _ HS (or_introl eq_refl)). rewrite (get_neg _ _ _ _ _ _ _ _ HS). cbn [bind].
      assert (HZ : owns h (cells z ++ (sa, rc sc (Some sd) last (ptr y) (ptr z)) :: (pa, rc pc (Some pd) last qa sa) :: cells y ++ pcells hd rest pa
                    ++ (qa, rc false (Some qd) dir (ptr x) (ptr qs)) :: cells x ++ cells qs ++ L)) by (eapply owns_perm; [exact HS|]; perm).
      rewrite (ptr_red _ _ _ HZ). cbn [bind]. rewrite (get_dir _ _ _ _ _ _ _ _ HS). cbn [bind].
      assert (HY : owns h (cells y ++ cells z ++ (sa, rc sc (Some sd) last (ptr y) (ptr z)) :: (pa, rc pc (Some pd) last qa sa) :: pcells hd rest pa
                    ++ (qa, rc false (Some qd) dir (ptr x) (ptr qs)) :: cells x ++ cells qs ++ L)) by (eapply owns_perm; [exact HS|]; perm).
      rewrite (ptr_red _ _ _ HY). cbn [bind].
      assert (HG : owns h (pcells hd rest pa ++ (pa, rc pc (Some pd) last qa sa) :: (sa, rc sc (Some sd) last (ptr y) (ptr z)) :: cells y ++ cells z
                    ++ (qa, rc false (Some qd) dir (ptr x) (ptr qs)) :: cells x ++ cells qs ++ L)) by (eapply owns_perm; [exact HS|]; perm).
      destruct (dir2_ok _ _ _ _ _ _ HG) as (b & EB & D2). fold (dof rest) in D2.
      destruct (is_red (er y)) eqn:RY; [|destruct (is_red (er z)) eqn:RZ]; cbn [negb andb].
      + (* the near child of the sibling is red *)
        rewrite Bool.andb_false_r. rewrite EB. cbn [bind]. rewrite D2. destruct y as [|ya yc yd yl yr]; [discriminate|]. destruct yc; [|discriminate].
        assert (H1 : owns h ((pa, rc pc (Some pd) last qa sa) :: (sa, rc sc (Some sd) last ya (ptr z))
                       :: (ya, rc true (Some yd) last (ptr (side last yl yr)) (ptr (side (negb last) yl yr)))
                       :: cells (side last yl yr) ++ cells (side (negb last) yl yr) ++ cells z ++ pcells hd rest pa
                       ++ (qa, rc false (Some qd) dir (ptr x) (ptr qs)) :: cells x ++ cells qs ++ L)).
        { eapply owns_perm; [exact HG|]. rewrite (cells_side ya true yd yl yr last). cbn [ptr]. perm. }
        destruct (double_ok _ _ _ _ _ _ _ _ _ _ _ _ _ _ _ _ H1) as (h1 & -> & H2). cbn [bind].
        assert (H3 : owns h1 (pcells hd rest pa ++ (ya, rc false (Some yd) last pa sa) :: (pa, rc true (Some pd) last qa (ptr (side last yl yr)))
                       :: (sa, rc true (Some sd) last (ptr (side (negb last) yl yr)) (ptr z)) :: (qa, rc false (Some qd) dir (ptr x) (ptr qs))
                       :: cells (side last yl yr) ++ cells (side (negb last) yl yr) ++ cells z ++ cells x ++ cells qs ++ L)) by (eapply owns_perm; [exact H2|]; perm).
        destruct (relink_ok _ _ _ _ ya _ H3) as (h2 & E & H4). fold (dof rest) in E. rewrite E. cbn [bind].
        destruct (paint_ok _ _ _ _ _ _ _ _ _ _ _ _ _ _ _ _ _ _ _ _ _ _ _ pa H4) as (h3 & -> & H5).
        eexists. split; [reflexivity|]. eapply owns_perm; [exact H5|]. unfold pcells. cbn [reddened top_addr top_cell around a_addr a_red a_data a_dir a_sib].
        rewrite cells_anode, ptr_anode. perm.
      + (* the far child is red *)
        rewrite EB. cbn [bind]. rewrite D2.
        assert (H1 : owns h ((pa, rc pc (Some pd) last qa sa) :: (sa, rc sc (Some sd) last (ptr y) (ptr z)) :: cells y ++ cells z ++ pcells hd rest pa
                       ++ (qa, rc false (Some qd) dir (ptr x) (ptr qs)) :: cells x ++ cells qs ++ L)) by (eapply owns_perm; [exact HG|]; perm).
        destruct (single_ok _ _ _ _ _ _ _ _ _ _ _ _ H1) as (h1 & -> & H2). cbn [bind].
        assert (H3 : owns h1 (pcells hd rest pa ++ (pa, rc true (Some pd) last qa (ptr y)) :: (sa, rc false (Some sd) last pa (ptr z)) :: cells y ++ cells z
                       ++ (qa, rc false (Some qd) dir (ptr x) (ptr qs)) :: cells x ++ cells qs ++ L)) by (eapply owns_perm; [exact H2|]; perm).
        destruct (relink_ok _ _ _ _ sa _ H3) as (h2 & E & H4). fold (dof rest) in E. rewrite E. cbn [bind].
        destruct z as [|za zc zd zl zr]; [discriminate|].
        assert (H5 : owns h2 (pcells hd rest sa ++ (sa, rc false (Some sd) last pa za) :: (pa, rc true (Some pd) last qa (ptr y))
                       :: (za, rc zc (Some zd) last (ptr (side last zl zr)) (ptr (side (negb last) zl zr))) :: (qa, rc false (Some qd) dir (ptr x) (ptr qs))
                       :: cells y ++ cells (side last zl zr) ++ cells (side (negb last) zl zr) ++ cells x ++ cells qs ++ L)).
        { eapply owns_perm; [exact H4|]. rewrite (cells_side za zc zd zl zr last). cbn [ptr]. perm. }
        destruct (paint_ok _ _ _ _ _ _ _ _ _ _ _ _ _ _ _ _ _ _ _ _ _ _ _ pa H5) as (h3 & -> & H6).
        eexists. split; [destruct y as [|ya [] yd yl yr]; [|discriminate|]; reflexivity|].
        assert (EB2 : match y with
          | AN ya true yd yl yr => reddened (mkAF qa dir false qd qs) :: mkAF pa last false pd (side last yl yr)
                  :: mkAF ya last true yd (anode sa false sd last (side (negb last) yl yr) (AN za zc zd zl zr)) :: rest
          | _ => reddened (mkAF qa dir false qd qs) :: mkAF pa last false pd y :: mkAF sa last true sd (setb false (AN za zc zd zl zr)) :: rest
          end = reddened (mkAF qa dir false qd qs) :: mkAF pa last false pd y :: mkAF sa last true sd (setb false (AN za zc zd zl zr)) :: rest)
          by (destruct y as [|ya [] yd yl yr]; easy).
        rewrite EB2. eapply owns_perm; [exact H6|]. unfold pcells. cbn [reddened setb ptr top_addr top_cell around a_addr a_red a_data a_dir a_sib].
        rewrite (cells_side za false zd zl zr last). perm.
      + (* neither *)
        destruct (red_set _ _ _ _ _ _ _ _ false HP) as (h1 & -> & H1). cbn [bind].
        assert (H2 : owns h1 ((sa, rc sc (Some sd) last (ptr y) (ptr z)) :: (pa, rc false (Some pd) last qa sa) :: cells y ++ cells z ++ pcells hd rest pa
                    ++ (qa, rc false (Some qd) dir (ptr x) (ptr qs)) :: cells x ++ cells qs ++ L)) by (eapply owns_perm; [exact H1|]; perm).
        destruct (red_set _ _ _ _ _ _ _ _ true H2) as (h2 & -> & H3). cbn [bind].
        assert (H4 : owns h2 ((qa, rc false (Some qd) dir (ptr x) (ptr qs)) :: (sa, rc true (Some sd) last (ptr y) (ptr z)) :: (pa, rc false (Some pd) last qa sa)
                    :: cells y ++ cells z ++ pcells hd rest pa ++ cells x ++ cells qs ++ L)) by (eapply owns_perm; [exact H3|]; perm).
        destruct (red_set _ _ _ _ _ _ _ _ true H4) as (h3 & -> & H5). cbn [bind].
        eexists. split; [destruct y as [|ya [] yd yl yr]; [|discriminate|]; reflexivity|].
        assert (EB2 : match y with
          | AN ya true yd yl yr => reddened (mkAF qa dir false qd qs) :: mkAF pa last false pd (side last yl yr)
                  :: mkAF ya last true yd (anode sa false sd last (side (negb last) yl yr) z) :: rest
          | _ => reddened (mkAF qa dir false qd qs) :: mkAF pa last false pd (AN sa true sd sl sr) :: rest
          end = reddened (mkAF qa dir false qd qs) :: mkAF pa last false pd (AN sa true sd sl sr) :: rest)
          by (destruct y as [|ya [] yd yl yr]; easy).
        rewrite EB2. eapply owns_perm; [exact H5|]. unfold pcells. cbn [reddened ptr top_addr top_cell around a_addr a_red a_data a_dir a_sib].
        rewrite (cells_side sa true sd sl sr last), <- Ey, <- Ez. perm.
  Qed.

  (** *** The node found *)
  (** Its data replaced. *)
  Fixpoint remark (d : A) (path : list aframe) : list aframe :=
    match path with
    | [] => []
    | ff :: rest => if a_dir ff then ff :: remark d rest else mkAF (a_addr ff) false (a_red ff) d (a_sib ff) :: rest
    end.
  Lemma remark_top d path : top_addr hd (remark d path) = top_addr hd path.
  Proof. destruct path as [|f rest]; [reflexivity|]. cbn. now destruct (a_dir f). Qed.
  Lemma remark_lefts d path : lefts (map erf (remark d path)) = lefts (map erf path).
  Proof. induction path as [|f rest IH]; [reflexivity|]. cbn. destruct (a_dir f) eqn:E; cbn; rewrite ?E; [now rewrite IH|reflexivity]. Qed.
  Lemma marked_rights f ok path d : marked f ok path ->
    exists d0 R, rights (map erf path) = d0 :: R /\ ok d0 /\ rights (map erf (remark d path)) = d :: R.
  Proof.
    induction path as [|ff rest IH]; [easy|]. cbn. destruct (a_dir ff) eqn:E; intros M.
    - cbn. rewrite E. now apply IH.
    - cbn. exists (a_data ff), (rb_elems (er (a_sib ff)) ++ rights (map erf rest)). tauto.
  Qed.
  Lemma remark_pathok d path : forall n b, pathok n b (map erf path) -> pathok n b (map erf (remark d path)).
  Proof.
    induction path as [|ff rest IH]; intros n b; [auto|]. cbn. destruct (a_dir ff) eqn:E; cbn; [|auto].
    intros (H & K). split; [exact H|]. destruct (a_red ff); [|auto]. destruct K as (K1 & K2 & K3). auto.
  Qed.
  Lemma set_data_ok (h : mem A) L a c d dir x y d' : owns h ((a, rc c d dir x y) :: L) ->
    exists h', set_data h a d' = Ok h' /\ owns h' ((a, rc c d' dir x y) :: L).
  Proof.
    intros H. unfold set_data. rewrite (owns_load h _ _ _ H (or_introl eq_refl)). cbn [bind].
    destruct (owns_store h _ _ _ (rc c d' dir x y) H) as (h' & E & H'). exists h'. split; [|exact H']. rewrite <- E. f_equal. now destruct dir.
  Qed.
  Lemma remark_ok f ok d path : forall h c L, marked f ok path -> owns h (pcells hd path c ++ L) ->
    exists h', set_data h f (Some d) = Ok h' /\ owns h' (pcells hd (remark d path) c ++ L).
  Proof.
    induction path as [|ff rest IH]; intros h c L M H; [easy|]. cbn [marked remark] in *. destruct (a_dir ff) eqn:E.
    - assert (H1 : owns h (pcells hd rest (a_addr ff) ++ (a_addr ff, rc (a_red ff) (Some (a_data ff)) (a_dir ff) c (ptr (a_sib ff))) :: cells (a_sib ff) ++ L))
        by (eapply owns_perm; [exact H|]; unfold pcells; cbn [top_addr top_cell around]; perm).
      destruct (IH _ _ _ M H1) as (h' & -> & H2). exists h'. split; [reflexivity|]. eapply owns_perm; [exact H2|]. unfold pcells. cbn [top_addr top_cell around]. perm.
    - destruct M as (<- & _). unfold pcells in *. cbn [app] in *. cbn [top_addr top_cell around a_addr a_red a_data a_dir a_sib] in *. rewrite E in H.
      exact (set_data_ok _ _ _ _ _ _ _ _ (Some d) H).
  Qed.
  Lemma redden_head path fq x : exists f rest, redden path fq x = f :: rest /\ a_addr f = a_addr fq /\ a_dir f = a_dir fq.
  Proof.
    apply redden_cases with (Q := fun p => exists f rest, p = f :: rest /\ a_addr f = a_addr fq /\ a_dir f = a_dir fq).
    - eauto.
    - intros qa dir qd sa sd sl sr -> _. eexists _, _. split; [reflexivity|]. auto.
    - intros qa dir qd qs -> _ _. apply borrow_cases with (Q := fun p => exists f rest, p = f :: rest /\ a_addr f = qa /\ a_dir f = dir);
        intros; eexists _, _; (split; [reflexivity|]; auto).
  Qed.

  (** *** The loop *)
  Context (P : A -> Prop) (cmp : A -> A -> comparison) (TC : total_cmp P cmp).
  Definition seek (x : A) (f : N) (path : list aframe) : Prop :=
    Forall (fun y => cmp y x = Lt) (lefts (map erf path))
    /\ (f = 0%N -> Forall (fun y => cmp y x = Gt) (rights (map erf path)))
    /\ (f <> 0%N -> marked f (fun d => cmp d x = Eq) path).
  Lemma lt_gt x y : P x -> P y -> cmp x y = Lt -> cmp y x = Gt.
  Proof. intros Hx Hy E. now rewrite (tc_anti _ _ TC x y Hx Hy), E. Qed.
  Lemma gt_lt x y : P x -> P y -> cmp x y = Gt -> cmp y x = Lt.
  Proof. intros Hx Hy E. now rewrite (tc_anti _ _ TC x y Hx Hy), E. Qed.
  Lemma seek_redden x f path fq t : seek x f (fq :: path) -> seek x f (redden path fq t).
  Proof.
    intros (S1 & S2 & S3). destruct (redden_sides path fq t) as (E1 & E2). unfold seek. rewrite E1, E2.
    split; [exact S1|]. split; [exact S2|]. intros N. now apply redden_marked, S3.
  Qed.
  Lemma seek_step x f path a c d l r : P x -> a <> 0%N ->
    Forall P (lefts (map erf path) ++ rb_elems (er (AN a c d l r)) ++ rights (map erf path)) ->
    sorted cmp (lefts (map erf path) ++ rb_elems (er (AN a c d l r)) ++ rights (map erf path)) ->
    seek x f path ->
    let dir := match cmp d x with Lt => true | _ => false end in
    seek x (match cmp d x with Eq => a | _ => f end) (mkAF a dir c d (side (negb dir) l r) :: path).
  Proof.
    intros Px Na FP So (S1 & S2 & S3). cbn [er rb_elems] in *.
    apply sorted_app in So. destruct So as (_ & So & _). apply sorted_app in So. destruct So as (So & _ & SR).
    apply sorted_app in So. destruct So as (_ & So & SL). apply Forall_app in FP. destruct FP as (_ & FP). apply Forall_app in FP. destruct FP as (FE & FR).
    apply Forall_app in FE. destruct FE as (FL & FD). apply Forall_cons_iff in FD. destruct FD as (Pd & FD2).
    assert (SDR : forall y, In y (rb_elems (er r)) -> cmp d y = Lt).
    { apply StronglySorted_inv in So. destruct So as (_ & So). rewrite Forall_forall in So. exact So. }
    destruct (cmp d x) eqn:C; cbn zeta.
    - unfold seek. cbn. split; [exact S1|]. split; [easy|]. intros _. auto.
    - unfold seek. cbn. split; [|split; [exact S2|exact S3]]. apply Forall_app. split; [exact S1|]. apply Forall_app. split; [|auto].
      rewrite Forall_forall in *. intros y Iy. apply (tc_lt _ _ TC y d x); auto. apply SL; [exact Iy|now left].
    - unfold seek. cbn. split; [exact S1|]. split.
      + intros ->. constructor; [exact C|]. apply Forall_app. split; [|auto]. rewrite Forall_forall in *. intros y Iy.
        apply lt_gt; auto. apply (tc_lt _ _ TC x d y); auto. now apply gt_lt.
      + intros N. exfalso. destruct (marked_rights _ _ _ d (S3 N)) as (d0 & R & E & E0 & _).
        assert (Pd0 : P d0). { rewrite Forall_forall in FR. apply FR. rewrite E. now left. }
        assert (K : cmp d d0 = Lt). { apply SR; [apply in_or_app; right; now left|rewrite E; now left]. }
        assert (K2 : cmp d0 x = Eq) by exact E0.
        assert (K3 : cmp d0 d = cmp x d) by (now apply (tc_eq _ _ TC)).
        rewrite (lt_gt d d0) in K3 by auto. rewrite (tc_anti _ _ TC d x Pd Px), C in K3. discriminate.
  Qed.
  Lemma down_ok x n : P x -> forall h t path L f p k,
    owns h (cells t ++ pcells hd path (ptr t) ++ L) -> (rb_size (er t) < n)%nat ->
    (path <> [] -> p = top_addr hd (tl path)) -> (path = [] -> t <> AL) ->
    rbt k (er t) -> pathok k (is_red (er t)) (map erf path) -> ready path (is_red (er t)) ->
    Forall P (lefts (map erf path) ++ rb_elems (er t) ++ rights (map erf path)) ->
    sorted cmp (lefts (map erf path) ++ rb_elems (er t) ++ rights (map erf path)) ->
    seek x f path ->
    exists path' f' h', p_down cmp n h p (top_addr hd path) f (dof path) x = Ok (top_addr hd (tl path'), top_addr hd path', f', h')
      /\ path' <> [] /\ owns h' (pcells hd path' 0 ++ L) /\ pathok 0 false (map erf path') /\ ready path' false
      /\ lefts (map erf path') ++ rights (map erf path') = lefts (map erf path) ++ rb_elems (er t) ++ rights (map erf path)
      /\ seek x f' path'.
  Proof.
    intros Px. induction n as [|n IH]; intros h t path L f p k H Hn HP HT RB PK RD FP So SK; [lia|]. cbn [p_down].
    assert (HL : owns h (pcells hd path (ptr t) ++ cells t ++ L)) by (eapply owns_perm; [exact H|]; perm).
    rewrite (top_link _ _ _ _ HL). cbn [bind]. destruct t as [|a c d l r].
    - cbn [ptr er rb_elems is_red app] in *. rewrite N.eqb_refl. inversion RB. subst k.
      assert (NP : path <> []) by (intros E; now apply (HT E)).
      exists path, f, h. rewrite (HP NP). split; [reflexivity|]. split; [exact NP|]. auto.
    - cbn [ptr] in *.
      assert (IN : In (a, mkR c (Some d) (ptr l) (ptr r)) (cells (AN a c d l r) ++ pcells hd path a ++ L)) by now left.
      assert (Na := owns_pos _ _ _ _ H IN). rewrite Na. rewrite (owns_load _ _ _ _ H IN). cbn [bind r_data].
      set (dir := match cmp d x with Lt => true | _ => false end).
      assert (H1 : owns h (cells (side dir l r) ++ pcells hd (mkAF a dir c d (side (negb dir) l r) :: path) (ptr (side dir l r)) ++ L)).
      { eapply owns_perm; [exact H|]. rewrite (cells_side a c d l r dir). unfold pcells. cbn [top_addr top_cell around a_addr a_red a_data a_dir a_sib]. perm. }
      destruct (redden_ok h _ _ _ L p H1 HP) as (h1 & E & H2). cbn [a_addr a_dir] in E. rewrite E. cbn [bind]. clear E.
      assert (RN' : rbt k (node c d dir (er (side dir l r)) (er (side (negb dir) l r)))) by (rewrite <- (er_anode a), <- an_side; exact RB).
      apply rbt_node_inv in RN'. destruct RN' as (k' & -> & RB1 & RB2 & RB3).
      assert (PK1 : pathok k' (is_red (er (side dir l r))) (map erf (mkAF a dir c d (side (negb dir) l r) :: path))).
      { cbn. split; [exact RB2|]. destruct c; [|exact PK]. destruct (RB3 eq_refl). auto. }
      assert (RD1 : ready path c) by (cbn in RD; destruct c; exact RD).
      destruct (redden_rb path _ _ k' RB1 PK1 RD1) as (PK2 & RD2).
      assert (SK1 := seek_step x f path a c d l r Px ltac:(now apply N.eqb_neq) FP So SK). cbn zeta in SK1. fold dir in SK1.
      apply (seek_redden _ _ _ _ (side dir l r)) in SK1.
      destruct (redden_sides path (mkAF a dir c d (side (negb dir) l r)) (side dir l r)) as (E1 & E2).
      assert (EL : lefts (map erf (redden path (mkAF a dir c d (side (negb dir) l r)) (side dir l r))) ++ rb_elems (er (side dir l r))
                    ++ rights (map erf (redden path (mkAF a dir c d (side (negb dir) l r)) (side dir l r)))
                 = lefts (map erf path) ++ rb_elems (er (AN a c d l r)) ++ rights (map erf path)).
      { rewrite E1, E2. clear. destruct dir; cbn; repeat (rewrite <- app_assoc; cbn [app]); reflexivity. }
      destruct (redden_head path (mkAF a dir c d (side (negb dir) l r)) (side dir l r)) as (fh & fr & EH & A1 & A2). cbn [a_addr a_dir] in A1, A2.
      rewrite <- EL in FP, So. rewrite <- EL. rewrite EH in *.
      destruct (IH h1 (side dir l r) (fh :: fr) L (match cmp d x with Eq => a | _ => f end) (top_addr hd (tl (fh :: fr))) k' H2) as (path' & f' & h' & E3 & R3); auto.
      { cbn [er rb_size] in Hn. destruct dir; cbn [side]; lia. }
      { easy. }
      exists path', f', h'. split; [|exact R3]. rewrite <- E3. cbn [top_addr dof]. rewrite A1, A2. reflexivity.
  Qed.
End RB.

Section Erase.
  Context {A : Type} (P : A -> Prop) (cmp : A -> A -> comparison) (TC : total_cmp P cmp).
  Notation aframe := (@aframe A).

  (** The end: jsw_rbtree.c 261-265. *)
  Definition closing (head : N) (h : mem A) : result (N * mem A) :=
    do root <- get_link h head true;
    do h <- r_release h head;
    do h <- (if (root =? 0)%N then Ok h else set_red h root false);
    Ok (root, h).
  Lemma closing_ok head h (path : list aframe) R : owns h (pcells head path 0 ++ R) -> pathok 0 false (map erf path) ->
    exists root' h' t', closing head h = Ok (root', h') /\ tree_at h' root' t' R /\ redblack t'
      /\ rb_elems t' = lefts (map erf path) ++ rights (map erf path).
  Proof.
    intros H PK. unfold closing.
    assert (H1 : owns h (cells (@AL A) ++ pcells head path (ptr (@AL A)) ++ R)) by exact H.
    rewrite app_assoc in H1. eapply owns_perm in H1; [|rewrite (cells_plug head path AL); reflexivity].
    assert (H2 : owns h (head_cell head (ptr (aplug path AL)) :: cells (aplug path AL) ++ R)) by (eapply owns_perm; [exact H1|]; perm).
    unfold head_cell in H2. rewrite (get_dir _ _ _ _ _ _ _ _ H2). cbn [bind].
    destruct (owns_release _ _ _ _ H2) as (h1 & -> & H3). cbn [bind].
    assert (EL : rb_elems (er (aplug path AL)) = lefts (map erf path) ++ rights (map erf path)) by (rewrite er_aplug, elems_plug; reflexivity).
    assert (RB : exists m, rbt m (er (aplug path AL))) by (rewrite er_aplug; now apply plug_rbt with (n := 0%nat); [constructor|]).
    destruct RB as (m & RB). remember (aplug path AL) as t eqn:Et. destruct t as [|a c d l r].
    - cbn [ptr]. rewrite N.eqb_refl. cbn [bind]. exists 0%N, h1, RL. split; [reflexivity|]. split. { exists AL. auto. }
      split; [split; [reflexivity|exists 0%nat; constructor]|exact EL].
    - cbn [ptr]. assert (Na := owns_pos h1 (cells (AN a c d l r) ++ R) a _ H3 (or_introl eq_refl)). rewrite Na.
      destruct (setb_ok h1 (AN a c d l r) R false H3) as (h2 & E2 & H4); [easy|]. cbn [ptr] in E2. rewrite E2. cbn [bind].
      exists a, h2, (er (setb false (AN a c d l r))). split; [reflexivity|]. split. { exists (setb false (AN a c d l r)). auto. }
      rewrite er_setb, elems_set_black. split; [|exact EL]. split; [apply is_red_set_black|].
      destruct c. { exists (S m). now apply (rbt_set_black m). } exists m. exact RB.
  Qed.

  Lemma erase_at n h root t R x :
    tree_at h root t R -> redblack t -> Forall P (rb_elems t) -> sorted cmp (rb_elems t) -> P x -> (rb_size t < n)%nat ->
    exists root' h' t', p_rberase cmp n h root x = Ok (root', h') /\ tree_at h' root' t' R /\ redblack t'
      /\ ((exists l y r, rb_elems t = l ++ y :: r /\ rb_elems t' = l ++ r /\ cmp y x = Eq)
          \/ (rb_elems t' = rb_elems t /\ forall y, In y (rb_elems t) -> cmp y x <> Eq)).
  Proof.
    intros (a & <- & -> & H) (RB0 & k & RB) FP So Px Hn. unfold p_rberase. destruct a as [|a c d l r].
    { cbn [ptr]. rewrite N.eqb_refl. exists 0%N, h, RL. split; [reflexivity|]. split; [exists AL; auto|].
      split; [split; [reflexivity|exists 0%nat; constructor]|]. right. split; [reflexivity|easy]. }
    set (t := AN a c d l r) in *. assert (Na : (ptr t =? 0)%N = false) by (apply (owns_pos h (cells t ++ R) a _ H (or_introl eq_refl))). rewrite Na.
    destruct (owns_alloc h _ (rc false None true 0%N 0%N) H) as (head & h1 & E1 & H1). unfold rc in E1. rewrite E1.
    destruct (set_dir _ _ _ _ _ _ _ _ (ptr t) H1) as (h2 & -> & H2). cbn [bind].
    assert (H3 : owns h2 (cells t ++ pcells head [] (ptr t) ++ R)) by (eapply owns_perm; [exact H2|]; unfold pcells; cbn [top_addr top_cell around]; perm).
    destruct (down_ok head P cmp TC x n Px h2 t [] R 0%N 0%N k H3 Hn) as (path & f & h3 & E3 & NP & H4 & PK & RD & EL & S1 & S2 & S3); auto; try easy.
    { cbn. rewrite app_nil_r. exact FP. } { cbn. rewrite app_nil_r. exact So. }
    { split; [constructor|]. split; [intros _; constructor|easy]. }
    cbn [top_addr dof] in E3. rewrite E3. cbn [bind]. cbn [map lefts rights app] in EL. rewrite app_nil_r in EL. clear E1 E3.
    change (exists root' h' t', (do h <- (if (f =? 0)%N then Ok h3 else
         do c <- r_load h3 (top_addr head path);
         do h <- set_data h3 f (r_data c);
         do p1 <- get_link h (top_addr head (tl path)) true;
         do q0 <- get_link h (top_addr head path) false;
         do v <- get_link h (top_addr head path) (q0 =? 0)%N;
         do h <- set_link h (top_addr head (tl path)) (p1 =? top_addr head path)%N v;
         r_release h (top_addr head path)); closing head h) = Ok (root', h') /\ tree_at h' root' t' R /\ redblack t'
      /\ ((exists l y r, rb_elems (er t) = l ++ y :: r /\ rb_elems t' = l ++ r /\ cmp y x = Eq)
          \/ (rb_elems t' = rb_elems (er t) /\ forall y, In y (rb_elems (er t)) -> cmp y x <> Eq))).
    destruct (N.eqb_spec f 0) as [Ef|Nf].
    - cbn [bind]. destruct (closing_ok head h3 path R H4 PK) as (root' & h' & t' & -> & T & RBT & ET).
      exists root', h', t'. split; [reflexivity|]. split; [exact T|]. split; [exact RBT|]. right. split; [now rewrite ET|].
      rewrite <- EL. specialize (S2 Ef). rewrite Forall_forall in S1, S2. intros y I. apply in_app_or in I. destruct I as [I|I].
      + rewrite (S1 y I). discriminate.
      + rewrite (S2 y I). discriminate.
    - specialize (S3 Nf). destruct path as [|[qa dir qc qd qs] rest]; [easy|]. cbn [tl top_addr a_addr].
      assert (ES : qs = AL /\ pathok 0 false (map erf rest)).
      { cbn in PK, RD. destruct PK as (RS & PK). destruct qc.
        - destruct PK as (_ & NR & PK). split; [|now apply (pathok_black _ _ true)]. destruct qs as [|sa [] sd sl sr]; [easy|easy|]. cbn in RS. inversion RS.
        - destruct RD as [RD|[RD|(-> & NR)]]; try easy. split; [|exact Logic.I]. destruct qs as [|sa [] sd sl sr]; [easy|easy|]. cbn in RS. inversion RS. }
      destruct ES as (-> & PKr).
      rewrite (owns_load h3 _ qa _ H4 (or_introl eq_refl)). cbn [bind top_cell a_red a_data a_dir a_sib].
      replace (r_data (rc qc (Some qd) dir 0%N (ptr AL))) with (Some qd) by (now destruct dir).
      destruct (remark_ok head f _ qd _ _ _ _ S3 H4) as (h4 & -> & H5). cbn [bind].
      set (rest2 := if dir then remark qd rest else rest).
      assert (ER : remark qd (mkAF qa dir qc qd AL :: rest) = mkAF qa dir qc qd AL :: rest2) by (unfold rest2; cbn; now destruct dir).
      assert (ET : top_addr head rest = top_addr head rest2) by (unfold rest2; destruct dir; [now rewrite remark_top|reflexivity]).
      assert (PK2 : pathok 0 false (map erf rest2)) by (unfold rest2; destruct dir; [now apply remark_pathok|exact PKr]).
      rewrite ER in H5. rewrite ET.
      assert (H6 : owns h4 (pcells head rest2 qa ++ (qa, rc qc (Some qd) dir 0%N 0%N) :: R))
        by (eapply owns_perm; [exact H5|]; unfold pcells; cbn [top_addr top_cell around a_addr a_red a_data a_dir a_sib ptr cells]; perm).
      destruct (dir2_ok _ _ _ _ _ _ H6) as (b & -> & D2). cbn [bind]. rewrite D2.
      assert (H7 : owns h4 ((qa, rc qc (Some qd) dir 0%N 0%N) :: pcells head rest2 qa ++ R)) by (eapply owns_perm; [exact H6|]; perm).
      assert (G : forall b, get_link h4 qa b = Ok 0%N).
      { intros b'. destruct (Bool.bool_dec b' dir) as [->|Nb]; [exact (get_dir _ _ _ _ _ _ _ _ H7)|].
        replace b' with (negb dir) by (destruct b', dir; try reflexivity; now destruct Nb). exact (get_neg _ _ _ _ _ _ _ _ H7). }
      rewrite (G false). cbn [bind]. rewrite G. cbn [bind].
      destruct (relink_ok _ _ _ _ 0%N _ H6) as (h5 & -> & H8). cbn [bind].
      assert (H9 : owns h5 ((qa, rc qc (Some qd) dir 0%N 0%N) :: pcells head rest2 0%N ++ R)) by (eapply owns_perm; [exact H8|]; perm).
      destruct (owns_release _ _ _ _ H9) as (h6 & -> & H10). cbn [bind].
      destruct (closing_ok head h6 rest2 R H10 PK2) as (root' & h' & t' & -> & T & RBT & ET').
      exists root', h', t'. split; [reflexivity|]. split; [exact T|]. split; [exact RBT|]. left.
      destruct (marked_rights _ _ _ qd S3) as (d0 & Rr & E0 & C0 & E1).
      exists (lefts (map erf (mkAF qa dir qc qd AL :: rest))), d0, Rr. split; [now rewrite <- EL, E0|]. split; [|exact C0].
      rewrite ET'. rewrite ER in E1. unfold rest2 in *. clear - E1 E0. destruct dir; cbn in *.
      + rewrite remark_lefts, E1, <- app_assoc. reflexivity.
      + injection E0 as _ <-. reflexivity.
  Qed.
End Erase.
