(** The red-black tree of predicates: lookup, insertion, balance. *)
From Coq Require Import Arith Bool List Lia Sorting.Sorted.
From Verif Require Import Base RbTree BaseProofs CmpProofs.
Import ListNotations.

Section RB.
  Context {A : Type} (P : A -> Prop) (cmp : A -> A -> comparison) (TC : total_cmp P cmp).

  Definition ltA (a b : A) : Prop := cmp a b = Lt.
  Definition sorted (l : list A) : Prop := StronglySorted ltA l.

  Lemma cmp_refl x : P x -> cmp x x = Eq.
  Proof. intros H. pose proof (tc_anti _ _ TC x x H H). destruct (cmp x x); simpl in *; congruence. Qed.

  (** *** Colours and heights *)

  (** A tree without a red node below a red one, all paths with [n] black nodes. *)
  Inductive rbt : nat -> rb A -> Prop :=
  | rbt_leaf : rbt 0 RL
  | rbt_red n d l r : rbt n l -> rbt n r -> is_red l = false -> is_red r = false -> rbt n (RN true d l r)
  | rbt_black n d l r : rbt n l -> rbt n r -> rbt (S n) (RN false d l r).

  (** A red-black tree: moreover the root is black. *)
  Definition redblack (t : rb A) : Prop := is_red t = false /\ exists n, rbt n t.

  Fixpoint pathok (n : nat) (rd : bool) (path : list (frame A)) : Prop :=
    match path with
    | [] => True
    | f :: rest =>
        rbt n (f_sib f) /\
        (if f_red f then rd = false /\ is_red (f_sib f) = false /\ pathok n true rest
         else pathok (S n) false rest)
    end.

  Lemma rbt_node n red (d : A) dir x y :
    rbt n x -> rbt n y -> (red = true -> is_red x = false /\ is_red y = false) ->
    rbt (if red then n else S n) (node red d dir x y).
  Proof.
    intros Hx Hy H. unfold node. destruct dir, red; constructor; auto; now apply H.
  Qed.
  Lemma is_red_node red (d : A) dir x y : is_red (node red d dir x y) = red.
  Proof. destruct dir, red; reflexivity. Qed.

  Lemma plug_rbt path : forall n q, rbt n q -> pathok n (is_red q) path -> exists m, rbt m (plug path q).
  Proof.
    induction path as [|f rest IH]; intros n q Hq Hp; [eauto|].
    simpl in *. destruct Hp as [Hs Hp]. unfold plug1.
    apply (IH (if f_red f then n else S n)).
    - apply rbt_node; auto. intros E. rewrite E in Hp. tauto.
    - rewrite is_red_node. destruct (f_red f); tauto.
  Qed.

  (** Black with two black children (the second case of the rotations needs it of the next node). *)
  Definition quiet (q : rb A) : Prop :=
    match q with RN false _ l r => is_red l = false /\ is_red r = false | _ => False end.

  Definition next (q : rb A) (x : A) : rb A :=
    match q with
    | RL => RL
    | RN _ d l r => match cmp d x with Lt => r | Gt => l | Eq => RL end
    end.

  (** *** Elements *)
  Fixpoint lefts (path : list (frame A)) : list A :=
    match path with
    | [] => []
    | f :: rest => if f_dir f then lefts rest ++ rb_elems (f_sib f) ++ [f_data f] else lefts rest
    end.
  Fixpoint rights (path : list (frame A)) : list A :=
    match path with
    | [] => []
    | f :: rest => if f_dir f then rights rest else f_data f :: rb_elems (f_sib f) ++ rights rest
    end.

  Lemma elems_node red (d : A) dir x y :
    rb_elems (node red d dir x y) =
    if dir then rb_elems y ++ d :: rb_elems x else rb_elems x ++ d :: rb_elems y.
  Proof. destruct dir; reflexivity. Qed.

  Lemma elems_plug path : forall q, rb_elems (plug path q) = lefts path ++ rb_elems q ++ rights path.
  Proof.
    induction path as [|f rest IH]; intros q; simpl; [now rewrite app_nil_r|].
    rewrite IH. unfold plug1. rewrite elems_node. destruct (f_dir f); simpl; rewrite <- ?app_assoc; simpl; easy.
  Qed.

  Lemma in_root path c (d : A) l r : In d (rb_elems (plug path (RN c d l r))).
  Proof.
    rewrite elems_plug. simpl. apply in_or_app; right. apply in_or_app; left.
    apply in_or_app; right. now left.
  Qed.

  Lemma elems_set_black (t : rb A) : rb_elems (set_black t) = rb_elems t.
  Proof. now destruct t. Qed.
  Lemma size_set_black (t : rb A) : rb_size (set_black t) = rb_size t.
  Proof. now destruct t. Qed.

  (** *** Invariant of the loop *)
  Record inv (q : rb A) (path : list (frame A)) (stale n : nat) (x : A) : Prop := {
    i_rbt : rbt n q;
    i_path : pathok n (is_red q) path;
    i_dirs : Forall (fun f : frame A => cmp (f_data f) x = if f_dir f then Lt else Gt) path;
    i_stale : stale <= 2;
    i_one : stale = 1 -> quiet q;
    i_two : stale = 2 -> is_red q = true /\ quiet (next q x);
    i_root : path = [] -> is_red q = false;
    i_parent : forall p rest, path = p :: rest -> f_red p = true ->
                 quiet q \/ exists g rest', rest = g :: rest' /\ is_red (f_sib g) = false;
    i_sib : forall p rest, path = p :: rest -> is_red q = true -> is_red (f_sib p) = false \/ stale = 2 }.

  Definition need (q : rb A) (stale : nat) (x : A) : nat :=
    if Nat.eqb stale 2 then 2 * rb_size (next q x) + 2 else 2 * rb_size q + 1.

  (** Where the new element goes, or the tree keeps its elements. *)
  Definition inserted (x : A) (l0 l1 : list A) : Prop :=
    (l1 = l0 /\ exists y, In y l0 /\ cmp y x = Eq) \/
    (exists path q l r, l0 = l ++ r /\ l1 = l ++ x :: r /\ l = lefts path /\ r = rights path
       /\ q = @RL A
       /\ Forall (fun f : frame A => cmp (f_data f) x = if f_dir f then Lt else Gt) path).

  Lemma rbt_inv_red n d l r : rbt n (RN true d l r) -> rbt n l /\ rbt n r /\ is_red l = false /\ is_red r = false.
  Proof. inversion 1; auto. Qed.
  Lemma rbt_inv_black n d l r : rbt n (RN false d l r) -> exists k, n = S k /\ rbt k l /\ rbt k r.
  Proof. inversion 1; eauto. Qed.

  Lemma rbt_set_black n t : rbt n t -> is_red t = true -> rbt (S n) (set_black t) /\ quiet (set_black t).
  Proof.
    intros H E. destruct t as [|[] d l r]; try discriminate.
    apply rbt_inv_red in H. destruct H as (H1 & H2 & H3 & H4). simpl. split; [now constructor|auto].
  Qed.

  Lemma is_red_set_black (t : rb A) : is_red (set_black t) = false.
  Proof. now destruct t. Qed.
  Lemma quiet_not_red q : quiet q -> is_red q = false.
  Proof. destruct q as [|[] ? ? ?]; simpl; tauto. Qed.

  Lemma inv_two q (dir : bool) (d : A) sib rest n x :
    rbt n q -> rbt n sib -> is_red q = true -> quiet (next q x) -> pathok (S n) false rest ->
    Forall (fun f : frame A => cmp (f_data f) x = if f_dir f then Lt else Gt) rest ->
    cmp d x = (if dir then Lt else Gt) ->
    inv q (mkF dir false d sib :: rest) 2 n x.
  Proof.
    intros H1 H2 H3 H4 H5 H6 H7. split.
    - exact H1.
    - split; [exact H2|exact H5].
    - constructor; [exact H7|exact H6].
    - lia.
    - discriminate.
    - auto.
    - discriminate.
    - intros p r [= <- <-]. discriminate.
    - auto.
  Qed.

  (** A rotation at [q1], red below a red parent [p]. *)
  Lemma loop_ok fuel : forall q path stale n x,
    P x -> inv q path stale n x -> need q stale x <= fuel ->
    exists t, rb_loop cmp fuel q path stale x = Ok t /\ (exists m, rbt m t)
      /\ inserted x (rb_elems (plug path q)) (rb_elems t).
  Proof.
    induction fuel as [|fuel IH]; intros q path stale n x Px I Hf.
    { unfold need in Hf. destruct (Nat.eqb stale 2); lia. }
    destruct I as [Irbt Ipath Idirs Istale Ione Itwo Iroot Iparent Isib].
    cbn [rb_loop].
    destruct q as [|c d l r].
    - (* a new node *)
      assert (stale = 0) as ->.
      { destruct stale as [|[|[|?]]]; try lia; [specialize (Ione eq_refl)|specialize (Itwo eq_refl)];
          simpl in *; intuition discriminate. }
      assert (n = 0) as -> by (inversion Irbt; auto).
      cbn [fix_q is_red andb].
      destruct path as [|p rest].
      { cbn [bind]. rewrite cmp_refl by easy. eexists; split; [reflexivity|]. split.
        - exists 0. simpl. repeat constructor.
        - right. exists [], RL, [], []. simpl. repeat split; auto. }
      destruct (f_red p) eqn:Ep.
      + destruct (Iparent p rest eq_refl Ep) as [[]|(g & rest' & -> & Esg)].
        simpl in Ipath. rewrite Ep in Ipath. destruct Ipath as (Hsp & _ & Esp & Hsg & Hg).
        destruct (f_red g) eqn:Eg; [destruct Hg; discriminate|].
        destruct (Bool.eqb (f_dir p) (f_dir g)) eqn:Ed; cbn [bind].
        * apply eqb_prop in Ed. rewrite cmp_refl by easy.
          eexists; split; [reflexivity|]. split.
          -- apply (plug_rbt _ 0); [repeat constructor|]. simpl. split; [|exact Hg].
             apply (rbt_node 0 true); auto.
          -- right. exists (p :: g :: rest'), RL, (lefts (p :: g :: rest')), (rights (p :: g :: rest')).
             rewrite elems_plug. simpl. rewrite Ed.
             repeat split; auto.
             rewrite elems_plug. cbn [plug1 f_red f_data f_dir f_sib plug]. unfold plug1. simpl.
             rewrite !elems_node.
             destruct (f_dir g); simpl; rewrite <- ?app_assoc; simpl; rewrite <- ?app_assoc; reflexivity.
        * assert (f_dir p = negb (f_dir g)) as Ed' by (destruct (f_dir p), (f_dir g); easy).
          unfold node at 1. destruct (f_dir g) eqn:Egd; rewrite cmp_refl by easy;
            (eexists; split; [reflexivity|]; split;
             [apply (plug_rbt _ 1); [|exact Hg];
              constructor; [apply (rbt_node 0 true)|apply (rbt_node 0 true)]; auto; try constructor
             |right; exists (p :: g :: rest'), RL, (lefts (p :: g :: rest')), (rights (p :: g :: rest'));
              rewrite elems_plug; simpl; rewrite Ed', Egd; simpl; repeat split; auto;
              rewrite elems_plug; simpl; rewrite <- ?app_assoc; simpl; rewrite <- ?app_assoc; reflexivity]).
      + cbn [bind]. rewrite cmp_refl by easy. eexists; split; [reflexivity|]. split.
        * apply (plug_rbt _ 0); [repeat constructor|]. simpl in *. rewrite Ep in *. exact Ipath.
        * right. exists (p :: rest), RL, (lefts (p :: rest)), (rights (p :: rest)).
          rewrite !elems_plug. repeat split; auto.
    - (* an existing node *)
      cbn [fix_q]. destruct (is_red l && is_red r) eqn:Ef.
      + (* two red children *)
        apply andb_true_iff in Ef. destruct Ef as [El Er].
        destruct c.
        { apply rbt_inv_red in Irbt. destruct Irbt as (_ & _ & ? & _). congruence. }
        assert (stale = 0) as ->.
        { destruct stale as [|[|[|?]]]; try lia; [specialize (Ione eq_refl)|specialize (Itwo eq_refl)];
            simpl in *; intuition congruence. }
        apply rbt_inv_black in Irbt. destruct Irbt as (k & -> & Hl & Hr).
        destruct (rbt_set_black _ _ Hl El) as [Hl' Ql].
        destruct (rbt_set_black _ _ Hr Er) as [Hr' Qr].
        cbn [is_red] in *.
        set (l' := set_black l) in *. set (r' := set_black r) in *.
        assert (rb_elems l' = rb_elems l /\ rb_size l' = rb_size l /\ is_red l' = false) as (ELl & SZl & RDl).
        { unfold l'. now rewrite elems_set_black, size_set_black, is_red_set_black. }
        assert (rb_elems r' = rb_elems r /\ rb_size r' = rb_size r /\ is_red r' = false) as (ELr & SZr & RDr).
        { unfold r'. now rewrite elems_set_black, size_set_black, is_red_set_black. }
        clearbody l' r'.
        unfold need in Hf. simpl in Hf.
        assert (forall path', 
          pathok (S k) true path' ->
          Forall (fun f : frame A => cmp (f_data f) x = if f_dir f then Lt else Gt) path' ->
          rb_elems (plug path' (RN true d l' r')) = rb_elems (plug path (RN false d l r)) ->
          forall st, st <= 1 ->
          exists t,
           match cmp d x with
           | Eq => Ok (plug path' (RN true d l' r'))
           | Lt => rb_loop cmp fuel r' (mkF true true d l' :: path') st x
           | Gt => rb_loop cmp fuel l' (mkF false true d r' :: path') st x
           end = Ok t /\ (exists m, rbt m t)
           /\ inserted x (rb_elems (plug path (RN false d l r))) (rb_elems t)) as K.
        { intros path' Hp' Hd' EL st Hst. destruct (cmp d x) eqn:Ec.
          - eexists; split; [reflexivity|]. split.
            + apply (plug_rbt _ (S k)); [constructor; auto|exact Hp'].
            + left. split; [exact EL|]. exists d. split; [|exact Ec].
              apply in_root.
          - rewrite <- EL. apply (IH r' (mkF true true d l' :: path') st (S k) x Px).
            + split; try lia; try discriminate; try assumption.
              all: try (cbn [pathok f_sib f_red]; rewrite RDr; now auto).
              all: try (now constructor).
              all: try (intros _; assumption).
              all: try (intros p rest [= <- <-] _; now left).
              all: try (intros p rest [= <- <-]; rewrite RDr; discriminate).
            + unfold need. destruct (Nat.eqb_spec st 2); [lia|]. rewrite SZr. lia.
          - rewrite <- EL. apply (IH l' (mkF false true d r' :: path') st (S k) x Px).
            + split; try lia; try discriminate; try assumption.
              all: try (cbn [pathok f_sib f_red]; rewrite RDl; now auto).
              all: try (now constructor).
              all: try (intros _; assumption).
              all: try (intros p rest [= <- <-] _; now left).
              all: try (intros p rest [= <- <-]; rewrite RDl; discriminate).
            + unfold need. destruct (Nat.eqb_spec st 2); [lia|]. rewrite SZl. lia. }
        destruct path as [|p rest].
        { cbn [andb bind]. apply K; auto. simpl. now rewrite ELl, ELr. }
        destruct (f_red p) eqn:Ep; cbn [andb].
        * destruct (Iparent p rest eq_refl Ep) as [Hq|(g & rest' & -> & Esg)].
          { simpl in Hq. destruct Hq; congruence. }
          simpl in Ipath. rewrite Ep in Ipath. destruct Ipath as (Hsp & _ & Esp & Hsg & Hg).
          destruct (f_red g) eqn:Eg; [destruct Hg; discriminate|].
          inversion Idirs as [|? ? Dp Idirs' ]; subst. inversion Idirs' as [|? ? Dg Drest]; subst.
          destruct (Bool.eqb (f_dir p) (f_dir g)) eqn:Ed; cbn [bind].
          -- (* single rotation *)
             apply eqb_prop in Ed. apply K; auto.
             ++ cbn [pathok f_sib f_red]. split; [apply (rbt_node (S k) true); auto|exact Hg].
             ++ constructor; [cbn [f_data f_dir]; now rewrite <- Ed|auto].
             ++ rewrite !elems_plug. cbn [lefts rights f_dir f_sib f_data]. rewrite Ed.
                cbn [rb_elems]. rewrite ELl, ELr.
                destruct (f_dir g); cbn [lefts rights]; rewrite ?elems_node, <- ?app_assoc; simpl;
                  rewrite <- ?app_assoc; reflexivity.
          -- (* double rotation *)
             assert (f_dir p = negb (f_dir g)) as Ed' by (destruct (f_dir p), (f_dir g); easy).
             assert (rbt (S (S k)) (node false d (f_dir g)
                (node true (f_data p) (f_dir g) (f_sib p) (if f_dir g then r' else l'))
                (node true (f_data g) (f_dir g) (if f_dir g then l' else r') (f_sib g)))) as HN.
             { apply (rbt_node (S k) false); [apply (rbt_node (S k) true)|apply (rbt_node (S k) true)|easy];
                 destruct (f_dir g); auto. }
             assert (rb_elems (plug rest' (node false d (f_dir g)
                (node true (f_data p) (f_dir g) (f_sib p) (if f_dir g then r' else l'))
                (node true (f_data g) (f_dir g) (if f_dir g then l' else r') (f_sib g))))
                = rb_elems (plug (p :: g :: rest') (RN false d l r))) as EL.
             { rewrite !elems_plug. cbn [lefts rights]. rewrite Ed'.
               rewrite !elems_node. cbn [rb_elems].
               destruct (f_dir g); cbn [negb lefts rights]; rewrite ?elems_node, ?ELl, ?ELr, <- ?app_assoc; simpl;
                 rewrite <- ?app_assoc; simpl; rewrite <- ?app_assoc; reflexivity. }
             rewrite <- EL.
             destruct (f_dir g) eqn:Egd; cbn [node negb] in *.
             ++ (* g's link 1 is p, p's link 0 is q *)
                rewrite Ed' in Dp.
                destruct (cmp d x) eqn:Ec.
                ** eexists; split; [reflexivity|]. split.
                   { apply (plug_rbt _ (S (S k))); [exact HN|exact Hg]. }
                   left. split; [easy|]. exists d. split; [|easy].
                   apply in_root.
                ** cbn [pred]. match goal with |- exists t, rb_loop _ _ ?a ?b _ _ = _ /\ _ => apply (IH a b 2 (S k) x Px) end.
                   { apply rbt_inv_black in HN. destruct HN as (k' & [= <-] & N1 & N2).
                     apply inv_two; auto. cbn [next]. rewrite Dp. assumption. }
                   { unfold need. cbn [Nat.eqb next]. rewrite Dp. clear - Hf SZl SZr. lia. }
                ** cbn [pred]. match goal with |- exists t, rb_loop _ _ ?a ?b _ _ = _ /\ _ => apply (IH a b 2 (S k) x Px) end.
                   { apply rbt_inv_black in HN. destruct HN as (k' & [= <-] & N1 & N2).
                     apply inv_two; auto. cbn [next]. rewrite Dg. assumption. }
                   { unfold need. cbn [Nat.eqb next]. rewrite Dg. clear - Hf SZl SZr. lia. }
             ++ rewrite Ed' in Dp.
                destruct (cmp d x) eqn:Ec.
                ** eexists; split; [reflexivity|]. split.
                   { apply (plug_rbt _ (S (S k))); [exact HN|exact Hg]. }
                   left. split; [easy|]. exists d. split; [|easy].
                   apply in_root.
                ** cbn [pred]. match goal with |- exists t, rb_loop _ _ ?a ?b _ _ = _ /\ _ => apply (IH a b 2 (S k) x Px) end.
                   { apply rbt_inv_black in HN. destruct HN as (k' & [= <-] & N1 & N2).
                     apply inv_two; auto. cbn [next]. rewrite Dg. assumption. }
                   { unfold need. cbn [Nat.eqb next]. rewrite Dg. clear - Hf SZl SZr. lia. }
                ** cbn [pred]. match goal with |- exists t, rb_loop _ _ ?a ?b _ _ = _ /\ _ => apply (IH a b 2 (S k) x Px) end.
                   { apply rbt_inv_black in HN. destruct HN as (k' & [= <-] & N1 & N2).
                     apply inv_two; auto. cbn [next]. rewrite Dp. assumption. }
                   { unfold need. cbn [Nat.eqb next]. rewrite Dp. clear - Hf SZl SZr. lia. }
        * cbn [bind]. cbn [pathok] in Ipath. rewrite Ep in Ipath. apply K; auto.
          -- cbn [pathok]. rewrite Ep. exact Ipath.
          -- rewrite !elems_plug. cbn [rb_elems]. now rewrite ELl, ELr.
      + (* no change *)
        replace (is_red (RN c d l r) && match path with p :: _ => f_red p | [] => false end) with false.
        2:{ symmetry. destruct path as [|p rest]; [apply andb_false_r|].
            simpl in Ipath |- *. destruct c; [|easy]. destruct (f_red p); [|easy]. intuition discriminate. }
        cbn [bind].
        assert (rbt (if c then n else pred n) l /\ rbt (if c then n else pred n) r) as [Hl Hr].
        { destruct c; [apply rbt_inv_red in Irbt|apply rbt_inv_black in Irbt].
          - tauto.
          - destruct Irbt as (k & -> & ? & ?). auto. }
        assert (c = false -> S (pred n) = n) as Hn.
        { intros ->. apply rbt_inv_black in Irbt. destruct Irbt as (k & -> & _). reflexivity. }
        assert (pathok (if c then n else S (pred n)) c path) as Hp'.
        { destruct c; [exact Ipath|]. rewrite Hn by easy. exact Ipath. }
        destruct (cmp d x) eqn:Ec.
        * eexists; split; [reflexivity|]. split; [eapply plug_rbt; eauto|].
          left. split; [easy|]. exists d. split; [|easy].
          apply in_root.
        * assert (rb_elems (plug path (RN c d l r)) = rb_elems (plug (mkF true c d l :: path) r)) as -> by reflexivity.
          apply (IH r (mkF true c d l :: path) (pred stale) (if c then n else pred n) x Px).
          -- split; [assumption| |now constructor|lia| |lia|discriminate| |].
             ++ cbn [pathok f_sib f_red]. split; [exact Hl|].
                destruct c; [|exact Hp'].
                apply rbt_inv_red in Irbt. tauto.
             ++ intros E. assert (stale = 2) as -> by lia.
                destruct (Itwo eq_refl) as (_ & Hx). cbn [next] in Hx. rewrite Ec in Hx. exact Hx.
             ++ intros p rest [= <- <-]. cbn [f_red]. intros ->.
                destruct path as [|p rest]; [specialize (Iroot eq_refl); discriminate|].
                destruct (Isib p rest eq_refl eq_refl) as [Hs| ->]; [right; eauto|].
                destruct (Itwo eq_refl) as (_ & Hx). cbn [next] in Hx. rewrite Ec in Hx. now left.
             ++ intros p rest [= <- <-] Er. cbn [f_sib].
                rewrite Er, andb_true_r in Ef. now left.
          -- unfold need in *. destruct (Nat.eqb_spec stale 2) as [->|]; cbn [pred Nat.eqb].
             ++ cbn [next] in Hf. rewrite Ec in Hf. lia.
             ++ simpl in Hf. destruct (Nat.eqb_spec (pred stale) 2); [lia|]. lia.
        * assert (rb_elems (plug path (RN c d l r)) = rb_elems (plug (mkF false c d r :: path) l)) as -> by reflexivity.
          apply (IH l (mkF false c d r :: path) (pred stale) (if c then n else pred n) x Px).
          -- split; [assumption| |now constructor|lia| |lia|discriminate| |].
             ++ cbn [pathok f_sib f_red]. split; [exact Hr|].
                destruct c; [|exact Hp'].
                apply rbt_inv_red in Irbt. tauto.
             ++ intros E. assert (stale = 2) as -> by lia.
                destruct (Itwo eq_refl) as (_ & Hx). cbn [next] in Hx. rewrite Ec in Hx. exact Hx.
             ++ intros p rest [= <- <-]. cbn [f_red]. intros ->.
                destruct path as [|p rest]; [specialize (Iroot eq_refl); discriminate|].
                destruct (Isib p rest eq_refl eq_refl) as [Hs| ->]; [right; eauto|].
                destruct (Itwo eq_refl) as (_ & Hx). cbn [next] in Hx. rewrite Ec in Hx. now left.
             ++ intros p rest [= <- <-] El. cbn [f_sib].
                rewrite El in Ef. now left.
          -- unfold need in *. destruct (Nat.eqb_spec stale 2) as [->|]; cbn [pred Nat.eqb].
             ++ cbn [next] in Hf. rewrite Ec in Hf. lia.
             ++ simpl in Hf. destruct (Nat.eqb_spec (pred stale) 2); [lia|]. lia.
  Qed.

  (** *** Order *)
  Lemma sorted_app l r : sorted (l ++ r) <->
    sorted l /\ sorted r /\ (forall a b, In a l -> In b r -> cmp a b = Lt).
  Proof.
    unfold sorted. induction l as [|a l IH]; simpl.
    - split; [intros H; repeat split; auto; try constructor; easy|tauto].
    - split.
      + inversion 1 as [|? ? H1 H2]; subst. apply IH in H1. destruct H1 as (H1 & H3 & H4).
        rewrite Forall_app in H2. destruct H2 as [H2 H5].
        repeat split; auto; [now constructor|].
        intros x y [<-|Hx] Hy; auto. rewrite Forall_forall in H5. now apply H5.
      + intros (H1 & H2 & H3). inversion H1; subst. constructor.
        * apply IH. repeat split; auto.
        * apply Forall_app. split; auto. apply Forall_forall. intros y Hy. apply H3; auto.
  Qed.

  Lemma lefts_lt path x : P x -> Forall P (lefts path) -> sorted (lefts path) ->
    Forall (fun f : frame A => cmp (f_data f) x = if f_dir f then Lt else Gt) path ->
    forall y, In y (lefts path) -> cmp y x = Lt.
  Proof.
    intros Px. induction path as [|f rest IH]; simpl; intros HP HS HF y Hy; [easy|].
    inversion HF as [|? ? F1 F2]; subst.
    destruct (f_dir f); [|now apply IH].
    apply sorted_app in HS. destruct HS as (S1 & S2 & S3).
    apply Forall_app in HP. destruct HP as (P1 & P2). apply Forall_app in P2. destruct P2 as (P2 & P3).
    apply sorted_app in S2. destruct S2 as (S4 & _ & S5).
    apply in_app_or in Hy. destruct Hy as [Hy|Hy]; [now apply IH|].
    apply in_app_or in Hy. destruct Hy as [Hy|[<-|[]]]; [|easy].
    rewrite Forall_forall in P2. inversion P3; subst.
    apply (tc_lt _ _ TC) with (y := f_data f); auto. apply S5; simpl; auto.
  Qed.

  Lemma rights_gt path x : P x -> Forall P (rights path) -> sorted (rights path) ->
    Forall (fun f : frame A => cmp (f_data f) x = if f_dir f then Lt else Gt) path ->
    forall y, In y (rights path) -> cmp x y = Lt.
  Proof.
    intros Px. induction path as [|f rest IH]; simpl; intros HP HS HF y Hy; [easy|].
    inversion HF as [|? ? F1 F2]; subst.
    destruct (f_dir f); [now apply IH|].
    inversion HP as [|? ? P1 P2]; subst. apply Forall_app in P2. destruct P2 as (P2 & P3).
    inversion HS as [|? ? S1 S2]; subst. apply sorted_app in S1. destruct S1 as (S3 & S4 & S5).
    assert (cmp x (f_data f) = Lt) as HL.
    { rewrite (tc_anti _ _ TC (f_data f) x) by auto. rewrite F1. reflexivity. }
    destruct Hy as [<-|Hy]; [easy|].
    rewrite Forall_forall in S2.
    apply (tc_lt _ _ TC) with (y := f_data f); auto; [|now apply S2].
    rewrite Forall_forall in P2, P3. apply in_app_or in Hy. destruct Hy; auto.
  Qed.

  (** The elements after inserting an element none of the others equals. *)
  Definition inserts (x : A) (l0 l1 : list A) : Prop :=
    exists l r, l0 = l ++ r /\ l1 = l ++ x :: r.

  Lemma rb_insert_ok t x :
    P x -> redblack t -> Forall P (rb_elems t) -> sorted (rb_elems t) ->
    exists t', rb_insert cmp t x = Ok t' /\ redblack t' /\ sorted (rb_elems t')
      /\ ((rb_elems t' = rb_elems t /\ exists y, In y (rb_elems t) /\ cmp y x = Eq)
          \/ (inserts x (rb_elems t) (rb_elems t') /\ forall y, In y (rb_elems t) -> cmp y x <> Eq)).
  Proof.
    intros Px [Hb [n Hr]] HP HS. destruct t as [|c d l r].
    - exists (RN false x RL RL). split; [reflexivity|]. split; [|split].
      + split; [easy|]. exists 1. repeat constructor.
      + repeat constructor.
      + right. split; [|easy]. exists [], []. auto.
    - destruct (loop_ok (3 * rb_size (RN c d l r) + 4) (RN c d l r) [] 0 n x Px)
        as (t & E & [m Ht] & Hins).
      + split; [exact Hr|exact I|constructor|lia|discriminate|discriminate|intros _; exact Hb|discriminate|discriminate].
      + unfold need. cbn [Nat.eqb]. lia.
      + unfold rb_insert. rewrite E. cbn [bind]. exists (set_black t). split; [reflexivity|].
        rewrite elems_set_black. split.
        { split; [now destruct t|]. destruct (is_red t) eqn:Et.
          - destruct (rbt_set_black _ _ Ht Et) as [? _]. eauto.
          - destruct t as [|[] ? ? ?]; try discriminate; eauto. }
        cbn [plug] in Hins. remember (rb_elems (RN c d l r)) as l0. clear Heql0.
        destruct Hins as [[-> Hy]|(path & q & l1 & r1 & -> & -> & -> & -> & -> & HF)]; [auto|].
        apply sorted_app in HS. destruct HS as (S1 & S2 & S3).
        apply Forall_app in HP. destruct HP as [P1 P2].
        pose proof (lefts_lt path x Px P1 S1 HF) as L.
        pose proof (rights_gt path x Px P2 S2 HF) as R.
        split.
        * apply sorted_app. split; [exact S1|]. split.
          -- constructor; auto. apply Forall_forall. exact R.
          -- intros a b Ha [<-|Hb']; auto.
        * right. split; [exists (lefts path), (rights path); auto|].
          intros y Hy Ey. apply in_app_or in Hy. destruct Hy as [Hy|Hy].
          -- rewrite L in Ey by easy. discriminate.
          -- specialize (R y Hy). rewrite Forall_forall in P2.
             rewrite (tc_anti _ _ TC x y) in Ey by auto. rewrite R in Ey. discriminate.
  Qed.

  Lemma rb_find_some t : forall x y, rb_find cmp t x = Some y -> In y (rb_elems t) /\ cmp y x = Eq.
  Proof.
    induction t as [|c d l IHl r IHr]; simpl; intros x y H; [discriminate|].
    destruct (cmp d x) eqn:E.
    - injection H as <-. split; [|easy]. apply in_or_app. right. now left.
    - apply IHr in H. split; [|tauto]. apply in_or_app. right. right. tauto.
    - apply IHl in H. split; [|tauto]. apply in_or_app. left. tauto.
  Qed.

  Lemma rb_find_none t : forall x, P x -> Forall P (rb_elems t) -> sorted (rb_elems t) ->
    rb_find cmp t x = None -> forall y, In y (rb_elems t) -> cmp y x <> Eq.
  Proof.
    induction t as [|c d l IHl r IHr]; simpl; intros x Px HP HS H y Hy; [easy|].
    apply sorted_app in HS. destruct HS as (S1 & S2 & S3). inversion S2 as [|? ? S4 S5]; subst.
    apply Forall_app in HP. destruct HP as [P1 P2]. inversion P2 as [|? ? P3 P4]; subst.
    rewrite Forall_forall in S5. 
    assert (forall z, In z (rb_elems l) -> P z) as Pl by now apply Forall_forall.
    assert (forall z, In z (rb_elems r) -> P z) as Pr by now apply Forall_forall.
    apply in_app_or in Hy. simpl in Hy.
    destruct (cmp d x) eqn:E; [discriminate| |].
    - destruct Hy as [Hy|[<-|Hy]]; [|congruence|now apply IHr].
      rewrite (tc_lt _ _ TC y d x); auto; try congruence. apply S3; simpl; auto.
    - destruct Hy as [Hy|[<-|Hy]]; [now apply IHl|congruence|].
      rewrite (tc_anti _ _ TC x y) by auto.
      rewrite (tc_lt _ _ TC x d y); auto; try (simpl; congruence); [|now apply S5].
      rewrite (tc_anti _ _ TC d x) by auto. now rewrite E.
  Qed.
End RB.

(** Any sequence of insertions. *)
Fixpoint insert_all {A} (cmp : A -> A -> comparison) (t : rb A) (xs : list A) : result (rb A) :=
  match xs with
  | [] => Ok t
  | x :: xs' => bind (rb_insert cmp t x) (fun t' => insert_all cmp t' xs')
  end.
(** Number of nodes on the longest path. *)
Fixpoint height {A} (t : rb A) : nat :=
  match t with RL => 0 | RN _ _ l r => S (Nat.max (height l) (height r)) end.

Lemma rbt_height {A} n (t : rb A) : rbt n t -> height t <= 2 * n + (if is_red t then 1 else 0).
Proof.
  induction 1 as [|n d l r _ IHl _ IHr El Er|n d l r _ IHl _ IHr]; simpl in *; [lia| |].
  - rewrite El in IHl. rewrite Er in IHr. lia.
  - destruct (is_red l), (is_red r); lia.
Qed.
Lemma rbt_size {A} n (t : rb A) : rbt n t -> 2 ^ n <= S (length (rb_elems t)).
Proof.
  induction 1 as [|n d l r _ IHl _ IHr El Er|n d l r _ IHl _ IHr]; simpl; [lia| |];
    rewrite app_length; simpl; lia.
Qed.
Lemma redblack_height {A} (t : rb A) : redblack t -> 2 ^ (height t / 2) <= S (length (rb_elems t)).
Proof.
  intros [Hb [n Hn]]. pose proof (rbt_height _ _ Hn) as H. rewrite Hb in H.
  pose proof (rbt_size _ _ Hn) as H1.
  assert (height t / 2 <= n) as H2.
  { apply Nat.div_le_upper_bound; lia. }
  pose proof (Nat.pow_le_mono_r 2 _ _ ltac:(lia) H2). lia.
Qed.

Lemma rb_find_correct {A} (P : A -> Prop) cmp (TC : total_cmp P cmp) t x :
  P x -> Forall P (rb_elems t) -> sorted cmp (rb_elems t) ->
  match rb_find cmp t x with
  | Some y => In y (rb_elems t) /\ cmp y x = Eq
  | None => forall y, In y (rb_elems t) -> cmp y x <> Eq
  end.
Proof.
  intros Px HP HS. destruct (rb_find cmp t x) eqn:E.
  - eapply rb_find_some; eauto.
  - eapply rb_find_none; eauto.
Qed.

Lemma insert_all_ok {A} (P : A -> Prop) cmp (TC : total_cmp P cmp) xs : forall t,
  Forall P xs -> redblack t -> Forall P (rb_elems t) -> sorted cmp (rb_elems t) ->
  exists t', insert_all cmp t xs = Ok t' /\ redblack t' /\ Forall P (rb_elems t') /\ sorted cmp (rb_elems t')
    /\ (forall x, P x -> ((exists y, In y (rb_elems t') /\ cmp y x = Eq)
                          <-> exists y, (In y (rb_elems t) \/ In y xs) /\ cmp y x = Eq)).
Proof.
  induction xs as [|a xs IH]; intros t HX HR HP HS; simpl.
  - exists t. split; [easy|]. split; [easy|]. split; [easy|]. split; [easy|].
    intros x Px. split; intros (y & Hy & E); [|destruct Hy as [Hy|[]]]; eauto.
  - inversion HX as [|? ? Pa HX']; subst.
    destruct (rb_insert_ok P cmp TC t a Pa HR HP HS) as (t1 & E & R1 & S1 & Hins).
    rewrite E. cbn [bind].
    assert (Forall P (rb_elems t1)) as P1.
    { destruct Hins as [[-> _]|[(l & r & E0 & E1) _]]; [easy|]. rewrite E1. rewrite E0 in HP.
      apply Forall_app in HP. apply Forall_app. destruct HP. split; auto. }
    destruct (IH t1 HX' R1 P1 S1) as (t2 & E2 & R2 & P2 & S2 & K).
    exists t2. split; [easy|]. split; [easy|]. split; [easy|]. split; [easy|].
    intros x Px. split; intros H.
    + apply K in H; [|easy]. destruct H as (y & Hy & Ey).
      destruct Hins as [[Eq1 _]|[(l & r & E0 & E1) _]].
      * rewrite Eq1 in Hy. exists y. tauto.
      * destruct Hy as [Hy|Hy]; [|eauto].
        rewrite E1 in Hy. rewrite E0. apply in_app_or in Hy. simpl in Hy.
        exists y. split; [|easy]. rewrite in_app_iff. intuition.
    + apply K; [easy|]. destruct H as (y & Hy & Ey).
      destruct Hins as [[Eq1 (z & Hz & Ez)]|[(l & r & E0 & E1) _]].
      * rewrite Eq1. destruct Hy as [Hy|[<-|Hy]]; eauto.
        exists z. split; [auto|]. rewrite Forall_forall in HP.
        rewrite <- Ey. apply (tc_eq _ _ TC); auto.
      * exists y. split; [|easy]. rewrite E1. rewrite E0 in Hy.
        rewrite !in_app_iff in *. simpl. intuition.
Qed.

Lemma rb_history {A} (P : A -> Prop) cmp (TC : total_cmp P cmp) xs :
  Forall P xs ->
  exists t, insert_all cmp RL xs = Ok t /\ redblack t /\ sorted cmp (rb_elems t)
    /\ (forall x, P x -> (rb_find cmp t x <> None <-> exists y, In y xs /\ cmp y x = Eq))
    /\ 2 ^ (height t / 2) <= S (length (rb_elems t)).
Proof.
  intros HX.
  destruct (insert_all_ok P cmp TC xs RL HX) as (t & E & R & HP & HS & K); simpl; try constructor.
  - easy.
  - exists 0. constructor.
  - exists t. split; [easy|]. split; [easy|]. split; [easy|]. split; [|now apply redblack_height].
    intros x H. split.
    + intros Hf. pose proof (rb_find_correct P cmp TC t x H HP HS) as F.
      destruct (rb_find cmp t x) as [y|]; [|congruence].
      destruct (proj1 (K x H)) as (z & [[]|Hz] & Ez); eauto.
    + intros (y & Hy & Ey) Hf. pose proof (rb_find_correct P cmp TC t x H HP HS) as F.
      rewrite Hf in F. destruct (proj2 (K x H)) as (z & Hz & Ez); [eauto|]. now apply (F z).
Qed.
