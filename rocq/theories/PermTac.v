(** A tactic for permutations of concatenations. *)
From Coq Require Import List Permutation PeanoNat Bool.
Import ListNotations.

Section Perm.
  Context {A : Type}.
  Inductive pex := PAtom (n : nat) | PEmpty | PApp (a b : pex).
  Fixpoint pden (env : list (list A)) (e : pex) : list A :=
    match e with
    | PAtom n => nth n env []
    | PEmpty => []
    | PApp a b => pden env a ++ pden env b
    end.
  Fixpoint pflat (e : pex) : list nat :=
    match e with PAtom n => [n] | PEmpty => [] | PApp a b => pflat a ++ pflat b end.
  Definition pcat (env : list (list A)) (l : list nat) : list A := flat_map (fun n => nth n env []) l.
  Lemma pflat_ok env e : pden env e = pcat env (pflat e).
  Proof.
    unfold pcat. induction e as [n| |a IHa b IHb]; cbn; [now rewrite app_nil_r|reflexivity|].
    now rewrite flat_map_app, IHa, IHb.
  Qed.
  Lemma pcat_perm env l l' : Permutation l l' -> Permutation (pcat env l) (pcat env l').
  Proof. unfold pcat. intros H. now apply Permutation_flat_map. Qed.
  Fixpoint ptake (n : nat) (l : list nat) : option (list nat) :=
    match l with
    | [] => None
    | m :: t => if Nat.eqb n m then Some t else match ptake n t with Some t' => Some (m :: t') | None => None end
    end.
  Fixpoint psame (l l' : list nat) : bool :=
    match l with
    | [] => match l' with [] => true | _ => false end
    | n :: t => match ptake n l' with Some r => psame t r | None => false end
    end.
  Lemma ptake_ok n l r : ptake n l = Some r -> Permutation (n :: r) l.
  Proof.
    revert r. induction l as [|m t IH]; cbn; intros r H; [discriminate|].
    destruct (Nat.eqb_spec n m) as [->|].
    - injection H as <-. reflexivity.
    - destruct (ptake n t) as [t'|]; [|discriminate]. injection H as <-.
      rewrite perm_swap. now rewrite IH by reflexivity.
  Qed.
  Lemma psame_ok l l' : psame l l' = true -> Permutation l l'.
  Proof.
    revert l'. induction l as [|n t IH]; cbn; intros l' H; [destruct l'; [reflexivity|discriminate]|].
    destruct (ptake n l') as [r|] eqn:E; [|discriminate]. apply ptake_ok in E. rewrite <- E. now rewrite (IH r).
  Qed.
  Lemma perm_by env a b : psame (pflat a) (pflat b) = true -> Permutation (pden env a) (pden env b).
  Proof. intros H. rewrite !pflat_ok. apply pcat_perm, psame_ok, H. Qed.
End Perm.

Ltac p_lookup x env :=
  lazymatch env with
  | x :: _ => constr:(O)
  | _ :: ?t => let n := p_lookup x t in constr:(S n)
  end.
Ltac p_mem x env :=
  lazymatch env with
  | [] => constr:(false)
  | x :: _ => constr:(true)
  | _ :: ?t => p_mem x t
  end.
Ltac p_add x env := let b := p_mem x env in lazymatch b with true => env | false => constr:(x :: env) end.
Ltac p_env l env :=
  lazymatch l with
  | [] => env
  | ?x :: [] => p_add constr:([x]) env
  | ?x :: ?t => let env := p_add constr:([x]) env in p_env t env
  | ?a ++ ?b => let env := p_env a env in p_env b env
  | _ => p_add l env
  end.
Ltac p_reify l env :=
  lazymatch l with
  | [] => constr:(PEmpty)
  | ?x :: [] => let n := p_lookup constr:([x]) env in constr:(PAtom n)
  | ?x :: ?t => let n := p_lookup constr:([x]) env in let e := p_reify t env in constr:(PApp (PAtom n) e)
  | ?a ++ ?b => let x := p_reify a env in let y := p_reify b env in constr:(PApp x y)
  | _ => let n := p_lookup l env in constr:(PAtom n)
  end.
(** Solves [Permutation l l'] for lists built from the same parts with [::] and [++]. *)
Ltac perm :=
  lazymatch goal with
  | |- @Permutation ?A ?l ?r =>
      let env := p_env l (@nil (list A)) in
      let env := p_env r env in
      let a := p_reify l env in
      let b := p_reify r env in
      change (Permutation (@pden A env a) (@pden A env b)); apply perm_by; reflexivity
  end.

Example perm_test (a b : list nat) x y : Permutation (x :: a ++ y :: b ++ []) ((b ++ [y; x]) ++ a).
Proof. perm. Qed.
