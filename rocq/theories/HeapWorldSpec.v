(** Which blocks belong to a whole program, and how its memory relates to the values it stands for. *)
From Coq Require Import ZArith NArith String List Bool Permutation.
From Verif Require Import Base Value Ast Config Assign Special Match Tree PredMap Source Api Linked LinkedApi LinkedSpec LinkedFrame BisonTables Machine.
From Verif Require Import Ledger HeapExpr HeapSpec HeapConf HeapConfSpec HeapConfProofs HeapWorld.
Import ListNotations.
Local Open Scope Z_scope.

(** The state without the addresses of the ledger. *)
Definition er_world (w : wstate) : pstate := mkP (er_conf (w_conf w)) (w_pm w) (w_root w) (w_heap w) (w_made w).
(** The blocks of subscriptions, besides their structs. *)
Definition bl_subs (us : list (N * hsub)) : list Z := flat_map (fun x => bl_hsub (snd x)) us.
(** All blocks of the ledger that belong to the tree. *)
Definition bl_world (w : wstate) : list Z :=
  w_at w :: w_rb w :: map fst (w_keys w) ++ bl_conf (w_conf w) ++ bl_subs (w_subs w).
(** The expressions the predicate map points to. *)
Definition key_blocks (keys : list (Z * hexpr)) : list Z := flat_map (fun x => blocks (snd x)) keys.

(** The subscriptions of the heap are those of the list, with the same expressions. *)
Definition view (us : list (N * hsub)) : list (N * expr) := map (fun x => (fst x, er_expr (hu_expr (snd x)))) us.
Definition sview (h : heap) : list (N * expr) := map (fun x => (fst x, s_expr (snd x))) (subs_of (h_cells h)).
Definition paired (us : list (N * hsub)) (h : heap) : Prop := Permutation (view us) (sview h).

Definition w_ok (w : wstate) : Prop :=
  conf_ok (w_conf w) /\ wfh (w_heap w) /\ paired (w_subs w) (w_heap w) /\ incl (key_blocks (w_keys w)) (bl_subs (w_subs w)).

Lemma HeapSpec_perm m l l' : HeapSpec.holds m l -> Permutation l l' -> HeapSpec.holds m l'.
Proof. intros (A & B & C & D) P. split; [exact A|]. split; [now rewrite B|]. split; [exact (Permutation_NoDup P C)|]. exact (Permutation_Forall P D). Qed.
Lemma flat_map_single {A B} (f : A -> B) l : flat_map (fun x => [f x]) l = map f l.
Proof. induction l as [|x t IH]; [reflexivity|]. cbn. now rewrite IH. Qed.

Section WithGeo.
  Context {G : Geo}.
  (** A call that loses no block: its expression is read, no constant it needs is missing once it has been found valid, its
      event has a value for every variable that must have one. *)
  Definition clean_call (n : nat) (q : pstate) (k : tcall) : bool :=
    match k with
    | TInsert _ cs s =>
        match parse_c s with
        | Ok (Some e) =>
            let e := assign_variable_id (p_cfg q) e in
            match is_valid (p_cfg q) e with
            | Ok true => match assign_constants cs e with None => false | Some _ => true end
            | _ => true
            end
        | _ => false
        end
    | TMake _ _ s | TChange s => match parse_c s with Ok (Some _) => true | _ => false end
    | TSearch _ => match m_call n q k with Ok (RReport b _, _) => b | _ => true end
    | _ => true
    end.
  (** Every call of the program is. *)
  Fixpoint clean_run (n : nat) (q : pstate) (l : list tcall) : bool :=
    match l with
    | [] => true
    | k :: t => clean_call n q k && match m_call n q k with Ok (_, q) => clean_run n q t | _ => true end
    end.
  (** The tables of strings of every state of the program are neither empty nor too long. *)
  Fixpoint roomy_run (n : nat) (q : pstate) (l : list tcall) : bool :=
    roomy (p_cfg q) &&
    match l with
    | [] => true
    | k :: t => match m_call n q k with Ok (_, q) => roomy_run n q t | _ => true end
    end.
End WithGeo.
