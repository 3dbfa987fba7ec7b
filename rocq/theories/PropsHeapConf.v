(** Properties of the memory of the configuration. *)
From Coq Require Import ZArith NArith String Bool List Lia Permutation.
From Verif Require Import Base Float Value Ast Config HashMap Ledger HeapExpr HeapSpec HeapEventSpec HeapConf HeapConfSpec.
From Verif Require Import LedgerProofs HeapConfProofs.
Import ListNotations.
Local Open Scope Z_scope.
Local Open Scope string_scope.
Local Open Scope list_scope.

(** C62: a configuration is made, variables are declared, strings and integers get numbers or are looked up, in any order and
    number; then it is released.  With hash tables, arrays and names in memory each call gives the number that Config.v gives,
    the memory afterwards is what was there before and the blocks of the configuration, each once, and releasing the
    configuration gives back exactly these. *)
Theorem C62_conf cap minpart os nums c m l :
  c_run (make_config cap minpart) os = Ok (nums, c) -> c_roomy (make_config cap minpart) os = true -> holds m l ->
  exists k0 m0 k m1 m2,
    k_make cap minpart m = Ok (k0, m0) /\ er_conf k0 = make_config cap minpart /\ holds m0 (bl_conf k0 ++ l) /\
    k_run k0 os m0 = Ok ((nums, k), m1) /\ er_conf k = c /\ holds m1 (bl_conf k ++ l) /\
    k_free k m1 = Ok (tt, m2) /\ holds m2 l.
Proof.
  intros G R H.
  destruct (make_ok cap minpart m l (fun k m' => er_conf k = make_config cap minpart /\ conf_ok k /\ holds m' (bl_conf k ++ l)) H) as (k0 & m0 & E0 & Ec & O0 & H0).
  { intros k m' X Y Z. exact (conj X (conj Y Z)). }
  rewrite <- Ec in G, R.
  destruct (run_ok os k0 nums c m0 l (fun r m' => fst r = nums /\ er_conf (snd r) = c /\ conf_ok (snd r) /\ holds m' (bl_conf (snd r) ++ l)) G R O0 H0)
    as ([nums' k] & m1 & E1 & En & Ek & O1 & H1).
  { intros k m' X Y Z. exact (conj eq_refl (conj X (conj Y Z))). }
  cbn [fst snd] in *. subst nums'.
  destruct (conf_free_ok k m1 l (fun _ m' => holds m' l) O1 H1 ltac:(intros m' X; exact X)) as ([] & m2 & E2 & H2).
  exists k0, m0, k, m1, m2. now repeat (split; [eassumption|]).
Qed.
Print Assumptions C62_conf.

(** Calls that only look something up leave every block as it is. *)
Theorem C62_lookup cap minpart os nums c m l :
  c_run (make_config cap minpart) os = Ok (nums, c) -> c_roomy (make_config cap minpart) os = true -> holds m l ->
  exists k0 m0 k m1,
    k_make cap minpart m = Ok (k0, m0) /\ k_run k0 os m0 = Ok ((nums, k), m1) /\
    (forall v s, In (hs_at s) l -> k_try_str k v s m1 = Ok (try_get_str c v (hs_text s), m1)) /\
    (forall v z, k_try_ie k v z m1 = Ok (try_get_ie c v z, m1)).
Proof.
  intros G R H.
  destruct (make_ok cap minpart m l (fun k m' => er_conf k = make_config cap minpart /\ conf_ok k /\ holds m' (bl_conf k ++ l)) H) as (k0 & m0 & E0 & Ec & O0 & H0).
  { intros k m' X Y Z. exact (conj X (conj Y Z)). }
  rewrite <- Ec in G, R.
  destruct (run_ok os k0 nums c m0 l (fun r m' => fst r = nums /\ er_conf (snd r) = c /\ conf_ok (snd r) /\ holds m' (bl_conf (snd r) ++ l)) G R O0 H0)
    as ([nums' k] & m1 & E1 & En & Ek & O1 & H1).
  { intros k m' X Y Z. exact (conj eq_refl (conj X (conj Y Z))). }
  cbn [fst snd] in *. subst nums'. exists k0, m0, k, m1. split; [exact E0|]. split; [exact E1|]. rewrite <- Ek. split.
  - intros v s I. destruct (try_str_ok k v s m1 l (fun i m' => i = try_get_str (er_conf k) v (hs_text s) /\ m' = m1) O1 H1 I) as (i & m' & E & -> & ->); [now split|exact E].
  - intros v z. destruct (try_ie_ok k v z m1 l (fun i m' => i = try_get_ie (er_conf k) v z /\ m' = m1) H1) as (i & m' & E & -> & ->); [now split|exact E].
Qed.
Print Assumptions C62_lookup.

(** Three variables; strings of two of them, so many that the first table is resized twice; a refused one; an integer. *)
Definition c62_ops : list kop :=
  [KDeclare (mkD "s" dom_s false); KDeclare (mkD "t" (dom_bounded_s 2) true); KDeclare (mkD "i" dom_ie false);
   KString "s" 0 "a" false; KString "s" 0 "b" false; KString "s" 0 "c" false; KString "s" 0 "a" false;
   KString "t" 1 "x" false; KString "t" 1 "y" false; KString "t" 1 "z" false; KString "t" 1 "z" true;
   KTryString 0 "b"; KTryString 0 "q"; KTryString 1 "z"; KIenum "i" 2 40 false; KIenum "i" 2 50 false; KTryIenum 2 50; KTryIenum 2 60].
Example C62_case : exists k0 m0 k m1 nums c,
  c_run (make_config 3 0) c62_ops = Ok (nums, c) /\ c_roomy (make_config 3 0) c62_ops = true /\
  nums = [0; 0; 0; 0; 1; 2; 0; 0; 1; INVALID_STR; 2; 1; INVALID_STR; 2; 0; 1; 1; INVALID_IENUM] /\
  map sm_vals (c_strs c) = [["a"; "b"; "c"]; ["x"; "y"; "z"]] /\
  k_make 3 0 (mkLedger 1 []) = Ok (k0, m0) /\ k_run k0 c62_ops m0 = Ok ((nums, k), m1) /\ er_conf k = c /\
  List.length (bl_conf k) = 23%nat /\ List.length (l_live m1) = 23%nat /\ k_free k m1 = Ok (tt, mkLedger (l_next m1) []).
Proof. eexists _, _, _, _, _, _. split; [vm_compute; reflexivity|]. split; [vm_compute; reflexivity|]. split; [reflexivity|]. split; [reflexivity|].
  split; [vm_compute; reflexivity|]. split; [vm_compute; reflexivity|]. repeat split; vm_compute; reflexivity. Qed.
