(** C76: how large the index can become. *)
From Coq Require Import ZArith NArith String Bool List Permutation Lia ZifyNat.
From Verif Require Import Base Float FloatSpec Value Ast Config Assign Special Match Bound Tree PredMap Source Api Spec TreeSpec Hist Calls Check Cases Refute ShapeSpec SizeSpec.
From Verif Require Import TreeProofs CallProofs PropsCalls ShapeProofs SizeProofs PropsShape.
Import ListNotations.
Local Open Scope Z_scope.

(** The range of a partition (of truth values, strings, integers in order, or floats in order that are multiples of
    2^-10 and a whole number apart) is narrower than the configured
    maximum; at most 1 + log2 of its width divided ranges lie inside each other (none, if it is one value); and
    it is divided into at most 4 times its width ranges. *)
Theorem C76_ranges : forall cap minpart maxsplit ds t made ids cd,
  calls cap minpart maxsplit ds t made ids -> In cd (tops_cnode (bt_root t)) -> discrete (reach_of cd) ->
  width (reach_of cd) < Z.max 2 maxsplit
  /\ Z.of_nat (steps cd) <= (if width (reach_of cd) =? 0 then 0 else 1 + Z.log2_up (width (reach_of cd)))
  /\ Z.of_nat (ranges cd) <= Z.max 1 (4 * width (reach_of cd) - 1).
Proof. exact calls_ranges. Qed.
Print Assumptions C76_ranges.

Lemma tops_size :
  (forall cn, size_cnode cn = List.length (tops_cnode cn))
  /\ (forall ps, size_pdir ps = List.length (tops_pdir ps))
  /\ (forall cd, size_cdir cd = List.length (tops_cdir cd)).
Proof.
  apply tree_mut; cbn [size_cnode size_pdir size_cdir tops_cnode tops_pdir tops_cdir].
  - auto.
  - reflexivity.
  - intros v sc cd -> rest ->. cbn [List.length]. rewrite app_length. lia.
  - auto.
  - intros b cn -> l -> r ->. rewrite !app_length. lia.
Qed.
Lemma sum_bound W l : (forall cd, In cd l -> (ranges cd <= W)%nat) -> (sum_ranges l <= List.length l * W)%nat.
Proof.
  induction l as [|x l IH]; intros H; cbn [sum_ranges List.length Nat.mul]; [apply Nat.le_0_l|].
  apply Nat.add_le_mono; [apply H; now left|]. apply IH. intros cd I. apply H. now right.
Qed.
(** The number of nodes: at most variables times subscriptions times four times the maximal width, and the
    root. *)
Theorem C76_nodes : forall cap minpart maxsplit ds t made ids,
  calls cap minpart maxsplit ds t made ids -> NoDup ids ->
  (forall cd, In cd (tops_cnode (bt_root t)) -> discrete (reach_of cd)) ->
  (total_cnode (bt_root t) <= 1 + List.length ds * List.length ids * (4 * Z.to_nat (Z.max 2 maxsplit)))%nat.
Proof.
  intros cap minpart maxsplit ds t made ids K ND D. rewrite (proj1 total_sum).
  pose proof (C75_size _ _ _ _ _ _ _ K ND) as S. rewrite (proj1 tops_size) in S.
  apply le_n_S. etransitivity; [apply (sum_bound (4 * Z.to_nat (Z.max 2 maxsplit)))|].
  - intros cd I. destruct (C76_ranges _ _ _ _ _ _ _ _ K I (D _ I)) as (A & _ & B). lia.
  - now apply Nat.mul_le_mono_r.
Qed.
Print Assumptions C76_nodes.

(** With enough subscriptions the bounds are reached: `i` from 0 to 4, three subscriptions for each value. *)
Definition full_ds : list domain := [ mkD "i" (BInt false 0 4) false ]%string.
Definition full_log : list entry :=
  map (fun k => mkE k [] (shape_i (k mod 5))) [0; 1; 2; 3; 4; 5; 6; 7; 8; 9; 10; 11; 12; 13; 14].
Definition full_t : betree :=
  match insert_all (make_tree 1 0 1000 full_ds) full_log with Ok t => t | _ => make_tree 1 0 1000 full_ds end.
Example C76_case :
  calls 1 0 1000 full_ds full_t [] [0; 1; 2; 3; 4; 5; 6; 7; 8; 9; 10; 11; 12; 13; 14]
  /\ map (fun cd => (reach_of cd, steps cd, ranges cd)) (tops_cnode (bt_root full_t)) = [(BInt false 0 4, 3%nat, 15%nat)]
  /\ 1 + Z.log2_up 4 = 3 /\ 4 * 4 - 1 = 15 /\ total_cnode (bt_root full_t) = 16%nat.
Proof.
  split.
  - apply (insert_all_calls 1 0 1000 full_ds [] full_log (make_tree 1 0 1000 full_ds) []); [apply k_start|]. vm_compute. reflexivity.
  - vm_compute. auto.
Qed.
(** The same for floats from -1 to 4: the lower parts are the wider ones. *)
Definition wide_ds : list domain := [ mkD "f" (BFloat (f_of_Z (-1)) (f_of_Z 4)) false ]%string.
Definition wide_log : list entry :=
  map (fun k => mkE k [] (XAtom (AEq QEq "f" (SFlt (f_of_Z (k mod 6 - 1))))))%string [0; 1; 2; 3; 4; 5; 6; 7; 8; 9; 10; 11; 12; 13; 14; 15; 16; 17].
Definition wide_t : betree :=
  match insert_all (make_tree 1 0 1000 wide_ds) wide_log with Ok t => t | _ => make_tree 1 0 1000 wide_ds end.
Definition ends (b : bound) : option (option Z * option Z) := match b with BFloat lo hi => Some (f_trunc lo, f_trunc hi) | _ => None end.
Example C76_case_float :
  calls 1 0 1000 wide_ds wide_t [] (map e_id wide_log)
  /\ Forall (fun cd => discrete (reach_of cd)) (tops_cnode (bt_root wide_t))
  /\ map (fun cd => (width (reach_of cd), steps cd, ranges cd)) (tops_cnode (bt_root wide_t)) = [(5, 4%nat, 19%nat)]
  /\ 1 + Z.log2_up 5 = 4 /\ 4 * 5 - 1 = 19
  /\ map (fun cd => match cd with CSplit b _ l r => Some (ends b, ends (reach_of l), ends (reach_of r)) | _ => None end)
       (tops_cnode (bt_root wide_t)) = [Some (Some (Some (-1), Some 4), Some (Some (-1), Some 2), Some (Some 2, Some 4))].
Proof.
  split.
  - apply (insert_all_calls 1 0 1000 wide_ds [] wide_log (make_tree 1 0 1000 wide_ds) []); [apply k_start|]. vm_compute. reflexivity.
  - split; [|vm_compute; auto 6].
    assert (E : map reach_of (tops_cnode (bt_root wide_t)) = [BFloat (f_of_Z (-1)) (f_of_Z 4)]) by (vm_compute; reflexivity).
    apply Forall_forall. intros cd I. apply (in_map reach_of) in I. rewrite E in I. destruct I as [<-|[]]. cbn [discrete].
    split; [apply coarse_b_ok; vm_compute; reflexivity|]. split; [apply coarse_b_ok; vm_compute; reflexivity|].
    split; [vm_compute; discriminate|]. exists 5. vm_compute. reflexivity.
Qed.
