(** What is not true of the size of the red-black tree. *)
From Coq Require Import ZArith NArith Bool List.
From Verif Require Import Base LinkedRb LinkedErase.
Import ListNotations.

(** [jsw_rbsize] is not the number of nodes: removing an element that is not there counts down, and the size of a tree with one
    node becomes 2^64 - 1. *)
Theorem C67_size_refuted : ~ (forall (cs : list (ecall Z)) n l et h',
  e_run Z.compare n cs e_new (mkM 1 []) = Ok (l, et, h') -> e_size et = Z.of_nat (List.length (m_cells h'))).
Proof.
  intros H. specialize (H [EInsert 1; EErase 2; EErase 2]%Z 20%nat).
  remember (e_run Z.compare 20 [EInsert 1; EErase 2; EErase 2]%Z e_new (mkM 1 [])) as r eqn:E. vm_compute in E. subst r.
  specialize (H _ _ _ eq_refl). vm_compute in H. discriminate.
Qed.
Print Assumptions C67_size_refuted.
