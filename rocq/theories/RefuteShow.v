(** Different definitions with the same line. *)
From Coq Require Import ZArith String Ascii Bool List Floats.SpecFloat.
From Verif Require Import Base Float Value Config Printer ShowDomain ShowSpec.
Local Open Scope string_scope.

(** Doubles are cut to two decimals (printer.c 456, 462): the ends of the range are not told. *)
Theorem C74_decimals_refuted : exists d1 d2 t, print_attr_domain d1 = Ok t /\ print_attr_domain d2 = Ok t
  /\ proper (d_bound d1) /\ proper (d_bound d2) /\ lacks " "%char (d_attr d1) = true /\ d_bound d1 <> d_bound d2.
Proof.
  exists (mkD "f" (BFloat (S754_finite false 1 (-10)) (f_of_Z 1)) false), (mkD "f" (BFloat (S754_finite false 1 (-11)) (f_of_Z 1)) false).
  eexists. split; [vm_compute; reflexivity|]. split; [vm_compute; reflexivity|]. split; [exact I|]. split; [exact I|]. split; [reflexivity|discriminate].
Qed.
Print Assumptions C74_decimals_refuted.
(** A variable with at most SIZE_MAX strings (no limit) and one with at most SIZE_MAX - 1 (printer.c 468). *)
Theorem C74_limit_refuted : exists d1 d2 t, print_attr_domain d1 = Ok t /\ print_attr_domain d2 = Ok t
  /\ proper (d_bound d1) /\ proper (d_bound d2) /\ lacks " "%char (d_attr d1) = true /\ d_bound d1 <> d_bound d2.
Proof.
  exists (mkD "s" (BStr TStr 0 SIZE_MAX) false), (mkD "s" (BStr TStr 0 (SIZE_MAX - 1)) false).
  eexists. split; [vm_compute; reflexivity|]. split; [vm_compute; reflexivity|]. split; [now left|]. split; [now left|].
  split; [reflexivity|]. discriminate.
Qed.
Print Assumptions C74_limit_refuted.
