(** C31: the string hash table. *)
From Coq Require Import ZArith NArith String Bool List.
From Verif Require Import Base Config HashMap HashProofs.
Import ListNotations.
Local Open Scope Z_scope.
Local Open Scope string_scope.

(** After any operations a key has the value last stored under exactly that key (and not removed since); an
    operation whose allocation fails reports the failure and changes no value. *)
Theorem C31_lookup : forall ops, Z.of_nat (List.length ops) <= 2 ^ 30 -> exists m oks,
  map_run map_init ops = Ok (m, oks) /\ List.length oks = List.length ops
  /\ (Forall no_failure ops -> Forall (fun b => b = true) oks)
  /\ forall key, map_get m key = Ok (last_stored ops oks key None).
Proof.
  intros ops H. destruct (run_spec ops map_init wf_init H) as (m & oks & R & W & L & A & G). exists m, oks.
  split; [exact R|]. split; [exact L|]. split; [exact A|]. intros key. rewrite (get_spec _ _ W), G. reflexivity.
Qed.
Print Assumptions C31_lookup.

(** Iterating over the table visits each key that has a value exactly once. *)
Theorem C31_iteration : forall ops m oks, Z.of_nat (List.length ops) <= 2 ^ 30 -> map_run map_init ops = Ok (m, oks) ->
  exists keys N, (forall n, (N <= n)%nat -> iterate n m map_iter = (keys, true)) /\ NoDup keys
    /\ forall key, In key keys <-> map_get m key <> Ok None.
Proof.
  intros ops m oks H R. destruct (run_spec ops map_init wf_init H) as (m' & oks' & R' & W & _). rewrite R in R'. injection R' as <- <-.
  exists (map n_key (contents m)), (S (List.length (contents m))). split; [|split].
  - intros n L. apply iterate_all; [exact W|exact L].
  - exact (wf_keys _ W).
  - intros key. rewrite (get_spec _ _ W). split.
    + intros I E. injection E as E. apply find_key_In in E. contradiction.
    + intros E. destruct (in_dec string_dec key (map n_key (contents m))) as [I|I]; [exact I|]. exfalso. apply E. now rewrite (find_key_none _ _ I).
Qed.
Print Assumptions C31_iteration.

(** The table built for the strings of a variable gives each string its number, and no number to others: it is
    the lookup used in the model of config.c. *)
Theorem C31_string_table : forall l, Z.of_nat (List.length l) <= 2 ^ 30 -> NoDup l -> exists m,
  string_table l = Ok m /\ forall s, map_get m s = Ok (str_index l s).
Proof.
  intros l H ND. destruct (string_table_spec l map_init 0 wf_init H ND) as (m & E & W & G); [reflexivity|].
  exists m. split; [exact E|]. intros s. rewrite (get_spec _ _ W), G. unfold str_index. now destruct (index_of _ l s 0).
Qed.
Print Assumptions C31_string_table.

(** Five stores over three resizes, one overwritten, one removed, one whose allocation fails; "a" and "e" fall
    into the same bucket. *)
Definition table_ops : list mop :=
  [MSet "a" 1 true true; MSet "b" 2 true true; MSet "c" 3 true true; MSet "a" 7 true true; MRemove "b"; MSet "d" 4 false true; MSet "e" 5 true true].
Definition table_m : hmap := Eval vm_compute in match map_run map_init table_ops with Ok (m, _) => m | _ => map_init end.
Example C31_case : map_run map_init table_ops = Ok (table_m, [true; true; true; true; true; false; true])
  /\ map_get table_m "a" = Ok (Some 7) /\ map_get table_m "b" = Ok None /\ map_get table_m "c" = Ok (Some 3)
  /\ map_get table_m "d" = Ok None /\ map_get table_m "e" = Ok (Some 5)
  /\ iterate 9 table_m map_iter = (["e"; "a"; "c"], true).
Proof. repeat split; vm_compute; reflexivity. Qed.
(** Two strings with the same hash. *)
Definition colliding : list string := ["!B"; """!"; "x"].
Definition colliding_m : hmap := Eval vm_compute in match string_table colliding with Ok m => m | _ => map_init end.
Example C31_collision : map_hash "!B" = map_hash """!" /\ string_table colliding = Ok colliding_m
  /\ map_get colliding_m "!B" = Ok (Some 0) /\ map_get colliding_m """!" = Ok (Some 1) /\ map_get colliding_m "x" = Ok (Some 2)
  /\ map_get colliding_m "y" = Ok None.
Proof. repeat split; vm_compute; reflexivity. Qed.
