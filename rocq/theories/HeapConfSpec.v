(** Which blocks belong to the configuration, and when its tables can be used. *)
From Coq Require Import ZArith String List Bool.
From Verif Require Import Base Value Ast Config HashMap Ledger HeapExpr HeapSpec HeapEventSpec HeapConf.
Import ListNotations.
Local Open Scope Z_scope.

(** The array of buckets and the nodes. *)
Definition bl_table (t : ktable) : list Z := bl_arr (kt_buckets t) (kt_arr t) ++ map kn_at (concat (kt_buckets t)).
Definition bl_kdom (d : kdom) : list Z := [kd_at d; hs_at (kd_attr d)].
Definition bl_kstrs (x : kstrs) : list Z :=
  bl_var (ks_attr x) ++ match ks_map x with Some t => bl_table t | None => [] end.
Definition bl_kints (x : kints) : list Z := bl_var (ki_attr x) ++ bl_arr (ki_vals x) (ki_arr x).
(** All blocks of the configuration. *)
Definition bl_conf (k : kconf) : list Z :=
  k_at k :: k_pm k :: bl_arr (k_doms k) (k_doms_at k) ++ flat_map bl_kdom (k_doms k)
  ++ bl_arr (k_strs k) (k_strs_at k) ++ flat_map bl_kstrs (k_strs k)
  ++ bl_arr (k_ints k) (k_ints_at k) ++ flat_map bl_kints (k_ints k).

(** Every table of strings has at most 2^30 strings, and only the first may have none. *)
Definition small (m : strmap) : bool := Z.of_nat (List.length (sm_vals m)) <=? 2 ^ 30.
Definition some (m : strmap) : bool := 0 <? Z.of_nat (List.length (sm_vals m)).
Definition roomy (c : config) : bool := forallb small (c_strs c) && forallb some (tl (c_strs c)).

(** ** Programs of calls on the configuration *)
(** Declare a variable; give a string or an integer of an expression its number; look up those of an event. *)
Inductive kop :=
| KDeclare (d : domain)
| KString (attr : string) (v : N) (s : string) (always : bool)
| KIenum (attr : string) (v : N) (z : Z) (always : bool)
| KTryString (v : N) (s : string)
| KTryIenum (v : N) (z : Z).
(** On the configuration of Config.v, with the number each call gives. *)
Definition c_op (c : config) (o : kop) : result (Z * config) :=
  match o with
  | KDeclare d => Ok (0, add_domain c d)
  | KString a v s al => get_id_for_string c (mkAV a v) s al
  | KIenum a v z al => get_id_for_ienum c (mkAV a v) z al
  | KTryString v s => Ok (try_get_str c v s, c)
  | KTryIenum v z => Ok (try_get_ie c v z, c)
  end.
Fixpoint c_run (c : config) (l : list kop) : result (list Z * config) :=
  (match l with [] => Ok ([], c) | o :: t => do '(i, c) <- c_op c o; do '(r, c) <- c_run c t; Ok (i :: r, c) end)%res.
(** The states along the way are roomy. *)
Fixpoint c_roomy (c : config) (l : list kop) : bool :=
  match l with
  | [] => true
  | o :: t => match c_op c o with Ok (_, c') => roomy c' && c_roomy c' t | _ => true end
  end.
(** On the configuration in memory; the name and the string are the caller's and released after the call. *)
Definition k_op (k : kconf) (o : kop) : cmd (Z * kconf) :=
  (match o with
   | KDeclare d => on k <- k_declare k d; ret (0, k)
   | KString a v s al =>
       on n <- bstrdup_lit a; on x <- bstrdup_lit s;
       on r <- k_get_string k (mkHV n v) x al;
       on _ <- free (hs_at x); on _ <- free (hs_at n); ret r
   | KIenum a v z al => on n <- bstrdup_lit a; on r <- k_get_ienum k (mkHV n v) z al; on _ <- free (hs_at n); ret r
   | KTryString v s => on x <- bstrdup_lit s; on i <- k_try_str k v x; on _ <- free (hs_at x); ret (i, k)
   | KTryIenum v z => on i <- k_try_ie k v z; ret (i, k)
   end)%led.
Fixpoint k_run (k : kconf) (l : list kop) : cmd (list Z * kconf) :=
  (match l with [] => ret ([], k) | o :: t => on '(i, k) <- k_op k o; on '(r, k) <- k_run k t; ret (i :: r, k) end)%led.
