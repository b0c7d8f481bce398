(** PropSet.v — C62 for OrdTreeSet: no program can tell it from a sorted list of keys.

    [sprog] (SetProg.v): programs over insert, delete, iter, len, is_empty and check whose every step may depend on all results so
    far.  [keys_legal N]: fewer than [N] keys at all times, no deletion of an absent key from a non-empty set (C37), no self-check of
    an empty set (C45).  [ks_insert], [ks_delete], [ks_mem]: sorted lists of keys; what they mean is stated below. *)
From Verif Require Import Demo27.

Theorem C62_set (Key : Type) (kcmp : Key -> Key -> comparison) (TO : TOrd kcmp) (A : Type) (p : sprog Key A) :
  keys_legal (kcmp := kcmp) (2 * 6 ^ 9) p [] -> set_prog p (os_new kcmp) = keys_prog (kcmp := kcmp) p [].
Proof. exact (set_prog_keys TO p). Qed.
Print Assumptions C62_set.
Theorem C62_set_from (Key : Type) (kcmp : Key -> Key -> comparison) (TO : TOrd kcmp) (A : Type) (p : sprog Key A) m s :
  MapOf TO m s -> keys_legal (kcmp := kcmp) (2 * 6 ^ 9) p (map fst s) -> set_prog p m = keys_prog (kcmp := kcmp) p (map fst s).
Proof. exact (set_prog_ok TO p m s). Qed.
Print Assumptions C62_set_from.
Theorem C62_set_insert (Key : Type) (kcmp : Key -> Key -> comparison) (TO : TOrd kcmp) k l : StronglySorted (fun a b => kcmp a b = Lt) l ->
  StronglySorted (fun a b => kcmp a b = Lt) (ks_insert kcmp k l) /\
  forall j, ks_mem kcmp j (ks_insert kcmp k l) = (match kcmp j k with Eq => true | _ => false end || ks_mem kcmp j l)%bool.
Proof. exact (ks_insert_ok TO k l). Qed.
Print Assumptions C62_set_insert.
Theorem C62_set_delete (Key : Type) (kcmp : Key -> Key -> comparison) (TO : TOrd kcmp) k l : StronglySorted (fun a b => kcmp a b = Lt) l ->
  StronglySorted (fun a b => kcmp a b = Lt) (ks_delete kcmp k l) /\
  forall j, ks_mem kcmp j (ks_delete kcmp k l) = (negb (match kcmp j k with Eq => true | _ => false end) && ks_mem kcmp j l)%bool.
Proof. exact (ks_delete_ok TO k l). Qed.
Print Assumptions C62_set_delete.
(** the benchmark of the ordered set on any data: then the iterator lists the keys in order, each once *)
Theorem C62_bench (Key : Type) (kcmp : Key -> Key -> comparison) (TO : TOrd kcmp) ks : length ks < 2 * 6 ^ 9 ->
  set_prog (bench_ord ks (SIter SDone)) (os_new kcmp) = Ok (fold_left (fun l k => ks_insert kcmp k l) ks []).
Proof. exact (bench_ord_ok TO ks). Qed.
Print Assumptions C62_bench.
Example C62_set_example : keys_legal (kcmp := Nat.compare) (2 * 6 ^ 9) sdemo [] /\ keys_prog (kcmp := Nat.compare) sdemo [] = Ok ([1; 9], true, 2) /\
  set_prog (kcmp := Nat.compare) sdemo (os_new Nat.compare) = Ok ([1; 9], true, 2).
Proof. exact sdemo_ok. Qed.
Example C62_bench_example : set_prog (kcmp := Nat.compare) (bench_ord [5; 3; 8; 3; 1] (SIter SDone)) (os_new Nat.compare) = Ok [1; 3; 5; 8].
Proof. exact bench_demo. Qed.
