(** PropStats.v — C52: node statistics. *)
From Verif Require Import Demo16 Hist2.

(** The child entries of all internal nodes, together with the root, name every reachable node exactly once. *)
Theorem C52_edges (B : BTreeTrait) (L : Lawful B) (t : btree B) xs : Tree L t xs -> exists ks, NoDup ks /\ (forall i, i ∈ ks <-> Reach t (AInt i)) /\
  root t :: all_children t ≡ₚ (AInt <$> ks) ++ (ALeaf <$> xs.*1).
Proof. exact (t_edges L t xs). Qed.
Print Assumptions C52_edges.

(** The fraction (sum, count) whose rounding is returned by internal_avg_children_num. *)
Theorem C52_average (B : BTreeTrait) (L : Lawful B) (t : btree B) xs s n : Tree L t xs -> internal_avg_children_num t = (s, n) ->
  (exists ks, NoDup ks /\ (forall i, i ∈ ks <-> Reach t (AInt i)) /\ length ks = n) /\ 1 <= n /\
  S s = n + length xs /\ s <= 11 * n /\ (xs <> [] -> n <= s).
Proof. exact (t_avg L t xs s n). Qed.
Print Assumptions C52_average.

(** With minimal fan-outs ([MD]) the number of internal nodes is between a tenth and a fifth of the number of elements. *)
Theorem C52_overhead (B : BTreeTrait) (L : Lawful B) (t : btree B) xs s n : Tree L t xs -> MD t -> internal_avg_children_num t = (s, n) ->
  length xs <= 10 * n + 1 /\ (1 < n -> 5 * n <= length xs + 3).
Proof. exact (t_avg_md L t xs s n). Qed.
Print Assumptions C52_overhead.

(** The two tables printed by diagnose_balance: [Counts m l]: [m] holds the number of occurrences of each number in [l]. *)
Theorem C52_tables (B : BTreeTrait) (L : Lawful B) (t : btree B) xs m1 m2 : Tree L t xs -> diagnose_balance t = (m1, m2) ->
  Counts m2 (map (fun x => rle_len (snd x)) xs) /\
  (exists ns, NoDup ns.*1 /\ (forall i n, (i, n) ∈ ns <-> Reach t (AInt i) /\ a_get (in_nodes t) i = Some n) /\
    Counts m1 (map (fun x => length (n_children (snd x))) ns)) /\
  (forall k, 11 < k -> m1 !! k = None).
Proof. exact (t_diagnose L t xs m1 m2). Qed.
Print Assumptions C52_tables.

Theorem C52_history (B : BTreeTrait) (L : Lawful B) (U : Type) (F : Flatten L U) (S0 : Type) (os : list (op2 B S0)) : valid_ops2 L bt_new os ->
  exists t xs, run_ops2 os bt_new = Ok t /\ Content t xs /\
    forall s n, internal_avg_children_num t = (s, n) -> S s = n + length xs /\ s <= 11 * n /\ 1 <= n /\ (xs <> [] -> n <= s).
Proof. exact (reach2_avg L F os). Qed.
Print Assumptions C52_history.

Example C52_example : exists (t : btree RT) (xs : list (nat * Elem RT)), push_all (B := RT) bt_new dgb = Ok t /\ Tree RL t xs /\ MD t /\ length xs = 14 /\
  internal_avg_children_num t = (16, 3) /\
  map_to_list (fst (diagnose_balance t)) = [(2, 1); (8, 1); (6, 1)] /\ map_to_list (snd (diagnose_balance t)) = [(3, 7); (4, 7)].
Proof. exact demo_stats. Qed.
