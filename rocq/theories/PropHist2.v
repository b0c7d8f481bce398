(** PropHist2.v — guarantees in every state reachable by all mutating methods (C11, C12, C13, C15, C16).
    [op2] (Hist2.v): the operations of PropHist.v and insert_many_by_cursor (any data),
    update_leaves_with_arg_in_ranges, writes through get_elem_mut followed by
    recursive_update_cache, update_cache_and_elem_with_filter, clear, and replacing the tree by one
    collected from an iterator.  [valid_ops2 L t os]: as in PropHist.v, and the arguments of the new
    operations meet the hypotheses of C28 (bulk insertion: live cursor inside its element), C31 (ranges
    nonempty and inside live leaves, tree nonempty), C46 (reported diff right) and C47 (callbacks
    keep caches right; total unchanged), for traits whose default cache is the aggregate of nothing.
    [Flatten L U]: the elements are sequences of units, as in C28. *)
From Verif Require Import Demo12.

Theorem C11_all (B : BTreeTrait) (L : Lawful B) (U : Type) (F : Flatten L U) (S0 : Type) (os : list (op2 B S0)) : valid_ops2 L bt_new os ->
  exists t xs, run_ops2 os bt_new = Ok t /\ Tree L t xs /\ (Shallow t 9 -> xs <> [] \/ mono L = true -> check t = Ok tt).
Proof. exact (reach2_check L F os). Qed.
Print Assumptions C11_all.

Theorem C12_all (B : BTreeTrait) (L : Lawful B) (U : Type) (F : Flatten L U) (S0 : Type) (os : list (op2 B S0)) : valid_ops2 L bt_new os ->
  exists t xs, run_ops2 os bt_new = Ok t /\ Content t xs /\ (xs <> [] \/ mono L = true -> root_cache t = agg L xs).
Proof. exact (reach2_cache L F os). Qed.
Print Assumptions C12_all.

Theorem C13_all (B : BTreeTrait) (L : Lawful B) (U : Type) (F : Flatten L U) (S0 : Type) (os : list (op2 B S0)) : valid_ops2 L bt_new os ->
  exists t, run_ops2 os bt_new = Ok t /\ forall i n, a_get (in_nodes t) i = Some n -> length (n_children n) <= 11.
Proof. exact (reach2_fan L F os). Qed.
Print Assumptions C13_all.

Theorem C15_all (B : BTreeTrait) (L : Lawful B) (U : Type) (F : Flatten L U) (S0 : Type) (os : list (op2 B S0)) : valid_ops2 L bt_new os ->
  exists t xs, run_ops2 os bt_new = Ok t /\ Content t xs /\
    exists ks, NoDup ks /\ (forall i, i ∈ ks <-> Reach t (AInt i)) /\ node_len t = length ks + length xs.
Proof. exact (reach2_len L F os). Qed.
Print Assumptions C15_all.

(** Handles are distinct and denote exactly the elements of the tree, in every reachable state. *)
Theorem C16_handles_all (B : BTreeTrait) (L : Lawful B) (U : Type) (F : Flatten L U) (S0 : Type) (os : list (op2 B S0)) : valid_ops2 L bt_new os ->
  exists t xs, run_ops2 os bt_new = Ok t /\ Content t xs /\ NoDup xs.*1 /\ forall l e, get_elem t l = Some e <-> (l, e) ∈ xs.
Proof. exact (reach2_handles L F os). Qed.
Print Assumptions C16_handles_all.

Example C15_all_example : valid_ops2 RL bt_new dh_all /\ exists t : btree RT, run_ops2 dh_all bt_new = Ok t /\ Shallow t 9 /\
  map (fun x => (fst x, to_vec (snd x))) (elems t) = dh_out /\ get_elem t 3 = None.
Proof. exact dh_run. Qed.

(** A removed handle stays dead, until the tree is cleared or replaced (then the arenas are new and
    handles of the old tree mean nothing: C16_clear_refuted). *)
Theorem C16_dead_all (B : BTreeTrait) (L : Lawful B) (U : Type) (F : Flatten L U) (S0 : Type) (os1 os2 os3 : list (op2 B S0)) l e t1 t2 t3 :
  valid_ops2 L bt_new (os1 ++ os2 ++ os3) -> Forall (fun o => ~ resets o) (os2 ++ os3) ->
  run_ops2 os1 bt_new = Ok t1 -> get_elem t1 l = Some e ->
  run_ops2 os2 t1 = Ok t2 -> get_elem t2 l = None ->
  run_ops2 os3 t2 = Ok t3 -> get_elem t3 l = None.
Proof. exact (dead_forever2 L F os1 os2 os3 l e t1 t2 t3). Qed.
Print Assumptions C16_dead_all.

Example C16_dead_all_example : exists os1 os2 os3 (t1 t2 t3 : btree RT) e, dh_all = os1 ++ os2 ++ os3 /\ Forall (fun o => ~ resets o) (os2 ++ os3) /\
  run_ops2 os1 bt_new = Ok t1 /\ get_elem t1 3 = Some e /\
  run_ops2 os2 t1 = Ok t2 /\ get_elem t2 3 = None /\ run_ops2 os3 t2 = Ok t3 /\ length os3 = 3.
Proof. exact dh_dead. Qed.

(** [touches2 t xs o l] (Hist2.v): as in PropHist.v; the cursor's leaf and its neighbours for
    insert_many_by_cursor, the leaves named in the arguments for update_leaves_with_arg_in_ranges, the
    written leaf, the leaves reached by the filtered update, every leaf for clear. *)
Theorem C16_stable_all (B : BTreeTrait) (L : Lawful B) (U : Type) (F : Flatten L U) (S0 : Type) (os : list (op2 B S0)) o t xs l e t' :
  valid_ops2 L bt_new (os ++ [o]) -> run_ops2 os bt_new = Ok t -> Content t xs ->
  get_elem t l = Some e -> ~ touches2 t xs o l -> run_op2 t o = Ok t' -> get_elem t' l = Some e.
Proof. exact (handle_stable2 L F os o t xs l e t'). Qed.
Print Assumptions C16_stable_all.

Example C16_stable_all_example : exists (os : list HO2) (o : HO2) (t : btree RT) xs e, valid_ops2 RL bt_new (os ++ [o]) /\
  o = QRanges nat gb_add (@rev _) (@rev _) [(2, (1, 3, 1)); (7, (0, 3, 5)); (2, (2, 4, 2))] /\
  run_ops2 os bt_new = Ok t /\ Content t xs /\ get_elem t 9 = Some e /\ ~ touches2 t xs o 9.
Proof. exact dh_stable. Qed.
