(** PropHist.v — guarantees in every state reachable from the empty tree (C11, C12, C13, C15, C16).
    [op] (Hist.v): push, prepend, insert, remove_leaf, update_leaf, update, drain (dropped after
    any number of next() calls) and update_leaf_by_search.  [valid_ops L t os]: each call's
    arguments are valid in the state it is made in: elements valid, cursors live and inside their
    element, ranges ordered, closures report right diffs; excluded are the calls refuted
    elsewhere (prepend on the empty tree C03, drain with zero-length elements C44 or starting at
    the end of the tree C10), update/drain if the cut tree does not fit the path buffer ([Fits]) and
    update_leaf_by_search on trees deeper than 10 levels (panics), and for traits whose default cache is
    not the aggregate of nothing insertion inside an element, update_leaf and
    update_leaf_by_search.  The run never panics: that is part of the conclusions. *)
From Verif Require Import Demo5.

(** ** C11.  the self-check (only called on trees whose paths fit the path buffer) *)
Theorem C11_history (B : BTreeTrait) (L : Lawful B) (S0 : Type) (os : list (op B S0)) : valid_ops L bt_new os ->
  exists t xs, run_ops os bt_new = Ok t /\ Tree L t xs /\ (Shallow t 9 -> xs <> [] \/ mono L = true -> check t = Ok tt).
Proof. exact (reach_check L os). Qed.
Print Assumptions C11_history.

(** ** C12. *)
Theorem C12_history (B : BTreeTrait) (L : Lawful B) (S0 : Type) (os : list (op B S0)) : valid_ops L bt_new os ->
  exists t xs, run_ops os bt_new = Ok t /\ Content t xs /\ (xs <> [] \/ mono L = true -> root_cache t = agg L xs).
Proof. exact (reach_cache L os). Qed.
Print Assumptions C12_history.

(** ** C13.  no node ever holds more than 11 children; the pushes into the fixed-capacity vectors
    panic in the model when they overflow, and the run does not panic *)
Theorem C13_history (B : BTreeTrait) (L : Lawful B) (S0 : Type) (os : list (op B S0)) : valid_ops L bt_new os ->
  exists t, run_ops os bt_new = Ok t /\ forall i n, a_get (in_nodes t) i = Some n -> length (n_children n) <= 11.
Proof. exact (reach_fan L os). Qed.
Print Assumptions C13_history.

(** ** C15.  the arenas hold the reachable nodes only *)
Theorem C15_history (B : BTreeTrait) (L : Lawful B) (S0 : Type) (os : list (op B S0)) : valid_ops L bt_new os ->
  exists t xs, run_ops os bt_new = Ok t /\ Content t xs /\
    exists ks, NoDup ks /\ (forall i, i ∈ ks <-> Reach t (AInt i)) /\ node_len t = length ks + length xs.
Proof. exact (reach_len L os). Qed.
Print Assumptions C15_history.

Example C15_history_example : valid_ops RL bt_new demo_hist /\ exists t : btree RT, run_ops demo_hist bt_new = Ok t /\ Shallow t 9 /\
  map fst (elems t) = [14; 0; 1; 18; 2; 4; 17; 5; 16; 15; 6; 19; 12; 13; 21] /\ get_elem t 3 = None.
Proof. exact demo_hist_run. Qed.

(** ** C16.  A handle [l] that denoted an element and was removed is dead in every later state. *)
Theorem C16_dead_forever (B : BTreeTrait) (L : Lawful B) (S0 : Type) (os1 os2 os3 : list (op B S0)) l e t1 t2 t3 :
  valid_ops L bt_new (os1 ++ os2 ++ os3) ->
  run_ops os1 bt_new = Ok t1 -> get_elem t1 l = Some e ->
  run_ops os2 t1 = Ok t2 -> get_elem t2 l = None ->
  run_ops os3 t2 = Ok t3 -> get_elem t3 l = None.
Proof. exact (dead_forever L os1 os2 os3 l e t1 t2 t3). Qed.
Print Assumptions C16_dead_forever.

Example C16_dead_example : exists os1 os2 os3 (t1 t2 t3 : btree RT) e, demo_hist = os1 ++ os2 ++ os3 /\ run_ops os1 bt_new = Ok t1 /\ get_elem t1 3 = Some e /\
  run_ops os2 t1 = Ok t2 /\ get_elem t2 3 = None /\ run_ops os3 t2 = Ok t3 /\ length os3 = 4.
Proof. exact demo_hist_dead. Qed.

(** A live handle keeps its element across an operation that does not touch its leaf;
    [touches t xs o l] (Hist.v): the last leaf for push, the first for prepend, the cursor's leaf
    for insert and remove_leaf, the leaf and its successor for update_leaf, the leaves from the
    start cursor's to the end cursor's for update and drain, the found leaf for
    update_leaf_by_search. *)
Theorem C16_handle_stable (B : BTreeTrait) (L : Lawful B) (S0 : Type) (os : list (op B S0)) o t xs l e t' :
  valid_ops L bt_new (os ++ [o]) -> run_ops os bt_new = Ok t -> Content t xs ->
  get_elem t l = Some e -> ~ touches t xs o l -> run_op t o = Ok t' -> get_elem t' l = Some e.
Proof. exact (handle_stable L os o t xs l e t'). Qed.
Print Assumptions C16_handle_stable.

Example C16_stable_example : exists (os : list HO) (t : btree RT) xs e, valid_ops RL bt_new (os ++ [ORemove (mkCur 3 0)]) /\ run_ops os bt_new = Ok t /\
  Content t xs /\ get_elem t 5 = Some e /\ ~ touches t xs (ORemove (mkCur 3 0) : HO) 5.
Proof. exact demo_hist_stable. Qed.
