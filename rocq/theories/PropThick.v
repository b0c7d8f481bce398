(** PropThick.v — how thin a tree can get, and logarithmic depth after any history (C59).
    [MDw true t]: every node but the root has at least 5 children, except on the left spine ([SP]: the
    root, its first child, the first child of that one, …), and a root with an inner child has at least
    two (C59_meaning).  [op2], [valid_ops2]: as in PropHist2.v; [collects o]: [o] replaces the tree by one
    collected from an iterator (from_iter builds a thin right spine; its depth is bounded in C27).
    [sized_ops L t os]: every call is valid, no call collects, and the tree holds at most 5^7 = 78125
    elements before every call; nothing is assumed about depths. *)
From Verif Require Import Demo19.

Theorem C59_meaning (B : BTreeTrait) (t : btree B) : MDw true t ->
  (forall i n, a_get (in_nodes t) i = Some n -> AInt i <> root t -> SP t i \/ 5 <= length (n_children n)) /\
  (forall i n c, a_get (in_nodes t) i = Some n -> AInt i = root t -> c ∈ n_children n -> (exists j, c_arena c = AInt j) -> 2 <= length (n_children n)).
Proof. exact (thick_raw t). Qed.
Print Assumptions C59_meaning.

(** one call *)
Theorem C59_step (B : BTreeTrait) (L : Lawful B) (U : Type) (F : Flatten L U) (S0 : Type) t xs (o : op2 B S0) t' : Tree L t xs ->
  (mono L = true \/ MDw false t) -> okx2 L t xs o -> ~ collects o -> run_op2 t o = Ok t' -> MDw true t -> MDw true t'.
Proof. exact (step2_md L F t xs o t'). Qed.
Print Assumptions C59_step.

(** any history: the depth [d] is logarithmic in the number of elements *)
Theorem C59_history (B : BTreeTrait) (L : Lawful B) (U : Type) (F : Flatten L U) (S0 : Type) (os : list (op2 B S0)) :
  valid_ops2 L bt_new os -> Forall (fun o => ~ collects o) os ->
  exists t xs, run_ops2 os bt_new = Ok t /\ Content t xs /\ MDw true t /\
    (forall d, InOrder t (root t) d xs -> 2 <= d -> xs <> [] -> 5 ^ (d - 1) < length xs) /\
    (forall k, 1 <= k -> length xs <= 5 ^ k -> Shallow t k).
Proof. exact (history_log L F os). Qed.
Print Assumptions C59_history.

(** trees of at most 78125 elements: no call panics, whatever the shapes; check passes *)
Theorem C59_sized (B : BTreeTrait) (L : Lawful B) (U : Type) (F : Flatten L U) (S0 : Type) (os : list (op2 B S0)) : sized_ops L bt_new os ->
  exists t xs, run_ops2 os bt_new = Ok t /\ Tree L t xs /\ MDw true t /\
    (length xs <= 5 ^ 9 -> xs <> [] \/ mono L = true -> check t = Ok tt).
Proof. exact (reach_sized L F os). Qed.
Print Assumptions C59_sized.

(** ropes *)
Theorem C59_rope_depth CAP (r : rope CAP) s d xs : 0 < CAP -> RopeOf CAP r s ->
  InOrder (rp_tree CAP r) (root (rp_tree CAP r)) d xs -> 2 <= d -> s <> [] -> 5 ^ (d - 1) < length s.
Proof. exact (fun H => rope_depth CAP H r s d xs). Qed.
Print Assumptions C59_rope_depth.
Theorem C59_rope_delete CAP (r : rope CAP) s st en : 0 < CAP -> RopeOf CAP r s -> length s <= 5 ^ 7 ->
  exists r', rope_delete_range CAP r st en = Ok r' /\ RopeOf CAP r' (take (Nat.min st en) s ++ drop en s).
Proof. exact (fun H => rope_delete_short CAP H r s st en). Qed.
Print Assumptions C59_rope_delete.
Theorem C59_rope_to_string CAP (r : rope CAP) s : 0 < CAP -> RopeOf CAP r s -> length s <= 5 ^ 9 -> rope_to_bytes CAP r = Ok s.
Proof. exact (fun H => rope_to_bytes_short CAP H r s). Qed.
Print Assumptions C59_rope_to_string.
(** a string that has at most 78125 bytes whenever something is deleted: the rope never panics *)
Theorem C59_rope_history CAP os : 0 < CAP -> fits os [] ->
  (forall os1 st en os2, os = os1 ++ RDel st en :: os2 -> length (str_run os1 []) <= 5 ^ 7) ->
  exists r, rope_run CAP os (rope_new CAP) = Ok r /\ RopeOf CAP r (str_run os []) /\ rope_len CAP r = length (str_run os []) /\
    (length (str_run os []) <= 5 ^ 9 -> rope_to_bytes CAP r = Ok (str_run os []) /\ rope_check CAP r = Ok tt).
Proof. exact (fun H => rope_history_short CAP H os). Qed.
Print Assumptions C59_rope_history.

Example C59_example : valid_ops2 RL bt_new ds_hist /\ Forall (fun o => ~ collects o) ds_hist /\ sized_ops RL bt_new ds_hist /\
  exists t : btree RT, run_ops2 ds_hist bt_new = Ok t /\ length (elems t) = 38.
Proof. exact ds_valid. Qed.
Example C59_example_rope : fits demo_edits [] /\ (forall os1 st en os2, demo_edits = os1 ++ RDel st en :: os2 -> length (str_run os1 []) <= 5 ^ 7) /\
  length (str_run demo_edits []) = 19.
Proof. exact ds_edits. Qed.
