(** PropSpace.v — a tree needs few nodes for its elements (C66).
    [node_len t]: the number of entries of both arenas, leaves and inner nodes.  [MDw true t]: the minimal filling of C59 (at least
    5 children in every node off the left spine), which every history without from_iter preserves; [MDw false t]: at least 6 children
    in every node but the root.  [InOrder t (root t) d xs]: the tree has depth [d] and holds [xs]. *)
From Verif Require Import Space SpaceFrom SpaceDemo.

(** ** C66 *)
Theorem C66_space (B : BTreeTrait) (L : Lawful B) (t : btree B) xs d : Tree L t xs -> MDw true t -> InOrder t (root t) d xs ->
  4 * node_len t < 5 * length xs + 5 * d.
Proof. exact (t_space L t xs d). Qed.
Print Assumptions C66_space.
Theorem C66_space_log (B : BTreeTrait) (L : Lawful B) (t : btree B) xs k : Tree L t xs -> MDw true t -> 1 <= k -> length xs <= 5 ^ k ->
  4 * node_len t < 5 * length xs + 5 * k.
Proof. exact (t_space_log L t xs k). Qed.
Print Assumptions C66_space_log.
(** six children in every node but the root, as in ordered maps: no term for the depth *)
Theorem C66_space_full (B : BTreeTrait) (L : Lawful B) (t : btree B) xs : Tree L t xs -> MDw false t -> 5 * node_len t < 6 * length xs + 6.
Proof. exact (t_space6 L t xs). Qed.
Print Assumptions C66_space_full.

(** after any history of valid calls without from_iter ([op2], [valid_ops2], [collects]: as in C59) *)
Theorem C66_history (B : BTreeTrait) (L : Lawful B) (U : Type) (F : Flatten L U) (S0 : Type) (os : list (op2 B S0)) :
  valid_ops2 L bt_new os -> Forall (fun o => ~ collects o) os ->
  exists t xs, run_ops2 os bt_new = Ok t /\ Content t xs /\
    (forall d, InOrder t (root t) d xs -> 4 * node_len t < 5 * length xs + 5 * d) /\
    (forall k, 1 <= k -> length xs <= 5 ^ k -> 4 * node_len t < 5 * length xs + 5 * k).
Proof. exact (history_space L F os). Qed.
Print Assumptions C66_history.

(** a collected tree *)
Theorem C66_from_iter (B : BTreeTrait) (L : Lawful B) (es : list (Elem B)) : Forall (evalid L) es ->
  exists t xs, from_iter es = Ok t /\ Tree L t xs /\ xs.*2 = es /\ 5 * node_len t < 6 * length es + 6.
Proof. exact (t_from_iter_space L es). Qed.
Print Assumptions C66_from_iter.

Theorem C66_rope CAP (r : rope CAP) str k : 0 < CAP -> RopeOf CAP r str -> 1 <= k -> length str <= 5 ^ k ->
  4 * node_len (rp_tree CAP r) < 5 * length str + 5 * k.
Proof. exact (fun H => rope_space CAP H r str k). Qed.
Print Assumptions C66_rope.
Theorem C66_map (Key Value : Type) (kcmp : Key -> Key -> comparison) (TO : TOrd kcmp) (m : omap_t Key Value kcmp) s : MapOf TO m s ->
  5 * node_len (om_tree kcmp m) < 6 * length s + 6.
Proof. exact (map_space TO m s). Qed.
Print Assumptions C66_map.

(** insertions, removals, updates and drains that leave 38 elements in 44 nodes *)
Example C66_example : valid_ops2 RL bt_new ds_hist /\ Forall (fun o => ~ collects o) ds_hist /\
  exists t : btree RT, run_ops2 ds_hist bt_new = Ok t /\ length (elems t) = 38 /\ node_len t = 44 /\ 38 <= 5 ^ 3.
Proof. exact space_hist. Qed.
Example C66_example_rope : exists r : rope 4, RopeOf 4 r (seq 0 60) /\ length (seq 0 60) <= 5 ^ 3 /\ node_len (rp_tree 4 r) = 18.
Proof. exact space_rope. Qed.
Example C66_example_map : exists m : omap_t nat nat Nat.compare, MapOf nat_TO m [(1, 10); (5, 50)] /\ node_len (om_tree Nat.compare m) = 3.
Proof. exact space_map. Qed.
Example C66_example_from : Forall (evalid RL) (dgb ++ dgb : list (Elem RT)) /\ length (dgb ++ dgb) = 28 /\
  (let? t := from_iter (B := RT) (dgb ++ dgb) in Ok (node_len t)) = Ok 32.
Proof. exact space_from. Qed.
