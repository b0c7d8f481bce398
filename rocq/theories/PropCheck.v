(** PropCheck.v — C48: what BTree::check does and does not establish. *)
From Verif Require Import Demo10.

(** ** C48.  The claim "check accepts only well-formed trees" is false; missing are exactly the facts
    listed in [Unchecked] (leaf entries denote live leaves that name the node as parent, no leaf is
    listed twice in a node, the root has no parent, fan-out, valid elements, arena counters).
    Together with them a passing check makes the tree intact and at most nine levels deep. *)
Theorem C48_sound_partial (B : BTreeTrait) (L : Lawful B) (t : btree B) :
  EqSound (B := B) -> check t = Ok tt -> Unchecked L t -> exists xs, Tree L t xs /\ Shallow t 9.
Proof. exact (check_sound L t). Qed.
Print Assumptions C48_sound_partial.
(** with a monoidal cache this is an equivalence *)
Theorem C48_exact_partial (B : BTreeTrait) (L : Lawful B) (t : btree B) :
  EqSound (B := B) -> mono L = true -> (check t = Ok tt /\ Unchecked L t) <-> exists xs, Tree L t xs /\ Shallow t 9.
Proof. exact (check_exact L t). Qed.
Print Assumptions C48_exact_partial.
(** a tree can pass [check] with a leaf entry that denotes no leaf, with a leaf listed twice, and
    with a root that is its own only child *)
Theorem C48_blind_refuted : exists t1 t2 t3 : btree RT,
  (check t1 = Ok tt /\ ~ exists xs, Tree RL t1 xs) /\
  (exists l n c, c ∈ n_children n /\ a_get (in_nodes t1) 0 = Some n /\ c_arena c = ALeaf l /\ a_get (leaf_nodes t1) l = None) /\
  (check t2 = Ok tt /\ ~ exists xs, Tree RL t2 xs) /\ (exists l, BTree.iter t2 = Ok l /\ length l = 2 /\ a_len (leaf_nodes t2) = 1) /\
  (check t3 = Ok tt /\ ~ exists xs, Tree RL t3 xs) /\ (exists n c, a_get (in_nodes t3) 0 = Some n /\ n_children n = [c] /\ c_arena c = root t3).
Proof. exact check_blind. Qed.
Print Assumptions C48_blind_refuted.
(** twelve leaves under one node pass as well *)
Theorem C48_fan_out_refuted : check heap_wide = Ok tt /\ ~ exists xs, Tree RL heap_wide xs.
Proof. exact wide_one. Qed.
Print Assumptions C48_fan_out_refuted.
(** a two-level rope of fourteen chunks meets the hypotheses *)
Example C48_example : exists t : btree RT, EqSound (B := RT) /\ check t = Ok tt /\ Unchecked RL t /\ depth t = Ok 2 /\ a_len (leaf_nodes t) = 14.
Proof. exact demo_check. Qed.
Print Assumptions C48_example.
