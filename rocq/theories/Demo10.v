(** Demo10.v — hand-made heaps that BTree::check accepts although they are not trees. *)
From Verif Require Export Demo CheckP.

Definition one (t : btree RT) : Prop := check t = Ok tt /\ ~ exists xs, Tree RL t xs.
(** one node holding the entries [cs]; one leaf, number 0, with two characters *)
Definition flat_heap (par : option aidx) (cs : list (child RT)) (rc : Z) (m : gmap nat (leafn RT)) : btree RT :=
  mkTree (mkArena {[0 := mkNode par 0 cs]} 1) (mkArena m 1) (AInt 0) rc.
Definition leaf0 : gmap nat (leafn RT) := {[0 := mkLeaf (B := RT) (gbs [1; 2]) 0]}.
(** the second entry denotes a leaf that does not exist *)
Definition heap_dangling := flat_heap None [mkChild (B := RT) (ALeaf 0) 2%Z; mkChild (B := RT) (ALeaf 7) 5%Z] 7%Z leaf0.
(** the same leaf twice *)
Definition heap_twice := flat_heap None [mkChild (B := RT) (ALeaf 0) 2%Z; mkChild (B := RT) (ALeaf 0) 5%Z] 7%Z leaf0.
(** a root that is its own only child, over no leaves *)
Definition heap_cycle := flat_heap (Some (AInt 0)) [mkChild (B := RT) (AInt 0) 9%Z] 9%Z ∅.
(** twelve leaves under one node: one more than a node ever keeps *)
Definition heap_wide : btree RT := flat_heap None (map (fun l => mkChild (B := RT) (ALeaf l) 1%Z) (seq 0 12)) 12%Z
  (list_to_map (map (fun l => (l, mkLeaf (B := RT) (gbs [l]) 0)) (seq 0 12))).
Lemma heap_one t : check t = Ok tt -> ~ Unchecked RL t -> one t.
Proof. intros E N. split; [exact E|]. intros [xs T]. exact (N (tree_unchecked RL t xs T)). Qed.
Lemma dangling_one : one heap_dangling.
Proof.
  apply heap_one; [vm_compute; reflexivity|]. intros U.
  destruct (un_leaf U 0 _ 1 _ 7 eq_refl eq_refl eq_refl) as (lf & E & _). vm_compute in E. discriminate E.
Qed.
Lemma twice_one : one heap_twice.
Proof.
  apply heap_one; [vm_compute; reflexivity|]. intros U.
  discriminate (un_once U 0 _ 0 1 _ _ 0 eq_refl eq_refl eq_refl eq_refl eq_refl).
Qed.
Lemma cycle_one : one heap_cycle.
Proof.
  apply heap_one; [vm_compute; reflexivity|]. intros U. discriminate (un_root U 0 _ eq_refl eq_refl).
Qed.
Lemma wide_one : one heap_wide.
Proof.
  apply heap_one; [vm_compute; reflexivity|]. intros U. pose proof (un_fan U 0 _ eq_refl) as H. vm_compute in H. lia.
Qed.
Lemma check_blind : exists t1 t2 t3 : btree RT,
  (check t1 = Ok tt /\ ~ exists xs, Tree RL t1 xs) /\
  (exists l n c, c ∈ n_children n /\ a_get (in_nodes t1) 0 = Some n /\ c_arena c = ALeaf l /\ a_get (leaf_nodes t1) l = None) /\
  (check t2 = Ok tt /\ ~ exists xs, Tree RL t2 xs) /\ (exists l, BTree.iter t2 = Ok l /\ length l = 2 /\ a_len (leaf_nodes t2) = 1) /\
  (check t3 = Ok tt /\ ~ exists xs, Tree RL t3 xs) /\ (exists n c, a_get (in_nodes t3) 0 = Some n /\ n_children n = [c] /\ c_arena c = root t3).
Proof.
  exists heap_dangling, heap_twice, heap_cycle. split; [exact dangling_one|]. split.
  { eexists 7, _, _. split; [|split; [reflexivity|split; [|reflexivity]]]; cbn [n_children]; [right; left|reflexivity]. }
  split; [exact twice_one|]. split; [|split; [exact cycle_one|by eexists _, _]].
  eexists. split; [vm_compute; reflexivity|by split].
Qed.
Lemma rope_eqsound CAP : EqSound (B := RopeTrait CAP).
Proof. intros a b H. exact (proj1 (Z.eqb_eq a b) H). Qed.
(** an intact tree of several levels meets both sides of C48 *)
Lemma demo_check : exists t : btree RT, EqSound (B := RT) /\ check t = Ok tt /\ Unchecked RL t /\ depth t = Ok 2 /\ a_len (leaf_nodes t) = 14.
Proof.
  destruct demo_tree as (t & _ & T & M & S & Hd & Hx). exists t. split; [exact (rope_eqsound 4)|].
  split; [apply (t_check RL t _ T S); by right|]. split; [exact (tree_unchecked RL t _ T)|]. split; [exact Hd|].
  rewrite (leaf_count RL t _ T). apply (f_equal length) in Hx. rewrite map_length in Hx. exact Hx.
Qed.
