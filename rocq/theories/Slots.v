(** Slots.v — stored slots fit their integer type (lib.rs:264-272: [parent_slot: u8]). *)
From Verif Require Export Spec.

Section s.
Context {B : BTreeTrait} (L : Lawful B).
(** every node but the root is named by its parent at the slot it stores *)
Theorem t_slots (t : btree B) xs i n : Tree L t xs -> a_get (in_nodes t) i = Some n -> AInt i <> root t ->
  exists p pn c, n_parent n = Some (AInt p) /\ a_get (in_nodes t) p = Some pn /\ n_children pn !! n_slot n = Some c /\
    c_arena c = AInt i /\ n_slot n <= 10.
Proof.
  intros [d I] Hi Hr. assert (Reach t (AInt i)) as HR by (apply (in_reach_in _ _ _ _ I); rewrite Hi; eauto).
  inversion HR as [E|p pn c Hp Hpn Hc E]; [by subst|]. apply elem_of_list_lookup in Hc as [k Hk].
  destruct (in_up _ _ _ _ I p pn k c i n Hpn Hk E Hi) as [E1 E2]. exists p, pn, c. rewrite E2. split_and!; try done.
  pose proof (in_fan _ _ _ _ I p pn Hpn). apply lookup_lt_Some in Hk. lia.
Qed.
End s.
