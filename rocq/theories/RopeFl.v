(** RopeFl.v — the elements of the rope as byte strings, of the range map as runs of values. *)
From Verif Require Export ByQuery Inst.

Definition RopeF (CAP : nat) : Flatten (RopeLaw CAP) nat.
Proof.
  refine (mkFl (RopeTrait CAP) (RopeLaw CAP) nat to_vec _ _ _ _ _ _); cbn [Elem RopeTrait].
  - intros e W. exact (to_vec_length CAP e W).
  - intros e off a b W Ho E. cbn in Ho, E. destruct (gb_split_ok CAP e off W) as (l & r & E' & _ & _ & Vl & Vr); [lia|].
    rewrite E in E'. by injection E' as -> ->.
  - intros e off x e' W Wx Ho E. cbn in Ho, E. destruct (decide (gb_len e + gb_len x <= CAP)) as [D|D].
    + destruct (gb_try_insert_ok CAP e off x W Wx Ho D) as (g & E' & _ & V). rewrite E in E'. by injection E' as ->.
    + rewrite gb_try_insert_err in E by lia. done.
  - intros a b c Wa Wb Hm E. cbn in Hm, E. destruct (gb_merge_right_ok CAP a b Wa Wb Hm) as (g & E' & _ & V). rewrite E in E'. by injection E' as ->.
  - intros a b c Wa Wb Hm E. cbn in Hm, E. destruct (gb_merge_left_ok CAP b a Wb Wa Hm) as (g & E' & _ & V). rewrite E in E'. by injection E' as ->.
  - intros e W Hr. cbn in Hr. by apply (gb_can_remove_spec CAP e W).
Defined.
