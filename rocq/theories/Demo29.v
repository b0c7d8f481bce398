(** Demo29.v — the depth of a well-filled tree, and a concrete tree for C65. *)
From Verif Require Export Touch3 Thick3 Demo2 Demo14.

Section log.
Context {B : BTreeTrait} (L : Lawful B).
Implicit Types (t : btree B).
Lemma thick_d t xs k : Tree L t xs -> MDw true t -> 1 <= k -> length xs <= 5 ^ k -> exists d, InOrder t (root t) d xs /\ d <= k.
Proof.
  intros T M Hk Hl. pose proof T as [d I]. pose proof (in_order _ _ _ _ I) as Ho. destruct (decide (length xs = 0)) as [E0|E0].
  - apply nil_length_inv in E0 as ->. exists 1. split; [|done]. destruct (in_top _ _ _ _ I) as (r & rn & Er & Gr & _). rewrite Er in *.
    inversion Ho as [|i n d' ys G HI E1]; subst. apply (io_node _ _ n); [done|]. rewrite Gr in G. injection G as <-.
    pose proof (t_is_empty L t [] T) as Em. unfold is_empty, get_internal in Em. rewrite Er in Em. cbn [unwrap_internal rbind] in Em. unfold get_in in Em. rewrite Gr in Em.
    cbn in Em. unfold n_is_empty in Em. destruct (n_children rn); [constructor|done].
  - exists d. split; [done|]. destruct (decide (d <= k)); [done|]. exfalso.
    pose proof (thick_log L t xs d T M Ho ltac:(lia) ltac:(by intros ->)) as Hm.
    assert (5 ^ k <= 5 ^ (d - 1)) as Hp by (apply Nat.pow_le_mono_r; lia). apply (Nat.lt_irrefl (@length (nat * Elem B) xs)). 
    eapply Nat.le_lt_trans; [exact Hl|]. eapply Nat.le_lt_trans; [exact Hp|exact Hm].
Qed.
Lemma log_insert (Q : Query B) t xs k q e r t' : Tree L t xs -> MDw true t -> 1 <= k -> length xs <= 5 ^ k -> BTree.insert Q t q e = Ok (r, t') -> Touched (57 * k + 41) t t'.
Proof. intros T M Hk Hl E. destruct (thick_d _ _ _ T M Hk Hl) as (d & Hd & Hdk). eapply to_le; [by eapply (t_insert_to L)|lia]. Qed.
Lemma log_insert_by_path t xs k cur e r t' : Tree L t xs -> MDw true t -> 1 <= k -> length xs <= 5 ^ k -> insert_by_path t cur e = Ok (r, t') -> Touched (57 * k + 41) t t'.
Proof. intros T M Hk Hl E. destruct (thick_d _ _ _ T M Hk Hl) as (d & Hd & Hdk). eapply to_le; [by eapply (t_insert_by_path_to L)|lia]. Qed.
Lemma log_push t xs k e c t' : Tree L t xs -> MDw true t -> 1 <= k -> length xs <= 5 ^ k -> push t e = Ok (c, t') -> Touched (29 * k + 6) t t'.
Proof. intros T M Hk Hl E. destruct (thick_d _ _ _ T M Hk Hl) as (d & Hd & Hdk). eapply to_le; [by eapply (t_push_to L)|lia]. Qed.
Lemma log_prepend t xs k e c t' : Tree L t xs -> MDw true t -> 1 <= k -> length xs <= 5 ^ k -> prepend t e = Ok (c, t') -> Touched (29 * k + 6) t t'.
Proof. intros T M Hk Hl E. destruct (thick_d _ _ _ T M Hk Hl) as (d & Hd & Hdk). eapply to_le; [by eapply (t_prepend_to L)|lia]. Qed.
Lemma log_remove t xs k cur o t' : Tree L t xs -> MDw true t -> 1 <= k -> length xs <= 5 ^ k -> remove_leaf t cur = Ok (o, t') -> Touched (31 * k + 1) t t'.
Proof. intros T M Hk Hl E. destruct (thick_d _ _ _ T M Hk Hl) as (d & Hd & Hdk). eapply to_le; [by eapply (t_remove_to L)|lia]. Qed.
End log.

Definition isok {A} (r : res A) : bool := match r with Ok _ => true | _ => false end.
Lemma touch_demo : exists t : btree RT, Tree RL t (elems t) /\ depth t = Ok 2 /\ length (elems t) = 14 /\
  isok (push t (gbs [1; 2; 3; 4])) = true /\ isok (prepend t (gbs [1; 2; 3; 4])) = true /\
  isok (insert_by_path t (mkCur 5 1) (gbs [1; 2; 3; 4])) = true /\ isok (remove_leaf t (mkCur 5 0)) = true.
Proof.
  destruct demo_tree as (t & E & T & _ & _ & D & _). exists t. split; [exact T|]. split; [exact D|].
  assert (H : (let? t := Demo.push_all (B := RT) bt_new dgb in Ok (length (elems t), isok (push t (gbs [1; 2; 3; 4])), isok (prepend t (gbs [1; 2; 3; 4])),
    isok (insert_by_path t (mkCur 5 1) (gbs [1; 2; 3; 4])), isok (remove_leaf t (mkCur 5 0)))) = Ok (14, true, true, true, true)) by (vm_compute; reflexivity).
  rewrite E in H. cbn [rbind] in H. apply Ok_inj, pair_inj in H as [H G5]. apply pair_inj in H as [H G4]. apply pair_inj in H as [H G3]. apply pair_inj in H as [G1 G2].
  split; [exact G1|]. split; [exact G2|]. split; [exact G3|]. split; [exact G4|exact G5].
Qed.

Lemma touched_raw {B : BTreeTrait} k (t t' : btree B) : Touched k t t' <-> exists ns : list aidx, length ns <= k /\
  (forall i, AInt i ∉ ns -> a_get (in_nodes t') i = a_get (in_nodes t) i) /\ (forall l, ALeaf l ∉ ns -> a_get (leaf_nodes t') l = a_get (leaf_nodes t) l).
Proof.
  split.
  - intros (ns & Hl & H). exists ns. split; [done|]. split; intros x Hx; exact (H _ Hx).
  - intros (ns & Hl & H1 & H2). exists ns. split; [done|]. intros [l|i] Hx; cbn; [by apply H2|by apply H1].
Qed.
Lemma touch_map : exists m : omap_t nat nat Nat.compare, MapOf nat_TO m [(1, 10); (5, 50)] /\
  isok (om_insert Nat.compare m 3 30) = true /\ isok (om_delete Nat.compare m 5) = true.
Proof.
  destruct (t_om_insert nat_TO _ _ 5 50 (new_map nat_TO)) as (m1 & E1 & M1). destruct (t_om_insert nat_TO _ _ 1 10 M1) as (m2 & E2 & M2).
  exists m2. split; [exact M2|]. destruct (t_om_insert nat_TO _ _ 3 30 M2) as (m3 & -> & _). split; [done|].
  assert (H : (let? m1 := om_insert Nat.compare (om_new (Value := nat) Nat.compare) 5 50 in let? m2 := om_insert Nat.compare m1 1 10 in Ok (isok (om_delete Nat.compare m2 5))) = Ok true)
    by (vm_compute; reflexivity).
  rewrite E1 in H. cbn [rbind] in H. rewrite E2 in H. cbn [rbind] in H. by apply Ok_inj in H.
Qed.
