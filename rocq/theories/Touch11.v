(** Touch11.v — a concrete case for the bound on update_leaves_with_arg_in_ranges. *)
From Verif Require Export Touch8 Touch10.
From Verif Require Import Demo7 RopeP.

(** the same rope, with overlapping ranges in one leaf and a range in another *)
Lemma touch_ranges : exists (t : btree RT) xs, Tree RL t xs /\ MDw true t /\ length xs = 15 /\ 15 + 4 * length dargs <= 5 ^ 3 /\ @USE_DIFF RT = true /\
  (forall e a, evalid RL e -> evalid RL (gb_add e a)) /\
  (forall l r, (l, r) ∈ dargs -> exists e, (l, e) ∈ xs /\ fst (fst r) < snd (fst r) <= @rle_len RT e) /\
  isok (update_leaves_with_arg_in_ranges (B := RT) gb_add (@rev _) (@rev _) t dargs) = true.
Proof.
  destruct (rope_insert_ok 4 ltac:(lia) (rope_new 4) [] 0 (seq 0 60) (rope_new_ok 4)) as (r & E & HR); [cbn; lia|].
  destruct HR as (xs & T & _ & _ & _ & M). exists (rp_tree 4 r), xs. split; [exact T|]. split; [exact M|].
  assert (H : (let? r := rope_insert 4 (rope_new 4) 0 (seq 0 60) in
    Ok (length (elems (rp_tree 4 r)), (isok (update_leaves_with_arg_in_ranges (B := RT) gb_add (@rev _) (@rev _) (rp_tree 4 r) dargs),
      ((fun e => @rle_len RT e) <$> get_elem (rp_tree 4 r) 2, (fun e => @rle_len RT e) <$> get_elem (rp_tree 4 r) 5)))) = Ok (15, (true, (Some 4, Some 4)))) by (vm_compute; reflexivity).
  rewrite E in H. cbn [rbind] in H. apply Ok_inj, pair_inj in H as [H1 H]. apply pair_inj in H as [H2 H]. apply pair_inj in H as [H3 H4]. rewrite (Tree_elems _ _ _ T) in H1.
  split; [exact H1|]. split; [cbn; lia|]. split; [reflexivity|]. split; [exact gb_add_valid|]. split; [|exact H2].
  assert (G : forall l, (fun e => @rle_len RT e) <$> get_elem (rp_tree 4 r) l = Some 4 -> exists e : Elem RT, (l, e) ∈ xs /\ @rle_len RT e = 4).
  { intros l Hl. apply fmap_Some in Hl as (e & He & Hr). exists e. split; [by apply (tree_in RL _ _ _ _ T)|done]. }
  apply G in H3 as (e2 & I2 & L2). apply G in H4 as (e5 & I5 & L5).
  clear -I2 L2 I5 L5. intros l rr Hr. unfold dargs in Hr. apply elem_of_cons in Hr as [Hr|Hr]; [|apply elem_of_cons in Hr as [Hr|Hr]; [|apply elem_of_list_singleton in Hr]].
  - apply pair_inj in Hr as [Hl Hr]. rewrite Hl, Hr. exists e2. rewrite L2. split; [exact I2|cbn [fst snd]; lia].
  - apply pair_inj in Hr as [Hl Hr]. rewrite Hl, Hr. exists e5. rewrite L5. split; [exact I5|cbn [fst snd]; lia].
  - apply pair_inj in Hr as [Hl Hr]. rewrite Hl, Hr. exists e2. rewrite L2. split; [exact I2|cbn [fst snd]; lia].
Qed.
