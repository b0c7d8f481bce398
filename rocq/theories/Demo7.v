(** Demo7.v — a concrete case for update_leaves_with_arg_in_ranges. *)
From Verif Require Export Demo6 Ranges RopeFl.

Definition gb_add (g : Elem RT) (a : nat) : Elem RT := mkGB (map (fun u => u + 100 * a) (gb_buf g)) (gb_start g) (gb_gap g).
Definition dargs : list (nat * (nat * nat * nat)) := [(2, (1, 3, 1)); (5, (0, 3, 5)); (2, (2, 4, 2))].
Lemma gb_add_valid (e : Elem RT) a : evalid RL e -> evalid RL (gb_add e a).
Proof. intros [H1 H2]. split; cbn; [by rewrite map_length|done]. Qed.
Lemma gb_add_units (e : Elem RT) a : evalid RL e -> fl (RopeF 4) (gb_add e a) = map (fun u => u + 100 * a) (fl (RopeF 4) e).
Proof.
  intros _. cbn [fl RopeF]. unfold to_vec, gb_left, gb_right, gb_add. cbn [gb_buf gb_start gb_gap]. rewrite map_app. by rewrite firstn_map, skipn_map.
Qed.
Definition dranges : list nat := [10; 10; 10; 10; 10; 11; 12; 20; 120; 320; 220; 20; 21; 22; 30; 30; 30; 30; 530; 531; 532] ++ drop 21 (concat dseq).
Lemma dargs_tree : exists t : btree RT, Demo.push_all (B := RT) bt_new dgb = Ok t /\ Tree RL t (elems t) /\ length (elems t) = 14 /\
  (forall l r, (l, r) ∈ dargs -> exists e, (l, e) ∈ elems t /\ fst (fst r) < snd (fst r) <= @rle_len RT e).
Proof.
  destruct demo_tree as (t & E & T & _ & _ & _ & Hx). exists t. split; [exact E|]. split; [exact T|].
  assert (Hl : length (elems t) = 14). { apply (f_equal length) in Hx. rewrite map_length in Hx. exact Hx. }
  split; [exact Hl|]. clear E.
  assert (G : forall l s, zip (seq 0 14) dseq !! l = Some (l, s) -> exists e : Elem RT, (l, e) ∈ elems t /\ @rle_len RT e = length s).
  { intros l s Hls. rewrite <- Hx in Hls. change (map ?f ?l) with (f <$> l) in Hls. rewrite list_lookup_fmap in Hls. apply fmap_Some in Hls as ([l' e] & El & Hv).
    injection Hv as El1 El2. subst s l'.  assert (Hin : (l, e) ∈ elems t) by exact (elem_of_list_lookup_2 _ _ _ El). exists e. split; [exact Hin|]. symmetry. exact (to_vec_length 4 e (tree_valid RL t (elems t) l e T Hin)). }
  intros l r Hr. unfold dargs in Hr. repeat (apply elem_of_cons in Hr as [Hr|Hr]; [injection Hr as -> ->|]); [| | |by apply elem_of_nil in Hr].
  - destruct (G 2 _ eq_refl) as (e & He & Hl'). exists e. split; [exact He|]. cbn [fst snd]. rewrite Hl'. cbn. lia.
  - destruct (G 5 _ eq_refl) as (e & He & Hl'). exists e. split; [exact He|]. cbn [fst snd]. rewrite Hl'. cbn. lia.
  - destruct (G 2 _ eq_refl) as (e & He & Hl'). exists e. split; [exact He|]. cbn [fst snd]. rewrite Hl'. cbn. lia.
Qed.
Lemma demo_ranges : exists (t : btree RT) (xs : list (nat * Elem RT)) t' nl, Tree RL t xs /\ length xs = 14 /\ @USE_DIFF RT = true /\
  (forall e a, evalid RL e -> evalid RL (gb_add e a)) /\
  (forall e a, evalid RL e -> fl (RopeF 4) (gb_add e a) = map (fun u => u + 100 * a) (fl (RopeF 4) e)) /\
  (forall l r, (l, r) ∈ dargs -> exists e, (l, e) ∈ xs /\ fst (fst r) < snd (fst r) <= @rle_len RT e) /\
  update_leaves_with_arg_in_ranges (B := RT) gb_add (@rev _) (@rev _) t dargs = Ok (nl, t') /\
  concat (map (fun x => to_vec (snd x)) (elems t')) = dranges.
Proof.
  destruct dargs_tree as (t & E & T & Hl & Ha).
  assert (H : (let? t := Demo.push_all (B := RT) bt_new dgb in let? (nl, t') := update_leaves_with_arg_in_ranges (B := RT) gb_add (@rev _) (@rev _) t dargs in
    Ok (nl, concat (map (fun x => to_vec (snd x)) (elems t')))) = Ok ([2; 2; 2], dranges)) by (vm_compute; reflexivity).
  rewrite E in H. cbn [rbind] in H. apply rbind_Ok in H as ([nl t'] & E' & H). apply Ok_inj, pair_inj in H as [-> H].
  exists t, (elems t), t', [2; 2; 2]. split; [exact T|].
  split; [exact Hl|]. split; [reflexivity|]. split; [exact gb_add_valid|]. split; [exact gb_add_units|]. split; [exact Ha|split; [exact E'|exact H]].
Qed.
