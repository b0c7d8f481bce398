(** Demo2.v — the hypotheses of the update theorems are met by a concrete two-level tree. *)
From Verif Require Export Demo Upd.

Lemma shallow_depth {B : BTreeTrait} (L : Lawful B) t d k xs : Tree L t xs -> xs <> [] -> depth t = Ok d -> d <= k -> Shallow t k.
Proof.
  intros T Hne Hd Hk. destruct (Tree_content L _ _ T) as [d' Hd']. exists d', xs. split; [done|].
  rewrite (t_depth L t d' xs T Hne Hd') in Hd. injection Hd as ->. lia.
Qed.

Lemma demo_el : exists (t : btree RT) (xs : list (nat * Elem RT)), Tree RL t xs /\ MD t /\ Shallow t 2 /\
  map (fun x => (fst x, to_vec (snd x))) xs = zip (seq 0 14) dseq.
Proof.
  destruct demo_tree as (t & _ & T & M & _ & D & Hx). exists t, (elems t). split; [exact T|]. split; [exact M|]. split; [|exact Hx].
  apply (shallow_depth RL t 2 2 _ T); [|done|lia]. intros E. rewrite E in Hx. discriminate Hx.
Qed.

(** every visited piece becomes the single byte 9; the state counts the visits *)
Definition dfu (s : nat) (e : Elem RT) : nat * Elem RT * option (Diff RT) :=
  (S s, (gbs [9] : Elem RT), Some ((1 - Z.of_nat (gb_len e))%Z : Diff RT)).
(** every visited piece is emptied, so that it is removed *)
Definition dfu0 (s : nat) (e : Elem RT) : nat * Elem RT * option (Diff RT) :=
  (S s, (gbs [] : Elem RT), Some ((0 - Z.of_nat (gb_len e))%Z : Diff RT)).
Lemma dfu_sound : upd_sound RL dfu.
Proof.
  intros s e s' e' od V E. injection E as <- <- <-. destruct (gbs_valid [9]) as [W Hv]; [cbn; lia|]. split; [exact W|].
  change (Z.of_nat (gb_len (gbs [9%nat])) = Z.of_nat (gb_len e) + (1 - Z.of_nat (gb_len e)))%Z. rewrite <- (to_vec_length 4 _ W), Hv. cbn [length]. lia.
Qed.
Lemma dfu0_sound : upd_sound RL dfu0.
Proof.
  intros s e s' e' od V E. injection E as <- <- <-. destruct (gbs_valid []) as [W Hv]; [cbn; lia|]. split; [exact W|].
  change (Z.of_nat (gb_len (gbs [])) = Z.of_nat (gb_len e) + (0 - Z.of_nat (gb_len e)))%Z. rewrite <- (to_vec_length 4 _ W), Hv. cbn [length]. lia.
Qed.

Lemma demo_range : exists (t : btree RT) (xs : list (nat * Elem RT)) (ea eb : Elem RT), Tree RL t xs /\ Shallow t 2 /\
  (3, ea) ∈ xs /\ 1 < @rle_len RT ea /\ (9, eb) ∈ xs /\ 2 < @rle_len RT eb /\ cur_le xs (mkCur 3 1) (mkCur 9 2) /\ length xs = 14.
Proof.
  destruct demo_el as (t & xs & T & M & S & Hx). exists t, xs.
  assert (@length (nat * Elem RT) xs = 14) as Hl.
  { apply (f_equal length) in Hx. rewrite map_length in Hx. exact Hx. }
  assert (Hi : forall i v, zip (seq 0 14) dseq !! i = Some (i, v) -> exists e : Elem RT, xs !! i = Some (i, e) /\ @rle_len RT e = length v).
  { intros i v Hi. rewrite <- Hx in Hi. change (((λ x : nat * Elem RT, (x.1, to_vec x.2)) <$> xs) !! i = Some (i, v)) in Hi.
    rewrite list_lookup_fmap in Hi. destruct (xs !! i) as [[l e]|] eqn:E; [|done]. cbn in Hi. injection Hi as -> <-. exists e. split; [done|].
    change (gb_len e = length (to_vec e)). symmetry. apply (to_vec_length 4). apply (tree_valid RL t _ i e T). by eapply elem_of_list_lookup_2. }
  destruct (Hi 3 [20; 21; 22]) as (ea & Ea & La); [done|]. destruct (Hi 9 [50; 51; 52]) as (eb & Eb & Lb); [done|].
  exists ea, eb. rewrite La, Lb. cbn [length]. split; [exact T|]. split; [exact S|].
  split; [by eapply elem_of_list_lookup_2|]. split; [lia|]. split; [by eapply elem_of_list_lookup_2|]. split; [lia|]. split; [|exact Hl].
  right. exists (take 5 xs), (drop 5 xs). split; [by rewrite take_drop|]. cbn [cu_leaf]. split.
  - apply elem_of_list_fmap. exists (3, ea). split; [done|]. apply (elem_of_list_lookup_2 _ 3). rewrite lookup_take by lia. exact Ea.
  - apply elem_of_list_fmap. exists (9, eb). split; [done|]. apply (elem_of_list_lookup_2 _ 4). rewrite lookup_drop. exact Eb.
Qed.
