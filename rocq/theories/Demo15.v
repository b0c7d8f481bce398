(** Demo15.v — a concrete drain that ends at an empty element. *)
From Verif Require Export Demo6 Drain6.

(** thirteen leaves in two nodes; leaf 11 is empty *)
Definition zgb : list gbuf := repeat (gbs [1]) 11 ++ [gb_new 4; gbs [1]].
Lemma zgb_valid : Forall (gwf 4) zgb.
Proof.
  unfold zgb. apply Forall_app. split; [apply Forall_forall; intros x Hx%elem_of_list_In%repeat_spec; subst; apply gbs_valid; cbn; lia|].
  repeat constructor; try (apply gbs_valid; cbn; lia). all: cbn; lia.
Qed.
Lemma demo_zero : exists (t : btree RT) (A M : list (nat * Elem RT)) (ez ey : Elem RT),
  from_iter (B := RT) zgb = Ok t /\ Tree RL t (A ++ M ++ [(11, ez); (12, ey)]) /\ A.*1 = seq 0 5 /\ M.*1 = seq 5 6 /\
  @rle_len RT ez = 0 /\ Covered t A M [(11, ez); (12, ey)] /\
  (let? (l, t') := drain_range t (Some (mkQR (mkCur 5 0) true)) (Some (mkQR (mkCur 11 0) true)) 2 in Ok (map to_vec l, root_cache t', check t')) =
    Ok ([[1]; [1]], 6%Z, Ok tt).
Proof.
  destruct (t_from_iter RL zgb zgb_valid) as (t & xs & E & T & Hxs & _).
  assert (F : (let? t := from_iter (B := RT) zgb in
     Ok ((elems t).*1, (fun n => map c_arena (n_children n)) <$> a_get (in_nodes t) 2,
       (let? (l, t') := drain_range t (Some (mkQR (mkCur 5 0) true)) (Some (mkQR (mkCur 11 0) true)) 2 in Ok (map to_vec l, root_cache t', check t')))) =
     Ok (seq 0 13, Some [ALeaf 10; ALeaf 11; ALeaf 12], Ok ([[1]; [1]], 6%Z, Ok tt))) by (vm_compute; reflexivity).
  rewrite E in F. cbn [rbind] in F. apply Ok_inj, pair_inj in F as [F Hdr]. apply pair_inj in F as [Hl Hn]. rewrite (Tree_elems RL _ _ T) in Hl.
  assert (Hlen : length xs = 13) by (rewrite <- (fmap_length fst), Hl; done).
  destruct (lookup_lt_is_Some_2 xs 11) as [[z ez] E11]; [lia|]. destruct (lookup_lt_is_Some_2 xs 12) as [[y ey] E12]; [lia|].
  assert (z = 11) as -> by (apply (f_equal (fun l => l !! 11)) in Hl; rewrite list_lookup_fmap, E11 in Hl; by injection Hl).
  assert (y = 12) as -> by (apply (f_equal (fun l => l !! 12)) in Hl; rewrite list_lookup_fmap, E12 in Hl; by injection Hl).
  assert (ez = gb_new 4) as Hez by (apply (f_equal (fun l => l !! 11)) in Hxs; rewrite list_lookup_fmap, E11 in Hxs; by injection Hxs).
  assert (Hsp : xs = take 5 xs ++ take 6 (drop 5 xs) ++ [(11, ez); (12, ey)]).
  { rewrite <- (take_drop 5 xs) at 1. f_equal. rewrite <- (take_drop 6 (drop 5 xs)) at 1. f_equal. rewrite drop_drop. cbn [Nat.add].
    rewrite (drop_S _ _ _ E11), (drop_S _ _ _ E12). f_equal. f_equal. apply drop_ge. lia. }
  exists t, (take 5 xs), (take 6 (drop 5 xs)), ez, ey. rewrite Hsp in T. split; [done|]. split; [done|].
  split; [rewrite fmap_take, Hl; done|]. split; [rewrite fmap_take, fmap_drop, Hl; done|]. split; [by rewrite Hez|]. split; [|exact Hdr].
  destruct (a_get (in_nodes t) 2) as [n|] eqn:En; [|done]. cbn in Hn. injection Hn as Hn. destruct T as [d I].
  eapply (covered_next RL t _ _ 11 ez 12 ey [] d 2 n I); [by rewrite Hez|done| |]; rewrite Hn; clear; set_solver.
Qed.
