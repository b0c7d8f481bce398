(** Demo17.v — a dead handle and reversed ranges on concrete trees. *)
From Verif Require Export Dead Rev Demo2 Demo.

Lemma demo_dead : exists (t t' : btree RT) (X Y : list (nat * Elem RT)) e, Tree RL t (X ++ (3, e) :: Y) /\ remove_leaf t (mkCur 3 0) = Ok (Some e, t') /\
  Tree RL t' (X ++ Y) /\ get_elem t' 3 = None /\ 3 < anext (leaf_nodes t') /\ length (X ++ Y) = 13.
Proof.
  destruct demo_range as (t & xs & ea & eb & T & _ & H3 & _ & _ & _ & _ & Hl).
  apply elem_of_list_split in H3 as (X & Y & ->).
  destruct (t_remove RL t X 3 ea Y 0 T (or_introl eq_refl)) as (t' & E & T' & _ & G).
  exists t, t', X, Y, ea. split; [exact T|]. split; [exact E|]. split; [exact T'|].
  assert (H3 : (3, ea) ∈ X ++ (3, ea) :: Y) by (apply elem_of_app; right; left).
  pose proof (tree_nodup RL _ _ T) as N. split; [|split].
  - destruct (get_elem t' 3) as [x|] eqn:Ex; [|done]. exfalso. assert ((3, x) ∈ X ++ Y) as Hx. { destruct T' as [d I]. by apply (in_leaf _ _ _ _ I). }
    rewrite fmap_app in N. cbn in N. apply NoDup_app in N as (_ & N1 & N2). apply NoDup_cons in N2 as [N2 _].
    apply elem_of_app in Hx as [Hx|Hx]; apply (elem_of_list_fmap_1 fst) in Hx; cbn in Hx; [|by apply N2]. apply (N1 3 Hx). left.
  - eapply Nat.lt_le_trans; [|exact G]. exact (tree_old RL _ _ _ _ T H3).
  - rewrite app_length in Hl |- *. cbn [length] in Hl. rewrite Nat.add_succ_r in Hl. injection Hl as Hl. exact Hl.
Qed.

Lemma demo_rev : exists (t : btree RT) (xs : list (nat * Elem RT)) (ea eb : Elem RT), Tree RL t xs /\ Fits t (mkCur 9 2) (mkCur 3 1) /\ Shallow t 9 /\
  (3, ea) ∈ xs /\ 1 < @rle_len RT ea /\ (9, eb) ∈ xs /\ 2 < @rle_len RT eb /\ cur_rev xs (mkCur 9 2) (mkCur 3 1) /\ length xs = 14.
Proof.
  destruct demo_range as (t & xs & ea & eb & T & (d & ys & Hd & Hle) & Ha & La & Hb & Lb & Hc & Hl). exists t, xs, ea, eb.
  assert (Hr : cur_rev xs (mkCur 9 2) (mkCur 3 1)).
  { destruct Hc as [[E _]|(P & Q & -> & H3 & H9)]; [discriminate E|]. right. cbn [cu_leaf cu_offset] in *.
    apply elem_of_list_fmap in H3 as ([k e3] & Ek & H3). cbn in Ek. subst k. apply elem_of_list_split in H3 as (P1 & P2 & ->).
    exists P1, e3, (P2 ++ Q). split; [by rewrite <- app_assoc|]. split; [rewrite fmap_app; apply elem_of_app; by right|].
    intros (_ & _ & E & _). discriminate E. }
  split; [exact T|]. split.
  { apply (rev_fits RL t xs (mkCur 9 2) (mkCur 3 1) eb ea T); [exists d, ys; split; [done|lia]|exact Hb|exact (Nat.lt_le_incl _ _ Lb)|exact Ha|exact (Nat.lt_le_incl _ _ La)|exact Hr]. }
  split; [exists d, ys; split; [done|lia]|]. split_and!; done.
Qed.

(** the visits of an update with a reversed range: the piece after the start and every leaf behind it *)
Lemma demo_rev_update : exists t sl t', push_all (B := RT) bt_new dgb = Ok t /\ update (fun l => l) t (mkCur 9 2) (mkCur 3 1) dfu 0 = Ok (sl, 5, t') /\
  contents t' = Ok (take 3 dseq ++ [[20]; [21; 22]] ++ take 5 (drop 4 dseq) ++ [[50; 51]; [9]; [9]; [9]; [9]; [9]]).
Proof.
  destruct (push_all_ok RL dgb bt_new [] (Tree_new RL) (MD_new false) dgb_valid) as (t & ys & E & _ & _). exists t.
  assert (H : (let? t := push_all (B := RT) bt_new dgb in let? (sl, n, t') := update (fun l => l) t (mkCur 9 2) (mkCur 3 1) dfu 0 in Ok (n, contents t')) =
    Ok (5, Ok (take 3 dseq ++ [[20]; [21; 22]] ++ take 5 (drop 4 dseq) ++ [[50; 51]; [9]; [9]; [9]; [9]; [9]]))) by (vm_compute; reflexivity).
  rewrite E in H |- *. cbn [rbind] in H. destruct (update _ _ _ _ _ _) as [[[sl n] t']| |]; [|discriminate H|discriminate H].
  cbn [rbind] in H. apply Ok_inj, pair_inj in H as [-> H]. exists sl, t'. split; [reflexivity|]. split; [reflexivity|exact H].
Qed.
(** draining the reversed range from leaf 3 to leaf 1 removes everything from leaf 3 on *)
Lemma demo_rev_drain : exists t l t', @from_iter RT (map gbs [[0]; [1]; [2]; [3]; [4]]) = Ok t /\
  @drain_range RT t (qr0 3 0) (qr0 1 0) 2 = Ok (l, t') /\ map to_vec l = [[3]; [4]] /\ contents t' = Ok [[0]; [1]; [2]] /\ check t' = Ok tt.
Proof.
  assert (H : (let? t := @from_iter RT (map gbs [[0]; [1]; [2]; [3]; [4]]) in let? (l, t') := @drain_range RT t (qr0 3 0) (qr0 1 0) 2 in
    Ok (map to_vec l, contents t', check t')) = Ok ([[3]; [4]], Ok [[0]; [1]; [2]], Ok tt)) by (vm_compute; reflexivity).
  destruct (@from_iter RT _) as [t| |]; [|discriminate H|discriminate H]. cbn [rbind] in H.
  exists t. destruct (@drain_range RT t _ _ _) as [[l t']| |]; [|discriminate H|discriminate H]. cbn [rbind] in H.
  apply Ok_inj, pair_inj in H as [H H3]. apply pair_inj in H as [H1 H2]. exists l, t'. split; [reflexivity|]. split; [reflexivity|]. split; [exact H1|]. split; [exact H2|exact H3].
Qed.
