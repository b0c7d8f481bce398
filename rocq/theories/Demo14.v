(** Demo14.v — concrete cases for PropMore.v. *)
From Verif Require Export Demo4 Shift2 Utf8 OrdE.

(** leaf 3 of fourteen; leaves 0-5 lie under one node, 6-13 under the other *)
Lemma demo_shift : exists (t : btree RT) (X : list (nat * Elem RT)) (e : Elem RT) (Y1 Y2 : list (nat * Elem RT)),
  Tree RL t (X ++ (3, e) :: Y1 ++ Y2) /\ length Y1 = 2 /\ length Y2 = 8 /\ @rle_len RT e = 3 /\ tlen ((3, e) :: Y1) = 10 /\
  (forall y, y ∈ Y1 -> par t (fst y) = par t 3) /\ (forall y, y ∈ Y2 -> par t (fst y) <> par t 3).
Proof.
  destruct demo_tree as (t & E & T & M & S & _ & Hx). exists t.
  assert (map (par t) (seq 0 14) = repeat (Some 2) 6 ++ repeat (Some 1) 8) as Hp.
  { assert ((let? t := Demo.push_all (B := RT) bt_new dgb in Ok (map (par t) (seq 0 14))) = Ok (repeat (Some 2) 6 ++ repeat (Some 1) 8)) as F by (vm_compute; reflexivity).
    rewrite E in F. cbn [rbind] in F. by apply Ok_inj in F. }
  assert (Hl : forall i (x : nat * Elem RT), elems t !! i = Some x -> zip (seq 0 14) dseq !! i = Some (fst x, to_vec (snd x : gbuf))).
  { intros i x Ex. rewrite <- Hx. change (((λ x : nat * Elem RT, (x.1, to_vec x.2)) <$> elems t) !! i = Some (x.1, to_vec (x.2 : gbuf))).
    rewrite list_lookup_fmap. by rewrite Ex. }
  assert (V : forall l (e : Elem RT), (l, e) ∈ elems t -> @rle_len RT e = length (to_vec e)).
  { intros l e Hin. symmetry. apply (to_vec_length 4). by apply (tree_valid RL t _ l e T). }
  assert (@length (nat * Elem RT) (elems t) = 14) as Hlen.
  { apply (f_equal length) in Hx. rewrite map_length in Hx. exact Hx. }
  assert (Hi : forall i (x : nat * Elem RT), elems t !! i = Some x -> fst x = i /\ par t i = (repeat (Some 2) 6 ++ repeat (Some 1) 8) !!! i /\
    @rle_len RT (snd x) = length (dseq !!! i)).
  { intros i x Ex. pose proof (lookup_lt_Some _ _ _ Ex) as Hlt. rewrite Hlen in Hlt. pose proof (Hl i x Ex) as Hz.
    assert (zip (seq 0 14) dseq !! i = Some (i, dseq !!! i)) as Hz'.
    { do 14 (destruct i as [|i]; [by vm_compute|]). lia. }
    rewrite Hz' in Hz. injection Hz as E1 E2. split; [done|]. split.
    - rewrite <- Hp. do 14 (destruct i as [|i]; [done|]). lia.
    - rewrite E2. destruct x as [l e]. apply (V l). by eapply elem_of_list_lookup_2. }
  destruct (lookup_lt_is_Some_2 (elems t) 3) as [[l3 e3] E3]; [rewrite Hlen; lia|].
  destruct (lookup_lt_is_Some_2 (elems t) 4) as [[l4 e4] E4]; [rewrite Hlen; lia|].
  destruct (lookup_lt_is_Some_2 (elems t) 5) as [[l5 e5] E5]; [rewrite Hlen; lia|].
  destruct (Hi 3 _ E3) as (F3 & P3 & R3). destruct (Hi 4 _ E4) as (F4 & P4 & R4). destruct (Hi 5 _ E5) as (F5 & P5 & R5). cbn in F3, F4, F5, R3, R4, R5. subst l3 l4 l5.
  exists (take 3 (elems t)), e3, [(4, e4); (5, e5)], (drop 6 (elems t)).
  split. { pose proof (take_drop_middle _ _ _ E3) as Em. rewrite (drop_S _ _ _ E4), (drop_S _ _ _ E5) in Em. cbn [app]. rewrite <- Em in T at 1. exact T. }
  split; [done|]. split; [rewrite drop_length, Hlen; done|]. split; [exact R3|]. split.
  { unfold tlen. cbn [map snd sum_list sum_list_with]. cbn in *. unfold rle_len in *. lia. }
  split.
  - intros y Hy. rewrite !elem_of_cons, elem_of_nil in Hy. rewrite P3. destruct Hy as [->|[->|[]]]; cbn [fst]; [by rewrite P4|by rewrite P5].
  - intros y Hy. apply elem_of_list_lookup in Hy as [i Hy]. rewrite lookup_drop in Hy. destruct (Hi _ _ Hy) as (-> & Py & _). rewrite P3, Py.
    apply lookup_lt_Some in Hy. rewrite Hlen in Hy. do 8 (destruct i as [|i]; [done|]). lia.
Qed.

(** characters of one to four bytes in buffers of four bytes: a e-acute euro-sign emoji z *)
Definition uni_text : list nat := [97] ++ [195; 169] ++ [226; 130; 172] ++ [240; 159; 152; 128] ++ [122].
Definition uni_edits : list redit := [RIns 0 uni_text; RIns 3 [195; 159]; RDel 1 3; RIns 6 uni_text; RDel 3 7; RDel 8 1000].
Definition bnd_b (s : list nat) (p : nat) : bool := (p <=? length s) && utf8_ok (take p s) && utf8_ok (drop p s).
Lemma bnd_b_ok s p : bnd_b s p = true -> boundary s p.
Proof.
  unfold bnd_b. rewrite !andb_true_iff, Nat.leb_le, !utf8_ok_spec. intros [[Hp H1] H2]. exists (take p s), (drop p s).
  split_and!; [done|done|by rewrite take_drop|rewrite take_length; lia].
Qed.
Lemma uni_whole : whole uni_edits [].
Proof.
  unfold uni_edits. cbn [whole sedit].
  repeat (split; [first [split; [apply bnd_b_ok; by vm_compute|apply utf8_ok_spec; by vm_compute]
                       |right; split; apply bnd_b_ok; by vm_compute]|]). done.
Qed.
Lemma uni_shallow : forall os1 os2 r', uni_edits = os1 ++ os2 -> rope_run 4 os1 (rope_new 4) = Ok r' -> Shallow (rp_tree 4 r') 7.
Proof.
  intros os1 os2 r'. apply (run_shallow uni_edits (rope_new 4) [] (rope_new_ok 4) (whole_fits _ _ uni_whole)). by vm_compute.
Qed.
Lemma uni_result : str_run uni_edits [] = [97; 195; 159; 195; 169; 226; 130; 172].
Proof. by vm_compute. Qed.
Lemma uni_text_str : uni_text = enc_all [97; 233; 8364; 128512; 122]%Z.
Proof. by vm_compute. Qed.
(** removing one byte of a two-byte character *)
Lemma uni_cut : (let? r := rope_insert 4 (rope_new 4) 0 [97; 195; 169] in let? r := rope_delete_range 4 r 1 2 in Ok (rope_to_bytes 4 r, rope_to_string 4 r)) =
  Ok (Ok [97; 169], Panic).
Proof. by vm_compute. Qed.
Lemma uni_inside : exists r r', RopeOf 4 r uni_text /\ is_str uni_text /\ 5 <= length uni_text /\ ~ boundary uni_text 5 /\ is_str [98] /\
  rope_insert 4 r 5 [98] = Ok r' /\ Shallow (rp_tree 4 r') 9.
Proof.
  destruct (rope_insert_ok 4 ltac:(lia) (rope_new 4) [] 0 uni_text (rope_new_ok 4)) as (r & E & HR); [cbn; lia|].
  change (ins 0 uni_text []) with uni_text in HR.
  destruct (rope_insert_ok 4 ltac:(lia) r uni_text 5 [98] HR) as (r' & E' & HR'); [vm_compute; lia|].
  exists r, r'. split; [done|]. split; [apply utf8_ok_spec; by vm_compute|]. split; [vm_compute; lia|]. split.
  { rewrite boundary_spec by (apply utf8_ok_spec; by vm_compute). intros [H|(b & Hb & Hl)]; [by vm_compute in H|]. vm_compute in Hb. injection Hb as <-. unfold lead in Hl. lia. }
  split; [apply utf8_ok_spec; by vm_compute|]. split; [done|].
  assert (Shallow (rp_tree 4 r') 7) as Sh; [|eapply shallow_le; [|exact Sh|]; lia].
  apply (run_shallow [RIns 0 uni_text; RIns 5 [98]] (rope_new 4) [] (rope_new_ok 4)) with (os1 := [RIns 0 uni_text; RIns 5 [98]]) (os2 := []).
  - split; [cbn; lia|]. split; [vm_compute; lia|done].
  - by vm_compute.
  - done.
  - cbn [rope_run redit_run]. rewrite E. cbn [rbind]. rewrite E'. done.
Qed.

(** Rope::clear keeps the cached cursor: a later insertion lands three bytes from where it should, silently *)
Definition stale : res (rope 4) := let? r := rope_insert 4 (rope_new 4) 0 (repeat 1 6) in let? r := rope_delete_range 4 r 0 2 in rope_insert 4 r 3 [7].
Lemma clear_silent : exists r, stale = Ok r /\ rope_to_bytes 4 r = Ok [1; 1; 1; 7; 1] /\
  (let? x := rope_insert 4 (rope_clear 4 r) 0 [0; 1; 2; 3; 4; 5; 6; 7] in let? x := rope_insert 4 x 3 [9] in rope_to_bytes 4 x) = Ok [0; 1; 2; 3; 4; 9; 5; 6; 7] /\
  (let? x := rope_insert 4 (rope_clear 4 r) 0 [0; 1; 2; 3; 4; 5; 6; 7] in let? x := rope_delete_range 4 x 3 4 in rope_to_bytes 4 x) = Ok [0; 1; 2; 3; 4; 6; 7].
Proof.
  assert ((let? r := stale in Ok (rope_to_bytes 4 r,
    ((let? x := rope_insert 4 (rope_clear 4 r) 0 [0; 1; 2; 3; 4; 5; 6; 7] in let? x := rope_insert 4 x 3 [9] in rope_to_bytes 4 x),
     (let? x := rope_insert 4 (rope_clear 4 r) 0 [0; 1; 2; 3; 4; 5; 6; 7] in let? x := rope_delete_range 4 x 3 4 in rope_to_bytes 4 x)))) =
    Ok (Ok [1; 1; 1; 7; 1], (Ok [0; 1; 2; 3; 4; 9; 5; 6; 7], Ok [0; 1; 2; 3; 4; 6; 7]))) as E by (vm_compute; reflexivity).
  apply rbind_Ok in E as (r & E & E'). exists r. split; [exact E|]. apply Ok_inj, pair_inj in E' as [E1 E']. apply pair_inj in E' as [E2 E3].
  split; [exact E1|]. split; [exact E2|exact E3].
Qed.
Lemma clear_stale_demo : exists r r1, stale = Ok r /\ rp_cursor 4 r = Some (mkRC 2 1) /\ rope_insert 4 (rope_clear 4 r) 0 [5; 6; 7] = Ok r1 /\
  a_get (leaf_nodes (rp_tree 4 r1)) 1 = None.
Proof.
  assert ((let? r := stale in let? r1 := rope_insert 4 (rope_clear 4 r) 0 [5; 6; 7] in
    Ok (rp_cursor 4 r, bool_decide (is_Some (a_get (leaf_nodes (rp_tree 4 r1)) 1)))) = Ok (Some (mkRC 2 1), false)) as E by (vm_compute; reflexivity).
  apply rbind_Ok in E as (r & E & E'). apply rbind_Ok in E' as (r1 & E1 & E'). apply Ok_inj, pair_inj in E' as [E2 E3].
  exists r, r1. split; [exact E|]. split; [exact E2|]. split; [exact E1|]. apply bool_decide_eq_false in E3. by apply eq_None_not_Some.
Qed.
(** one entry left *)
Lemma demo_one : exists m, mrun (kcmp := Nat.compare) [MIns 5 50; MIns 3 30; MDel 3] (om_new Nat.compare) = Ok m /\ MapOf nat_TO m [(5, 50)].
Proof. apply (t_om_run nat_TO [MIns 5 50; MIns 3 30; MDel 3] (om_new Nat.compare) [] [(5, 50)]); [apply new_map|by vm_compute]. Qed.
