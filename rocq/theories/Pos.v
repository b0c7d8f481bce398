(** Pos.v — what insert_many_by_cursor and merge_adj do for arbitrary data; empty ranges. *)
From Verif Require Export Many Drain5 Flat.

Section pos.
Context {B : BTreeTrait} (L : Lawful B).
Notation btree := (btree B).
Notation OK := (OK L).
Notation Tree := (Tree L).
Implicit Types (t : btree) (xs X Y : list (nat * Elem B)).

(** ** merge_adj loses nothing *)
Context {U : Type} (F : Flatten L U).
Notation fls := (fun d : list (Elem B) => concat (map (fl F) d)).
Lemma insert_split {A} (l : list A) k a b x y : l !! k = Some a -> l !! S k = Some b ->
  <[S k := y]> (<[k := x]> l) = take k l ++ x :: y :: drop (S (S k)) l.
Proof.
  intros Ha Hb. rewrite <- (take_drop_middle l k a Ha) at 1. assert (k < length l) by (by eapply lookup_lt_Some).
  assert (drop (S k) l = b :: drop (S (S k)) l) as -> by (by erewrite drop_S).
  rewrite insert_app_r_alt by (rewrite take_length; lia). rewrite take_length, Nat.min_l, Nat.sub_diag by lia. cbn [insert list_insert].
  rewrite insert_app_r_alt by (rewrite take_length; lia). rewrite take_length, Nat.min_l by lia.
  replace (S k - k) with 1 by lia. done.
Qed.
Lemma merge_adj_f_perm f : forall data i ds dl, Forall (evalid L) data -> length data <= f + i -> 0 < f -> data <> [] ->
  (dl <> 0 -> 0 < ds /\ ds + dl <= i) -> i <= length data -> 
  let K := if decide (dl = 0) then data else take ds data ++ drop (ds + dl) data in
  exists d, merge_adj_f f data i (length data - 1) ds dl = Ok d /\ Forall (evalid L) d /\ d <> [] /\ fls d ≡ₚ fls K /\
    (Forall (fun x => rle_len x <> 0) data -> Forall (fun x => rle_len x <> 0) d) /\ length d <= length data.
Proof.
  induction f as [|f IH]; intros data i ds dl V Hf H0 Hne Hdl Hil K; [lia|]. cbn [merge_adj_f].
  destruct (decide (i < length data - 1)) as [Hi|Hi].
  - destruct (lookup_lt_is_Some_2 data i) as [a Ha]; [lia|]. destruct (lookup_lt_is_Some_2 data (S i)) as [b Hb]; [lia|].
    unfold vec_get at 1 2. rewrite Ha, Hb. cbn [ropt rbind]. destruct (can_merge a b) eqn:Em.
    + assert (Va : evalid L a) by (by eapply Forall_lookup_1). assert (Vb : evalid L b) by (by eapply Forall_lookup_1).
      destruct (lw_mr _ L a b Va Vb Em) as (c & Ec & Vc & El & _). rewrite Ec. cbn [rbind].
      pose proof (fl_mr L U F a b c Va Vb Em Ec) as Fc.
      assert (drop i data = a :: b :: drop (S (S i)) data) as Ed.
      { rewrite (drop_S data a i Ha). by rewrite (drop_S data b (S i) Hb). }
      destruct (decide (dl = 0)) as [->|Hd0].
      * rewrite Nat.add_0_r. unfold vec_get. rewrite list_lookup_insert_ne, Hb by lia. cbn [ropt rbind].
        rewrite list_insert_insert. rewrite (insert_split data i a b c b Ha Hb).
        set (data' := take i data ++ c :: b :: drop (S (S i)) data).
        assert (length data' = length data) as Hl. { unfold data'. rewrite app_length, take_length. cbn [length]. rewrite drop_length. lia. }
        rewrite <- Hl.
        assert (V' : Forall (evalid L) data').
        { unfold data'. rewrite Forall_app, !Forall_cons. split_and!; try done; [by apply Forall_take|by apply Forall_drop]. }
        destruct (IH data' (S (S i)) (S i) 1) as (d & E & Vd & Hn & HP & HNZ & Hle); try done; try lia.
        { intros Hx. apply (f_equal length) in Hx. cbn in Hx. lia. }
        exists d. split_and!; try done; try lia.
        -- rewrite HP. rewrite decide_False by lia. unfold K, data'.
           assert (Hli : length (take i data) = i) by (rewrite take_length; lia).
           replace (S i) with (length (take i data ++ [c])) at 1 by (rewrite app_length, Hli; cbn; lia).
           change (c :: b :: drop (S (S i)) data) with ([c] ++ b :: drop (S (S i)) data). rewrite (app_assoc (take i data)), take_app.
           replace (take i data ++ [c]) with (take i data ++ [c]) by done.
           replace (S i + 1) with (length ((take i data ++ [c]) ++ [b])) by (rewrite !app_length, Hli; cbn; lia).
           change (b :: drop (S (S i)) data) with ([b] ++ drop (S (S i)) data). rewrite (app_assoc (take i data ++ [c])), drop_app.
           rewrite <- (take_drop i data) at 3. rewrite Ed. rewrite !map_app, !concat_app. cbn [map concat]. rewrite Fc, app_nil_r, <- !app_assoc. done.
        -- intros HFz. apply HNZ. unfold data'. rewrite Forall_app, !Forall_cons. split_and!; [by apply Forall_take| | |by apply Forall_drop].
           ++ rewrite El. assert (rle_len a <> 0); [|lia]. by eapply (Forall_lookup_1 (fun x => rle_len x <> 0)).
           ++ by eapply (Forall_lookup_1 (fun x => rle_len x <> 0)).
      * specialize (Hdl Hd0) as [Hds Hdl]. set (k := ds + dl) in *.
        destruct (decide (k = i)) as [Hki|Hki].
        -- (* the merged element is moved over *)
           unfold vec_get. rewrite Hki. rewrite list_lookup_insert by lia. cbn [ropt rbind].
           rewrite (list_insert_commute _ i (S i)) by lia. rewrite list_insert_insert.
           rewrite (insert_split data i a b b c Ha Hb).
           set (data' := take i data ++ b :: c :: drop (S (S i)) data).
           assert (length data' = length data) as Hl. { unfold data'. rewrite app_length, take_length. cbn [length]. rewrite drop_length. lia. }
           rewrite <- Hl.
           assert (V' : Forall (evalid L) data').
           { unfold data'. rewrite Forall_app, !Forall_cons. split_and!; try done; [by apply Forall_take|by apply Forall_drop]. }
           destruct (IH data' (S (S i)) ds (S dl)) as (d & E & Vd & Hn & HP & HNZ & Hle); try done; try lia.
           { intros Hx. apply (f_equal length) in Hx. cbn in Hx. lia. }
           exists d. split_and!; try done; try lia.
           ++ rewrite HP. rewrite decide_False by lia. unfold K, data'.
              assert (Hli : length (take i data) = i) by (rewrite take_length; lia).
              rewrite take_app_le by lia. rewrite take_take, Nat.min_l by lia.
              replace (ds + S dl) with (length (take i data ++ [b])) by (rewrite app_length, Hli; cbn; lia).
              change (b :: c :: drop (S (S i)) data) with ([b] ++ c :: drop (S (S i)) data). rewrite (app_assoc (take i data) [b]), drop_app.
              fold k. rewrite Hki, Ed. rewrite !map_app, !concat_app. cbn [map concat]. rewrite Fc, <- !app_assoc. done.
           ++ intros HFz. apply HNZ. unfold data'. rewrite Forall_app, !Forall_cons. split_and!; [by apply Forall_take| | |by apply Forall_drop].
              ** by eapply (Forall_lookup_1 (fun x => rle_len x <> 0)).
              ** rewrite El. assert (rle_len a <> 0); [|lia]. by eapply (Forall_lookup_1 (fun x => rle_len x <> 0)).
        -- (* the first kept element of the gap is moved behind the merged one *)
           assert (Hk : k < i) by lia. destruct (lookup_lt_is_Some_2 data k) as [y Hy]; [lia|].
           unfold vec_get. rewrite list_lookup_insert_ne, Hy by lia. cbn [ropt rbind].
           rewrite (insert_split data i a b c y Ha Hb).
           assert (Et : take i data = take k data ++ y :: drop (S k) (take i data)).
           { rewrite <- (take_drop_middle (take i data) k y) at 1; [|by rewrite lookup_take by lia]. by rewrite take_take, Nat.min_l by lia. }
           assert (Hlk : length (take k data) = k) by (rewrite take_length; lia).
           set (G := drop (S k) (take i data)) in *. assert (VG : Forall (evalid L) G) by (by apply Forall_drop, Forall_take).
           assert (NG : Forall (fun x => rle_len x <> 0) data -> Forall (fun x => rle_len x <> 0) G) by (intros; by apply Forall_drop, Forall_take). clearbody G.
           rewrite Et, <- app_assoc. cbn [app]. rewrite insert_app_r_alt by lia. rewrite Hlk, Nat.sub_diag. cbn [insert list_insert].
           set (data' := take k data ++ b :: G ++ c :: y :: drop (S (S i)) data).
           assert (length data = length (take k data) + 1 + length G + 2 + length (drop (S (S i)) data)) as Hll.
           { rewrite <- (take_drop i data) at 1. rewrite app_length, Et, Ed. rewrite app_length. cbn [length]. lia. }
           assert (length data' = length data) as Hl.
           { unfold data'. rewrite app_length. cbn [length]. rewrite app_length. cbn [length]. lia. }
           rewrite <- Hl.
           assert (V' : Forall (evalid L) data').
           { unfold data'. rewrite Forall_app, Forall_cons, Forall_app, !Forall_cons. split_and!; [by apply Forall_take|done|done|done|by apply (Forall_lookup_1 _ _ _ _ V Hy)|by apply Forall_drop]. }
           destruct (IH data' (S (S i)) ds (S dl)) as (d & E & Vd & Hn & HP & HNZ & Hle); try done; try lia.
           { intros Hx. apply (f_equal length) in Hx. cbn in Hx. lia. }
           exists d. split_and!; try done; try lia.
           ++ rewrite HP. rewrite decide_False by lia. unfold K, data'.
              rewrite take_app_le by lia. rewrite take_take, Nat.min_l by lia.
              replace (ds + S dl) with (length (take k data ++ [b])) by (rewrite app_length, Hlk; cbn; lia).
              change (b :: G ++ c :: y :: drop (S (S i)) data) with ([b] ++ G ++ c :: y :: drop (S (S i)) data). rewrite (app_assoc (take k data) [b]), drop_app.
              fold k. assert (drop k data = y :: G ++ a :: b :: drop (S (S i)) data) as ->.
              { rewrite <- (take_drop i data) at 1. rewrite Et, Ed, <- app_assoc. rewrite <- Hlk at 1. by rewrite drop_app. }
              rewrite !map_app, !concat_app. cbn [map concat]. rewrite !map_app, !concat_app. cbn [map concat]. rewrite Fc. rewrite <- !app_assoc. apply Permutation_app_head.
              etrans; [|apply Permutation_app_comm]. rewrite <- !app_assoc. do 3 apply Permutation_app_head. apply Permutation_app_comm.
           ++ intros HFz. apply HNZ. unfold data'. rewrite Forall_app, Forall_cons, Forall_app, !Forall_cons.
              assert (rle_len a <> 0) by (by eapply (Forall_lookup_1 (fun x => rle_len x <> 0))).
              split_and!; [by apply Forall_take|by eapply (Forall_lookup_1 (fun x => rle_len x <> 0))|by apply NG|lia|by eapply (Forall_lookup_1 (fun x => rle_len x <> 0))|by apply Forall_drop].
    + destruct (IH data (S i) ds dl) as (d & E & Vd & Hn & HP & HNZ & Hle); try done; try lia.
      exists d. done.
  - destruct (decide (0 < dl)) as [Hd|Hd].
    + destruct Hdl as [Hds Hdl]; [lia|]. rewrite decide_True by lia. eexists. split; [done|]. unfold K. rewrite decide_False by lia. split_and!.
      * rewrite Forall_app. split; [by apply Forall_take|by apply Forall_drop].
      * intros Hx. apply (f_equal length) in Hx. rewrite app_length, take_length, drop_length in Hx. cbn in Hx.
        lia.
      * done.
      * intros HFz. rewrite Forall_app. split; [by apply Forall_take|by apply Forall_drop].
      * rewrite app_length, take_length, drop_length. lia.
    + unfold K. rewrite decide_True by lia. exists data. split_and!; done.
Qed.
Lemma merge_adj_perm data : Forall (evalid L) data -> data <> [] ->
  exists d, merge_adj data = Ok d /\ Forall (evalid L) d /\ d <> [] /\ concat (map (fl F) d) ≡ₚ concat (map (fl F) data) /\
    (Forall (fun x => rle_len x <> 0) data -> Forall (fun x => rle_len x <> 0) d) /\ length d <= length data.
Proof.
  intros V Hne. destruct (merge_adj_f_perm (S (length data)) data 0 0 0 V) as (d & E & H); try done; try lia.
  exists d. split; [|done]. unfold merge_adj. by destruct data.
Qed.

(** ** insert_many_by_cursor on arbitrary data: a prefix [d1] of the compacted data is absorbed by
    the leaf before the cursor's, the rest goes to the cursor *)
Theorem fs_insert_many_all t X l e Y off data : Tree t (X ++ (l, e) :: Y) -> off <= rle_len e -> Forall (evalid L) data -> data <> [] ->
  exists d d1 d2 t' xs', merge_adj data = Ok d /\ d = d1 ++ d2 /\ (X = [] -> d1 = []) /\ (length d = 1 -> d1 = []) /\
    (forall X' l0 e0 x, X = X' ++ [(l0, e0)] -> head d = Some x -> can_merge e0 x = false -> d1 = []) /\
    insert_many_by_cursor t (Some (mkCur l off)) data = Ok t' /\ Tree t' xs' /\
    ft L F xs' = ft L F X ++ concat (map (fl F) d1) ++ take off (fl F e) ++ concat (map (fl F) d2) ++ drop off (fl F e) ++ ft L F Y.
Proof.
  intros T Ho V Hdne. set (xs := X ++ (l, e) :: Y) in *.
  pose proof (fun l e => tree_vX L t X _ l e T) as VX. pose proof (tree_ve L _ _ _ _ _ T) as Ve.
  destruct (ft_cut L F X l e Y off VX Ve Ho) as [Gt Gd].
  assert (HC : CurAt xs (mkCur l off) (tlen X + off)) by (by exists X, e, Y).
  assert (One : forall x, evalid L x -> exists t' xs', insert_one t (Some (mkCur l off)) x = Ok t' /\ Tree t' xs' /\
    ft L F xs' = ft L F X ++ take off (fl F e) ++ (fl F x ++ []) ++ drop off (fl F e) ++ ft L F Y).
  { intros x Vx. destruct (fs_insert L F t xs _ _ x T HC Vx) as (cur' & sl & t1 & xs1 & E1 & T1 & F1 & _). cbn [insert_one]. rewrite E1. cbn [rbind].
    exists t1, xs1. split_and!; try done. rewrite F1. unfold xs. rewrite Gt, Gd, app_nil_r, <- !app_assoc. done. }
  destruct (merge_adj_perm data V Hdne) as (d & Ed & Vd & Hdn & _).
  destruct data as [|x0 [|y0 r0]]; [done| |].
  { unfold merge_adj, merge_adj_f in Ed. cbn in Ed. injection Ed as <-. apply Forall_cons in V as [Vx _].
    destruct (One x0 Vx) as (t' & xs' & E & T' & F'). exists [x0], [], [x0], t', xs'. split_and!; try done. }
  destruct d as [|x [|y r]]; [done| |].
  { apply Forall_cons in Vd as [Vx _]. destruct (One x Vx) as (t' & xs' & E & T' & F'). exists [x], [], [x], t', xs'. split_and!; try done.
    unfold insert_many_by_cursor. by rewrite Ed. }
  set (data := x0 :: y0 :: r0) in *. set (d := x :: y :: r) in *.
    assert (insert_many_by_cursor t (Some (mkCur l off)) data = (let? emp := is_empty t in
       let? (si, t) := split_leaf_if_needed t (mkCur l off) in
              let? (rest, t) :=
                match si_left si with
                | Some l =>
                    let? lf := get_lf t l in
                    let? (e, rest) := absorb_right (l_elem lf) d in
                    let t := set_lf t l (with_elem lf e) in
                    let? t := recursive_update_cache t (ALeaf l) (USE_DIFF (b := B)) None in
                    Ok (rest, t)
                | None => Ok (d, t)
                end in
              insert_rev t (default (mkCur l off) (si_new_pos si)) (rev rest))) as ->.
    { unfold insert_many_by_cursor, data. fold data. rewrite Ed. done. }
    rewrite (t_is_empty L t xs T). cbn [rbind].
    destruct (t_cut L t xs l e off T) as (si & t1 & A & Z & Es & T1 & HCut & Hnp & _ & _ & _); [unfold xs; rewrite elem_of_app; right; left|done|].
    rewrite Es. cbn [rbind].
    assert (Hnd := tree_nodup L _ _ T). fold xs in Hnd.
    set (cur := default (mkCur l off) (si_new_pos si)) in *.
    assert (G : exists P e2 Q, A ++ Z = X ++ P ++ (cu_leaf cur, e2) :: Q /\ cu_offset cur <= rle_len e2 /\ tlen P + cu_offset cur = off /\
       ft L F (P ++ (cu_leaf cur, e2) :: Q) = fl F e ++ ft L F Y).
    { destruct (cut_cases _ _ _ _ _ _ _ _ Hnd HCut) as [(H0 & -> & ->)|[(H0 & H1 & -> & ->)|(H0 & ea & eb & n & H1 & H2 & _ & -> & ->)]].
      - exists [], e, Y. unfold cur. rewrite Hnp. cbn [default cu_leaf cu_offset]. split_and!; [done|cbn; lia|cbn; lia|done].
      - rewrite <- app_assoc. unfold cur. rewrite Hnp. destruct Y as [|[l2 e2] Y]; cbn [default cu_leaf cu_offset].
        + exists [], e, []. cbn. split_and!; try done. 
        + exists [(l, e)], e2, Y. cbn. split_and!; try done; [lia|]. unfold tlen. cbn. lia.
      - rewrite <- app_assoc. cbn [app].
        destruct (lw_split _ L e off Ve H0) as (c1 & c2 & Ec & _ & _ & El1 & El2 & _). rewrite H1 in Ec. injection Ec as <- <-.
        destruct (fl_split L U F e off ea eb Ve H0 H1) as [F1 F2]. assert (cur = mkCur n 0) as -> by (unfold cur; rewrite Hnp; done). cbn [cu_leaf cu_offset].
        exists [(l, ea)], eb, Y. cbn [app]. split_and!; [done|lia| |].
        + rewrite tlen_cons, tlen_nil. lia.
        + rewrite !ft_cons, F1, F2. by rewrite app_assoc, take_drop. }
    destruct G as (P & e2 & Q & GX & Gle & Gp & GF).
    assert (Vc : forall l1 e1, (l1, e1) ∈ A ++ Z -> evalid L e1) by (intros; by eapply (tree_valid L _ _ _ _ T1)).
    assert (LX : length (ft L F X) = tlen X) by (by apply ft_len).
    pose proof (fl_len L U F e Ve) as Le.
    destruct (si_left si) as [l0|] eqn:Esl.
    + destruct (t_split_left L t X l e Y off si t1 l0 T Es Esl) as (X' & e0 & EX).
      destruct (tree_get_lf L t1 (A ++ Z) l0 e0 T1) as [q Hg].
      { rewrite GX, EX. rewrite elem_of_app, elem_of_app. left. right. by apply elem_of_list_singleton. }
      rewrite Hg. cbn [rbind l_elem]. unfold with_elem. cbn [l_parent].
      assert (V0 : evalid L e0). { eapply (Vc l0 e0). rewrite GX, EX, elem_of_app, elem_of_app. left. right. by apply elem_of_list_singleton. }
      destruct (absorb_ok L F d e0 V0 Vd) as (e0' & d1 & d2 & -> & Edd & V0' & F0 & Hle & Hno). cbn [rbind].
      pose proof T1 as T1'. rewrite GX, EX, <- app_assoc in T1'. cbn [app] in T1'.
      destruct (t_set_elem L t1 X' l0 e0 (P ++ (cu_leaf cur, e2) :: Q) e0' q T1' Hg V0') as (t2 & -> & T2). cbn [rbind].
      set (xs2 := X' ++ (l0, e0') :: P ++ (cu_leaf cur, e2) :: Q) in *.
      pose proof (fl_len L U F e0' V0') as Hl1. pose proof (fl_len L U F e0 V0) as Hl2. rewrite F0, app_length in Hl1.
      set (p2 := tlen X + length (concat (map (fl F) d1)) + off).
      assert (EtX : tlen X = tlen X' + rle_len e0) by (by rewrite EX, tlen_snoc).
      assert (C2 : CurAt xs2 cur p2).
      { exists (X' ++ (l0, e0') :: P), e2, Q. unfold xs2, p2. rewrite <- app_assoc, tlen_app, tlen_cons. split_and!; [done|done|lia]. }
      destruct (fs_insert_rev L F (rev d2) t2 xs2 cur p2 T2 C2) as (t' & xs' & E & T' & F' & _).
      { rewrite Forall_forall in *. intros z Hz. apply Vd. rewrite Edd, elem_of_app. right. by rewrite elem_of_list_In, <- in_rev, <- elem_of_list_In in Hz. }
      exists d, d1, d2, t', xs'. split_and!; try done.
      * rewrite EX. intros Hx. by destruct X'.
      * intros X1 l1 e1 x1 EX1 Hh Hm. rewrite EX in EX1. apply app_inj_tail in EX1 as [_ [= <- <-]]. by destruct (Hno x1 Hh Hm).
      * rewrite F', rev_involutive.
        assert (ft L F xs2 = (ft L F X ++ concat (map (fl F) d1)) ++ (fl F e ++ ft L F Y)) as ->.
        { unfold xs2. rewrite ft_app, ft_cons, GF, F0, EX, ft_app, ft_cons. change (ft L F []) with (@nil U). by rewrite app_nil_r, <- !app_assoc. }
        assert (Lp : length (ft L F X ++ concat (map (fl F) d1)) = tlen X + length (concat (map (fl F) d1))) by (rewrite app_length; lia).
        unfold p2. rewrite take_add_app, drop_add_app by done. rewrite take_app_le, drop_app_le by lia. by rewrite <- !app_assoc.
    + cbn [rbind].
      assert (C2 : CurAt (A ++ Z) cur (tlen X + off)).
      { exists (X ++ P), e2, Q. rewrite <- app_assoc, tlen_app. split_and!; [done|done|lia]. }
      destruct (fs_insert_rev L F (rev d) t1 (A ++ Z) cur _ T1 C2) as (t' & xs' & E & T' & F' & _).
      { rewrite Forall_forall in *. intros z Hz. apply Vd. by rewrite elem_of_list_In, <- in_rev, <- elem_of_list_In in Hz. }
      exists d, [], d, t', xs'. split_and!; try done.
      rewrite F', rev_involutive, GX, ft_app, GF. cbn [map concat app].
      rewrite take_add_app, drop_add_app by done. rewrite take_app_le, drop_app_le by lia. by rewrite <- !app_assoc.
Qed.

(** nothing is lost or invented *)
Corollary fs_insert_many_perm t xs cur p data : Tree t xs -> CurAt xs cur p -> Forall (evalid L) data ->
  exists t' xs', insert_many_by_cursor t (Some cur) data = Ok t' /\ Tree t' xs' /\ ft L F xs' ≡ₚ ft L F xs ++ concat (map (fl F) data).
Proof.
  intros T (X & e & Y & -> & Ho & ->) V. destruct cur as [l off]. cbn [cu_leaf cu_offset] in *.
  destruct data as [|x data]. { exists t, (X ++ (l, e) :: Y). cbn. by rewrite app_nil_r. }
  destruct (fs_insert_many_all t X l e Y off (x :: data) T Ho V) as (d & d1 & d2 & t' & xs' & Ed & -> & _ & _ & _ & E & T' & F'); [done|].
  exists t', xs'. split_and!; try done.
  destruct (merge_adj_perm (x :: data) V) as (d' & Ed' & _ & _ & HP & _); [done|]. rewrite Ed in Ed'. injection Ed' as <-. rewrite <- HP.
  rewrite F', ft_app, ft_cons, map_app, concat_app. rewrite <- !app_assoc. apply Permutation_app_head.
  rewrite <- (take_drop off (fl F e)) at 3. rewrite <- !app_assoc.
  rewrite (app_assoc (take off (fl F e))). rewrite (Permutation_app_comm (concat (map (fl F) d1))).
  rewrite <- !app_assoc. apply Permutation_app_head.
  rewrite (Permutation_app_comm (concat (map (fl F) d2))). rewrite <- !app_assoc. do 2 apply Permutation_app_head. done.
Qed.

(** ** empty ranges *)
Lemma cut_again fr fr' xs (c : cursor) A Z A1 W : NoDup xs.*1 -> NoDup (A ++ Z).*1 -> Cut fr xs c A Z -> Cut fr' (A ++ Z) c A1 W -> A1 = A /\ W = Z.
Proof.
  intros N1 N2 C1 C2. destruct C1 as [X l e Y|X l e Y off H1 H2|X l e Y off e1 e2 n H1 H2 H3 H4].
  - by destruct (cut_cases _ _ _ _ _ _ _ _ N2 C2) as [(_ & -> & ->)|[(? & _)|(? & _)]]; [|lia|lia].
  - rewrite <- app_assoc in C2, N2. cbn [app] in C2, N2.
    by destruct (cut_cases _ _ _ _ _ _ _ _ N2 C2) as [(? & _)|[(_ & _ & -> & ->)|(? & _)]]; [lia| |lia].
  - rewrite <- app_assoc in C2, N2. cbn [app] in C2, N2.
    by destruct (cut_cases _ _ _ _ _ _ _ _ N2 C2) as [(? & _)|[(_ & _ & -> & ->)|(? & _)]]; [lia| |lia].
Qed.
Lemma cut2_empty t t2 xs (c : cursor) fr A Z A1 M : Tree t xs -> Tree t2 (A1 ++ M ++ Z) -> Cut fr xs c A Z -> Cut fr (A ++ Z) c A1 (M ++ Z) -> A1 = A /\ M = [].
Proof.
  intros T T2 C1 C2. pose proof (tree_nodup L _ _ T) as N1. pose proof (tree_nodup L _ _ T2) as N2.
  assert (Hnd : NoDup (A ++ Z).*1).
  { clear C1 N1 T T2. destruct C2 as [X l e Y|X l e Y off H1 H2|X l e Y off e1 e2 n H1 H2 H3 H4]; [done|by rewrite <- app_assoc in N2|].
    rewrite <- app_assoc in N2. cbn [app] in N2. rewrite !fmap_app, !fmap_cons in *. cbn [fst] in *.
    rewrite !NoDup_app, !NoDup_cons in *. destruct N2 as (N1 & N2 & N3 & N4 & N5). split_and!; try done.
    - intros x Hx [->|Hy]%elem_of_cons; apply (N2 _ Hx); [left|by right; right].
    - intros Hy. apply N3. by right. }
  destruct (cut_again fr fr xs c A Z A1 (M ++ Z) N1 Hnd C1 C2) as [-> E]. split; [done|].
  apply (f_equal length) in E. rewrite app_length in E. destruct M; [done|cbn in E; lia].
Qed.
Theorem t_update_empty {S0} (fu : S0 -> Elem B -> S0 * Elem B * option (Diff B)) ord t xs (a : cursor) ea s :
  Tree t xs -> (cu_leaf a, ea) ∈ xs -> cu_offset a <= rle_len ea -> (forall l, ord l ≡ₚ l) -> upd_sound L fu ->
  exists A Z t2, let fr n := anext (leaf_nodes t) <= n < anext (leaf_nodes t2) in
    cuts t a a = Ok t2 /\ Cut fr xs a A Z /\
    (Z = [] \/ Shallow t2 9 -> exists ls t', update ord t a a fu s = Ok (ls, s, t') /\ Tree t' (A ++ Z)) /\
    (Z <> [] -> ~ Shallow t2 9 -> update ord t a a fu s = Panic).
Proof.
  intros T Ha Ho Hord Hs. destruct (t_update_full L fu ord t xs a a ea ea s T Ha Ho Ha Ho) as (A & Z & A1 & M & t2 & E & T2 & _ & _ & C1 & C2 & G1 & G2); try done.
  { by left. }
  destruct (cut2_empty t t2 xs a _ A Z A1 M T T2 C1 C2) as [-> ->]. cbn [app upd_run fst snd] in *.
  exists A, Z, t2. split_and!; try done. intros Hz. destruct (G1 Hz) as (t' & Eu & T' & _). eexists _, t'. split; [exact Eu|exact T'].
Qed.
Theorem t_drain_empty t xs (a : cursor) (ea : Elem B) (fa fb : bool) :
  Tree t xs -> Fits t a a -> (cu_leaf a, ea) ∈ xs -> cu_offset a <= rle_len ea ->
  (cu_offset a = 0 -> rle_len ea <> 0) ->
  (forall X Y l e, xs = X ++ [(cu_leaf a, ea); (l, e)] ++ Y -> cu_offset a = rle_len ea -> rle_len e <> 0) ->
  (forall X, xs = X ++ [(cu_leaf a, ea)] -> cu_offset a < rle_len ea) ->
  exists A Z t', let fr n := anext (leaf_nodes t) <= n < anext (leaf_nodes t') in Cut fr xs a A Z /\
    (forall k, drain_range t (Some (mkQR a fa)) (Some (mkQR a fb)) k = Ok ([], t')) /\ Tree t' (A ++ Z).
Proof.
  intros T Fi Ha Ho H1 H2 H3. pose proof Fi as (t2 & Ec & S2).
  destruct (t_drain L t xs a a ea ea fa fb T Fi Ha Ho Ha Ho) as (A & Z & A1 & M & t' & C1 & C2 & Hk & T' & G); try done.
  { by left. } { intros X Ex Hf. specialize (H3 X Ex). lia. }
  assert (Hd : NoDup (A ++ Z).*1).
  { eapply cut_nodup; [by apply (tree_nodup L _ _ T)| |exact C1]. intros n [l e] Hfr Hin. pose proof (tree_old L t xs _ _ T Hin). cbn. lia. }
  destruct (cut_again _ _ xs a A Z A1 (M ++ Z) (tree_nodup L _ _ T) Hd C1 C2) as [-> E].
  assert (M = []) as -> by (apply (f_equal length) in E; rewrite app_length in E; destruct M; [done|cbn in E; lia]).
  exists A, Z, t'. split_and!; try done. intros k. rewrite Hk. by destruct k.
Qed.

(** ** trees deeper than the path buffer *)
Theorem t_visit_deep t xs l off : Tree t xs -> l ∈ xs.*1 -> ~ Shallow t 9 -> visit_previous_caches t (mkCur l off) = Panic.
Proof. intros T Hl Hs. unfold visit_previous_caches. cbn [cu_leaf]. by rewrite (t_path_deep L t xs l T Hl Hs). Qed.
Theorem t_iter_range_deep t xs (a b : cursor) inc : Tree t xs -> cu_leaf a ∈ xs.*1 -> ~ Shallow t 9 -> iter_range_ t a b inc = Panic.
Proof. intros T Hl Hs. unfold iter_range_. by rewrite (t_path_deep L t xs _ T Hl Hs). Qed.
(** the whole tree as a range *)
Theorem t_iter_range_full t xs : Tree t xs -> xs <> [] -> Shallow t 9 ->
  exists r, iter_range t Unbounded Unbounded = Ok r /\ map (fun s => (cu_leaf (es_cursor s), es_elem s)) r = xs /\
    (forall s, s ∈ r -> (es_start s = None \/ es_start s = Some 0) /\ (es_end s = None \/ es_end s = Some (rle_len (es_elem s)))).
Proof.
  intros T Hne Sh. rewrite (t_iter_range_start L t xs _ T). destruct xs as [|[l e] xs]; [done|].
  destruct (rev xs) as [|[l2 e2] M] eqn:Er.
  - apply (f_equal (@rev _)) in Er. rewrite rev_involutive in Er. cbn in Er. subst xs.
    rewrite (t_iter_range_end L t [] _ l e T). rewrite (proj1 (t_iter_range_one L t [] l e [] 0 (rle_len e) T Sh)).
    eexists. split; [done|]. cbn. split; [done|]. intros s ->%elem_of_list_singleton. cbn. auto.
  - apply (f_equal (@rev _)) in Er. rewrite rev_involutive in Er. cbn in Er. set (M0 := rev M) in *. clearbody M0. subst xs.
    rewrite (t_iter_range_end L t ((l, e) :: M0) _ l2 e2 T). rewrite (proj1 (t_iter_range L t [] l e M0 l2 e2 [] 0 (rle_len e2) T Sh)).
    eexists. split; [done|]. split.
    + cbn. rewrite map_app, map_map. cbn. do 2 f_equal. etrans; [|apply map_id]. apply map_ext. by intros [].
    + intros s [->|[Hs| ->%elem_of_list_singleton]%elem_of_app]%elem_of_cons; cbn; [auto| |auto].
      rewrite elem_of_list_In, in_map_iff in Hs. destruct Hs as (x & <- & _). cbn. auto.
Qed.
(** insertion at a position, with the place of the returned cursor *)
Theorem t_insert_at_cur get_len (HL : LenCache L get_len) t xs q x : Tree t xs -> q <= tlen xs -> evalid L x ->
  exists cur' sl t' xs', BTree.insert (LengthFinder get_len) t q x = Ok (cur', sl, t') /\ Tree t' xs' /\
    ft L F xs' = take q (ft L F xs) ++ fl F x ++ drop q (ft L F xs) /\ CurAt xs' cur' q /\ Keep q xs xs' /\
    (NZ xs -> rle_len x <> 0 -> NZ xs').
Proof.
  intros T Hq Vx. unfold BTree.insert, query. destruct (decide (length xs = 0)) as [E|E].
  - apply nil_length_inv in E as ->. rewrite (t_query_empty L (LengthFinder get_len) t q T). cbn [rbind].
    destruct (t_push L t [] x T Vx) as (cur & t' & Ep & _ & _ & G). rewrite Ep. cbn [rbind].
    destruct G as [(X & l & e & e' & E & _)|(n & _ & T' & Ec & _)]; [by destruct X|].
    exists cur, [], t', [(n, x)]. split; [done|]. split; [done|]. rewrite tlen_nil in Hq. assert (q = 0) as -> by lia.
    split; [unfold ft; done|]. split; [|split].
    + exists [], x, []. rewrite Ec. cbn. split_and!; [done|lia|done].
    + intros l p1 (X & e & Y & Ex & _). by destruct X.
    + intros _ Hx l1 e1 [= -> ->]%elem_of_list_singleton. done.
  - destruct (len_cur L get_len HL t xs q T) as (cur & s & -> & HC); [by destruct xs|done|]. cbn [rbind qr_cursor].
    destruct (fs_insert L F t xs cur q x T HC Vx) as (cur' & sl & t' & xs' & -> & T' & Ft & G). exists cur', sl, t', xs'. done.
Qed.
End pos.
