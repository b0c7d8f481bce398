(** Ops.v — the effect of every proved operation on the content of an intact tree. *)
From Verif Require Export Spec.

Section ops.
Context {B : BTreeTrait} (L : Lawful B).
Notation btree := (btree B).
Notation OK := (OK L).
Notation Tree := (Tree L).
Implicit Types (t : btree) (l n off : nat) (e x : Elem B) (X Y xs : list (nat * Elem B)).

Lemma cont_tree t H lv xs : OK t H lv -> Tree t xs -> cont t H = xs.
Proof.
  intros O Hc%Tree_content. eapply content_det; [|done]. exists (S H). by eapply content_cont, ok_wt.
Qed.
Lemma tree_el t X l e Y : Tree t (X ++ (l, e) :: Y) -> el t l = Some e.
Proof. intros (H & lv & O & Hc)%Tree_OK. apply (cont_el (H := H)). rewrite <- Hc. clear; set_solver. Qed.
Lemma tree_in t xs l e : Tree t xs -> el t l = Some e <-> (l, e) ∈ xs.
Proof.
  intros (H & lv & O & ->)%Tree_OK. split; [apply (cont_in l e (ok_wt _ _ _ _ O))|apply cont_el].
Qed.
Lemma tree_leaves t xs : Tree t xs -> leaves t = xs.*1.
Proof. intros T. rewrite <- (Tree_elems L _ _ T). destruct (Tree_OK L _ _ T) as (H & lv & O & _). symmetry. apply (elems_fst (ok_wt _ _ _ _ O)). Qed.
Lemma tree_nodup t xs : Tree t xs -> NoDup xs.*1.
Proof. intros (H & lv & O & ->)%Tree_OK. by eapply cont_nodup, ok_wt. Qed.
Lemma tree_old t xs l e : Tree t xs -> (l, e) ∈ xs -> l < anext (leaf_nodes t).
Proof.
  intros T Hin. pose proof (proj2 (tree_in t xs l e T) Hin) as He. destruct (Tree_OK L _ _ T) as (H & lv & O & _).
  apply (wt_lfresh (ok_wt _ _ _ _ O)). rewrite He. eauto.
Qed.
Lemma tree_valid t xs l e : Tree t xs -> (l, e) ∈ xs -> evalid L e.
Proof. intros T Hin. destruct (Tree_intact L t xs T) as [d I]. by eapply (in_valid _ _ _ _ I). Qed.

(** ** insertion *)
Theorem t_insert t X l e Y off x : Tree t (X ++ (l, e) :: Y) -> off <= rle_len e -> evalid L x ->
  exists cur sl R t', insert_by_path t (mkCur l off) x = Ok (cur, sl, t') /\ Tree t' (X ++ R ++ Y) /\
    ins_res l e off x (fun n => anext (leaf_nodes t) <= n < anext (leaf_nodes t')) cur sl R /\
    anext (leaf_nodes t) <= anext (leaf_nodes t') /\
    (forall w, (w = true \/ off = 0 \/ off = rle_len e) -> MDw w t -> MDw w t').
Proof.
  intros T Hoff Vx. pose proof (tree_el _ _ _ _ _ T) as He. destruct (Tree_OK L _ _ T) as (H & lv & O & Hc).
  destruct (insert_ok L t H lv l e off x O He Hoff Vx) as (cur & sl & R & t' & H' & lv' & E & O' & Hi & HC & HM & HA).
  exists cur, sl, R, t'. split_and!; try done. rewrite <- (HC X Y) by done. by eapply OK_Tree.
Qed.
Theorem t_push t xs x : Tree t xs -> evalid L x ->
  exists cur t', push t x = Ok (cur, t') /\ (forall w, MDw w t -> MDw w t') /\ anext (leaf_nodes t) <= anext (leaf_nodes t') /\
    ((exists X l e e', xs = X ++ [(l, e)] /\ can_merge e x = true /\ merge_right e x = Ok e' /\
        Tree t' (X ++ [(l, e')]) /\ cur = mkCur l (rle_len e)) \/
     (exists n, anext (leaf_nodes t) <= n < anext (leaf_nodes t') /\ Tree t' (xs ++ [(n, x)]) /\ cur = mkCur n 0 /\
        (forall X l e, xs = X ++ [(l, e)] -> can_merge e x = false))).
Proof.
  intros (H & lv & O & ->)%Tree_OK Vx.
  destruct (push_ok L t H lv x O Vx) as (cur & t' & H' & lv' & E & O' & HM & HA & HR). exists cur, t'. split_and!; try done.
  pose proof (OK_Tree L _ _ _ O') as T'.
  destruct HR as [(X & l & e & e' & H1 & H2 & H3 & H4 & H5)|(n & H1 & H2 & H3 & H4)]; [left|right].
  - exists X, l, e, e'. rewrite H4 in T'. done.
  - exists n. rewrite H2 in T'. done.
Qed.
Theorem t_prepend t xs x : Tree t xs -> xs <> [] -> evalid L x ->
  exists cur t', prepend t x = Ok (cur, t') /\ (forall w, MDw w t -> MDw w t') /\ anext (leaf_nodes t) <= anext (leaf_nodes t') /\
    ((exists Y l e e', xs = (l, e) :: Y /\ can_merge x e = true /\ merge_left e x = Ok e' /\
        Tree t' ((l, e') :: Y) /\ cur = mkCur l 0) \/
     (exists n, anext (leaf_nodes t) <= n < anext (leaf_nodes t') /\ Tree t' ((n, x) :: xs) /\ cur = mkCur n 0 /\
        (forall Y l e, xs = (l, e) :: Y -> can_merge x e = false))).
Proof.
  intros (H & lv & O & ->)%Tree_OK Hne Vx.
  destruct (prepend_ok L t H lv x O Hne Vx) as (cur & t' & H' & lv' & E & O' & HM & HA & HR). exists cur, t'. split_and!; try done.
  pose proof (OK_Tree L _ _ _ O') as T'.
  destruct HR as [(X & l & e & e' & H1 & H2 & H3 & H4 & H5)|(n & H1 & H2 & H3 & H4)]; [left|right].
  - exists X, l, e, e'. rewrite H4 in T'. done.
  - exists n. rewrite H2 in T'. done.
Qed.
Theorem t_prepend_empty t x : Tree t [] -> evalid L x ->
  exists n t', prepend t x = Ok (mkCur n 0, t') /\ n = anext (leaf_nodes t) /\ Content t' [(n, x)] /\
    root_cache t' = root_cache t.
Proof.
  intros (H & lv & O & Hc)%Tree_OK Vx.
  destruct (prepend_empty L t H lv x O (eq_sym Hc) Vx) as (t' & E & W & _ & _ & _ & _ & HC & HR).
  eexists _, t'. split; [done|]. split_and!; try done. exists 1. rewrite <- HC. by eapply content_cont.
Qed.
(** ** removal *)
Theorem t_remove t X l e Y off : Tree t (X ++ (l, e) :: Y) -> mono L = true \/ MD t ->
  exists t', remove_leaf t (mkCur l off) = Ok (Some e, t') /\ Tree t' (X ++ Y) /\ (forall w, MDw w t -> MDw w t') /\
    anext (leaf_nodes t) <= anext (leaf_nodes t').
Proof.
  intros T HM. pose proof (tree_el _ _ _ _ _ T) as He. destruct (Tree_OK L _ _ T) as (H & lv & O & Hc).
  destruct (remove_leaf_ok L t H lv l e off O He) as (t' & H' & lv' & E & O' & HC & _ & _ & _ & HA & HMD).
  - intros p Hp. destruct HM as [Hm|HM]; [by right; left|]. destruct (decide (AInt p = root t)); [by right; right|left].
    destruct (leaf_at (ok_wt _ _ _ _ O) (ok_lk _ _ _ _ O) _ _ He) as (p' & cs & k & c & Hp' & Hk & _).
    rewrite Hp in Hp'. injection Hp' as <-. pose proof (md_in _ _ HM p ltac:(rewrite Hk; eauto) n) as H6. cbn in H6. lia.
  - exists t'. split_and!; try done. rewrite <- (HC X Y) by done. by eapply OK_Tree.
Qed.
Lemma t_remove_dead t l off : a_get (leaf_nodes t) l = None -> remove_leaf t (mkCur l off) = Ok (None, t).
Proof. intros He. unfold remove_leaf. cbn [cu_leaf]. by rewrite He. Qed.

(** ** navigation *)
Theorem t_next t X l e Y off : Tree t (X ++ (l, e) :: Y) ->
  next_elem t (mkCur l off) = Ok ((fun y => mkCur (fst y) 0) <$> head Y).
Proof.
  intros T. pose proof (tree_leaves _ _ T) as HL. rewrite fmap_app in HL. cbn in HL. destruct (Tree_OK L _ _ T) as (H & lv & O & _).
  rewrite (next_elem_ok (ok_wt _ _ _ _ O) (ok_lk _ _ _ _ O) l off _ _ HL). by destruct Y.
Qed.
Theorem t_prev t X l e Y off : Tree t (X ++ (l, e) :: Y) ->
  prev_elem t (mkCur l off) = Ok ((fun y => mkCur (fst y) 0) <$> last X).
Proof.
  intros T. pose proof (tree_leaves _ _ T) as HL. rewrite fmap_app in HL. cbn in HL. destruct (Tree_OK L _ _ T) as (H & lv & O & _).
  rewrite (prev_elem_ok (ok_wt _ _ _ _ O) (ok_lk _ _ _ _ O) l off _ _ HL). rewrite fmap_last. by destruct (last X).
Qed.
Theorem t_first t xs : Tree t xs -> first_leaf t = Ok (fst <$> head xs).
Proof. intros (H & lv & O & ->)%Tree_OK. apply (first_leaf_cont t H lv (ok_wt _ _ _ _ O)). Qed.
Theorem t_last t xs : Tree t xs -> last_leaf t = Ok (fst <$> last xs).
Proof. intros (H & lv & O & ->)%Tree_OK. apply (last_leaf_cont t H lv (ok_wt _ _ _ _ O)). Qed.
Theorem t_is_empty t xs : Tree t xs -> is_empty t = Ok (bool_decide (xs = [])).
Proof. intros (H & lv & O & ->)%Tree_OK. apply (is_empty_ok t H lv (ok_wt _ _ _ _ O)). Qed.
Lemma tree_get_lf t xs l e : Tree t xs -> (l, e) ∈ xs -> exists p, get_lf t l = Ok (mkLeaf e p).
Proof.
  intros T Hin. apply (tree_in t xs l e T) in Hin. destruct (proj1 (el_llnk t l)) as [p Hp]; [rewrite Hin; eauto|].
  exists p. by apply get_lf_proj.
Qed.
Theorem t_start t xs : Tree t xs -> start_cursor t = Ok ((fun y => mkCur (fst y) 0) <$> head xs).
Proof. intros T. unfold start_cursor. rewrite (t_first t xs T). by destruct (head xs). Qed.
Theorem t_end t xs : Tree t xs -> end_cursor t = Ok ((fun y => mkCur (fst y) (rle_len (snd y))) <$> last xs).
Proof.
  intros T. unfold end_cursor. rewrite (t_last t xs T). destruct (last xs) as [[l e]|] eqn:E; [|done]. cbn.
  apply last_Some in E as [X ->]. destruct (tree_get_lf _ _ l e T) as [p ->]; [clear; set_solver|]. done.
Qed.
Theorem t_prefer_right t X l e Y off : Tree t (X ++ (l, e) :: Y) -> off <= rle_len e ->
  prefer_right t (mkCur l off) =
    Ok (if decide (off <> 0 /\ off = rle_len e) then (fun y => mkCur (fst y) 0) <$> head Y else Some (mkCur l off)).
Proof.
  intros T Hoff. unfold prefer_right. cbn [cu_offset cu_leaf]. destruct (decide (off = 0)) as [->|H0].
  { by rewrite decide_False by tauto. }
  destruct (tree_get_lf _ _ l e T) as [p ->]; [clear; set_solver|]. cbn [rbind l_elem].
  destruct (decide (off = rle_len e)) as [->|H1].
  - rewrite decide_True by done. by apply (t_next t X l e).
  - by rewrite decide_False by tauto.
Qed.
Theorem t_prefer_left t X l e Y off : Tree t (X ++ (l, e) :: Y) -> off <= rle_len e ->
  prefer_left t (mkCur l off) =
    Ok (if decide (off = 0) then (fun y => mkCur (fst y) (rle_len (snd y))) <$> last X else Some (mkCur l off)).
Proof.
  intros T Hoff. unfold prefer_left. cbn [cu_offset]. destruct (decide (off = 0)) as [->|H0]; [|done].
  rewrite (t_prev t X l e Y 0 T). cbn [rbind]. destruct (last X) as [[l' e']|] eqn:E; [|done]. cbn.
  apply last_Some in E as [X' ->]. destruct (tree_get_lf _ _ l' e' T) as [p ->]; [clear; set_solver|]. done.
Qed.
(** the depth index of [InOrder] of a non-empty tree is unique *)
Lemma io_gen_unique t H lv : OK t H lv -> forall d xs, InOrder t (root t) d xs -> xs <> [] -> d = S H.
Proof.
  intros O. pose proof (ok_wt _ _ _ _ O) as W.
  assert (G : (forall a d xs, InOrder t a d xs -> live t a -> xs <> [] -> d = alv lv a) /\
    (forall r d xs, InOrders t r d xs -> xs <> [] -> forall n, (forall a, a ∈ r -> live t a /\ alv lv a = n) -> d = n)).
  { apply InOrder_mut.
    - intros l lf Hl Ha Hne. done.
    - intros i n d xs Hn _ IH Hl Hne. cbn. f_equal. apply IH; [done|]. intros a Ha.
      rewrite <- (chs_kids _ _ _ (kids_get _ _ _ Hn)) in Ha. split; [by apply (wt_live_child W) in Ha|].
      apply elem_of_list_lookup in Ha as [k Ha]. by destruct (wt_ch W _ _ _ Ha).
    - done.
    - intros a r d xs ys _ IH1 _ IH2 Hne n Hn. destruct (Hn a) as [Ha Hl]; [left|].
      destruct xs as [|x xs]; [|rewrite <- Hl; by apply IH1]. apply IH2; [done|]. intros b Hb. apply Hn. by right. }
  intros d xs Hio Hne. rewrite <- (alv_root W). apply (proj1 G _ _ _ Hio); [apply (root_live W)|done].
Qed.
Lemma tree_ok_d t d xs : Tree t xs -> InOrder t (root t) d xs -> xs <> [] -> exists H lv, OK t H lv /\ d = S H /\ cont t H = xs.
Proof.
  intros T Hio Hne. destruct (Tree_OK L _ _ T) as (H & lv & O & Hc). exists H, lv. split_and!; try done.
  by eapply io_gen_unique.
Qed.
(** a tree is at most [d] deep *)
Definition Shallow t (k : nat) : Prop := exists d xs, InOrder t (root t) d xs /\ d <= k.
Lemma io_depth t : (forall a d xs, InOrder t a d xs -> forall d' ys, InOrder t a d' ys -> xs <> [] -> d = d') /\
  (forall r d xs, InOrders t r d xs -> forall d' ys, InOrders t r d' ys -> xs <> [] -> d = d').
Proof.
  apply InOrder_mut.
  - intros l lf Hl d' ys Hy _. by inversion Hy.
  - intros i n d xs Hn _ IH d' ys Hy Hne. inversion Hy; subst. assert (n0 = n) as -> by congruence. f_equal. eauto.
  - done.
  - intros a r d xs ys _ IH1 _ IH2 d' zs Hz Hne. inversion Hz; subst. destruct xs; [|eauto]. eauto.
Qed.
Lemma shallow_ok t xs k : Tree t xs -> xs <> [] -> Shallow t k -> exists H lv, OK t H lv /\ S H <= k /\ cont t H = xs.
Proof.
  intros T Hne (d & ys & Hio & Hd). assert (ys = xs) as ->. { eapply content_det; [by exists d|]. by eapply Tree_content. }
  destruct (tree_ok_d _ _ _ T Hio Hne) as (H & lv & O & -> & Hc). by exists H, lv.
Qed.
Theorem t_depth t d xs : Tree t xs -> xs <> [] -> InOrder t (root t) d xs -> depth t = Ok d.
Proof.
  intros T Hne Hio. destruct (tree_ok_d _ _ _ T Hio Hne) as (H & lv & O & -> & Hc). apply (depth_ok (ok_wt _ _ _ _ O)).
  intros He. apply Hne. rewrite <- Hc. unfold cont. cbn [gen]. rewrite (wt_root_id (ok_wt _ _ _ _ O)). cbn. by rewrite He.
Qed.
Theorem t_depth_min t d xs : Tree t xs -> xs <> [] -> MD t -> InOrder t (root t) d xs -> 2 <= d -> 2 * 6 ^ (d - 1) <= length xs.
Proof.
  intros T Hne M Hio Hd. destruct (tree_ok_d _ _ _ T Hio Hne) as (H & lv & O & -> & Hc).
  replace (S H - 1) with H by lia. rewrite <- Hc. apply (depth_min t H lv (ok_wt _ _ _ _ O) M); [lia|congruence].
Qed.
Theorem t_depth_min5 t d xs : Tree t xs -> xs <> [] -> MDw true t -> InOrder t (root t) d xs -> 2 <= d -> 5 ^ (d - 1) < length xs.
Proof.
  intros T Hne M Hio Hd. destruct (tree_ok_d _ _ _ T Hio Hne) as (H & lv & O & -> & Hc).
  replace (S H - 1) with H by lia. rewrite <- Hc. apply (depth_min5 t H lv (ok_wt _ _ _ _ O) M); [lia|congruence].
Qed.
Theorem t_iter t xs : Tree t xs -> Shallow t 9 -> BTree.iter t = Ok (map snd xs).
Proof.
  intros T Hs. destruct (decide (length xs = 0)) as [E|E].
  - apply nil_length_inv in E as ->. destruct (Tree_OK L _ _ T) as (H & lv & O & Hc).
    rewrite Hc. pose proof (OK_relevel L t H lv O (cont_nil t H lv (ok_wt _ _ _ _ O) (eq_sym Hc))) as O0.
    rewrite (iter_ok (ok_wt _ _ _ _ O0) (ok_lk _ _ _ _ O0)) by lia. do 2 f_equal. rewrite (cont_tree t 0 _ [] O0 T). done.
  - destruct (shallow_ok t xs 9 T) as (H & lv & O & HH & <-); [by destruct xs|done|].
    apply (iter_ok (ok_wt _ _ _ _ O) (ok_lk _ _ _ _ O)). lia.
Qed.
Theorem t_compare t X a Y b Z oa ob : Tree t (X ++ a :: Y ++ b :: Z) ->
  compare_pos t (mkCur (fst a) oa) (mkCur (fst b) ob) = Ok Lt /\ compare_pos t (mkCur (fst b) ob) (mkCur (fst a) oa) = Ok Gt.
Proof.
  intros T. pose proof (tree_leaves _ _ T) as HL. destruct (Tree_OK L _ _ T) as (H & lv & O & _).
  apply (compare_pos_ok (ok_wt _ _ _ _ O) (ok_lk _ _ _ _ O) (mkCur (fst a) oa) (mkCur (fst b) ob) X.*1 Y.*1 Z.*1).
  rewrite HL, fmap_app. cbn. rewrite fmap_app. done.
Qed.
Theorem t_compare_same t l oa ob : compare_pos t (mkCur l oa) (mkCur l ob) = Ok (Nat.compare oa ob).
Proof. by apply compare_pos_same. Qed.
Theorem t_check t xs : Tree t xs -> Shallow t 9 -> xs <> [] \/ mono L = true -> check t = Ok tt.
Proof.
  intros T Hs Hne. destruct (decide (length xs = 0)) as [E|E].
  - apply nil_length_inv in E as ->. destruct (Tree_OK L _ _ T) as (H & lv & O & Hc).
    pose proof (OK_relevel L t H lv O (cont_nil t H lv (ok_wt _ _ _ _ O) (eq_sym Hc))) as O0.
    apply (check_ok L t 0 _ O0); [lia|]. by rewrite (cont_tree t 0 _ [] O0 T).
  - destruct (shallow_ok t xs 9 T) as (H & lv & O & HH & <-); [by destruct xs|done|].
    apply (check_ok L t H lv O); [lia|done].
Qed.
Theorem t_root_cache t xs : Tree t xs -> xs <> [] \/ mono L = true -> root_cache t = agg L xs.
Proof. intros (H & lv & O & ->)%Tree_OK Hne. by apply (root_act L t H lv). Qed.
End ops.
