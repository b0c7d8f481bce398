(** Poke.v — writing through get_elem_mut, followed by recursive_update_cache. *)
From Verif Require Export RopeP.

Section poke.
Context {B : BTreeTrait} (L : Lawful B).
Notation btree := (btree B).
Notation Tree := (Tree L).
Implicit Types (t : btree) (X Y : list (nat * Elem B)).

(** get_elem_mut — lib.rs:922-925, followed by a write of [e] through the returned reference.
    [None] is returned and nothing is written if the leaf is not in the arena. *)
Definition poke t (l : nat) (e : Elem B) : option btree :=
  (fun lf => set_lf t l (with_elem lf e)) <$> a_get (leaf_nodes t) l.

Lemma tree_leaf t X l e Y : Tree t (X ++ (l, e) :: Y) -> exists p, a_get (leaf_nodes t) l = Some (mkLeaf e p).
Proof.
  intros T. pose proof (tree_el L t X (l) e Y T) as He. unfold el in He. destruct (a_get (leaf_nodes t) l) as [[e0 p]|]; [|done].
  cbn in He. injection He as ->. by exists p.
Qed.

Theorem t_poke u t X l e Y e' od : (u = true -> @USE_DIFF B = true) -> Tree t (X ++ (l, e) :: Y) -> evalid L e' ->
  (forall d, od = Some d -> u = true -> drel L (get_elem_cache e) d (get_elem_cache e')) ->
  exists t1 t', poke t l e' = Some t1 /\ recursive_update_cache t1 (ALeaf l) u od = Ok t' /\ Tree t' (X ++ (l, e') :: Y).
Proof.
  intros Hu T Ve Hd. destruct (tree_leaf t X l e Y T) as [p Hl].
  destruct (t_set_elem L u t X l e Y e' p od Hu T) as (t' & E & T' & _).
  - unfold get_lf. by rewrite Hl.
  - done.
  - done.
  - eexists _, t'. split; [unfold poke; by rewrite Hl|]. done.
Qed.

(** an element whose cache is the old one may be written without touching the caches *)
Theorem t_poke_same t X l e Y e' : Tree t (X ++ (l, e) :: Y) -> evalid L e' -> get_elem_cache e' = get_elem_cache e ->
  exists t', poke t l e' = Some t' /\ Tree t' (X ++ (l, e') :: Y).
Proof.
  intros T Ve Hc. destruct (tree_leaf t X l e Y T) as [p Hl]. unfold poke. rewrite Hl. cbn. eexists. split; [done|].
  set (t1 := set_lf t l _). pose proof T as Tc. destruct T as [d I].
  assert (Gl : forall x, a_get (leaf_nodes t1) x = if decide (l = x) then Some (mkLeaf e' p) else a_get (leaf_nodes t) x).
  { intros x. unfold t1, set_lf, a_get, a_set. cbn. case_decide; subst; by simplify_map_eq. }
  set (h := fun x : nat * Elem B => if decide (l = fst x) then (l, e') else x).
  assert (Hio : (forall a d ys, InOrder t a d ys -> InOrder t1 a d (map h ys)) /\ (forall r d ys, InOrders t r d ys -> InOrders t1 r d (map h ys))).
  { apply InOrder_mut.
    - intros x lf Hx. cbn [map]. unfold h. cbn [fst]. destruct (decide (l = x)) as [<-|Hn].
      + apply (io_leaf t1 l (mkLeaf e' p)). rewrite Gl. by rewrite decide_True.
      + apply io_leaf. rewrite Gl. by rewrite decide_False.
    - intros i n d' ys Hn _ IH. by eapply io_node.
    - intros. constructor.
    - intros. rewrite map_app. by constructor. }
  destruct Hio as [Hio _]. pose proof (in_nodup _ _ _ _ I) as Hnd.
  assert (Hh : forall W, l ∉ W.*1 -> map h W = W).
  { intros W HW. rewrite <- (map_id W) at 2. apply map_ext_in. intros [x y] Hx%elem_of_list_In. unfold h. cbn. case_decide; [|done]. subst.
    exfalso. apply HW. by apply (elem_of_list_fmap_1 fst) in Hx. }
  assert (Ex : map h (X ++ (l, e) :: Y) = X ++ (l, e') :: Y).
  { rewrite fmap_app, fmap_cons in Hnd. cbn in Hnd. apply NoDup_app in Hnd as (_ & Hn1 & [Hn2 _]%NoDup_cons).
    rewrite map_app. cbn [map]. rewrite !Hh; [|done|intros Hx; apply (Hn1 _ Hx); by left]. unfold h. cbn. by rewrite decide_True. }
  assert (Hag : forall ys, (forall x, x ∈ ys -> x ∈ X ++ (l, e) :: Y) -> agg L (map h ys) = agg L ys).
  { intros ys Hs. unfold agg. f_equal. rewrite map_map. apply map_ext_in. intros [x y] Hx%elem_of_list_In. unfold h. cbn. case_decide as Hd; [|done]. cbn. subst.
    apply Hs in Hx. apply (in_leaf _ _ _ _ I) in Hx. rewrite Hl in Hx. cbn in Hx. by injection Hx as <-. }
  assert (HR1 : forall a, Reach t a -> Reach t1 a) by (induction 1; [apply (rc_root t1)|by eapply (rc_child t1)]).
  assert (HR2 : forall a, Reach t1 a -> Reach t a) by (induction 1; [apply (rc_root t)|by eapply (rc_child t)]).
  assert (HS : forall x, is_Some (a_get (leaf_nodes t1) x) <-> is_Some (a_get (leaf_nodes t) x)).
  { intros x. rewrite Gl. case_decide; [subst; rewrite Hl; split; eauto|done]. }
  assert (Hfst : (map h (X ++ (l, e) :: Y)).*1 = (X ++ (l, e) :: Y).*1).
  { rewrite Ex, !fmap_app. done. }
  exists d. rewrite <- Ex. constructor.
  - apply Hio, I.
  - by rewrite Hfst.
  - apply I.
  - apply I.
  - apply I.
  - intros i n k c x lf Hn Hk Hx Hlf. rewrite Gl in Hlf. case_decide as Hd.
    + subst x. injection Hlf as <-. cbn. change p with (l_parent (mkLeaf e p)). by eapply (in_lup _ _ _ _ I i n k c l).
    + by eapply (in_lup _ _ _ _ I i n k c x).
  - apply I.
  - intros i. change (in_nodes t1) with (in_nodes t). rewrite <- (in_reach_in _ _ _ _ I). split; auto.
  - intros i. rewrite HS, <- (in_reach_lf _ _ _ _ I). split; auto.
  - apply I.
  - intros x. rewrite HS. apply I.
  - intros x y. rewrite Gl. split.
    + intros ([x' y'] & E & Hin)%elem_of_list_fmap. unfold h in E. cbn in E. destruct (decide (l = x')) as [<-|Hn].
      * injection E as -> ->. rewrite decide_True by done. done.
      * injection E as -> ->. rewrite decide_False by done. by apply (in_leaf _ _ _ _ I).
    + intros Hy. apply elem_of_list_fmap. case_decide as Hd.
      * subst x. cbn in Hy. injection Hy as <-. exists (l, e). unfold h. cbn. rewrite decide_True by done. split; [done|]. clear; set_solver.
      * exists (x, y). unfold h. cbn. rewrite decide_False by done. split; [done|]. by apply (in_leaf _ _ _ _ I).
  - intros i n c d' zs Hn Hc' Hz. assert (Reach t (c_arena c)) as HR by (eapply rc_child; [apply (in_reach_in _ _ _ _ I)| |]; eauto).
    assert (exists d2 ys, InOrder t (c_arena c) d2 ys /\ forall x, x ∈ ys -> x ∈ X ++ (l, e) :: Y) as (d2 & ys & Hy & Hs).
    { clear -HR I. revert HR. generalize (c_arena c). clear c. intros a HR. induction HR as [|i n c Hi (d' & ys & Hio & Hs) Hn Hc].
      - exists d. eexists. split; [apply (in_order _ _ _ _ I)|done].
      - inversion Hio as [|? n' d2 ? Hn' Hios]; subst. assert (n' = n) as -> by congruence.
        destruct (ios_in _ _ _ _ Hios (c_arena c)) as (zs & Hz & Hsz); [by apply elem_of_list_fmap_1|].
        exists d2, zs. split; [done|]. auto. }
    rewrite (proj1 (io_det t1) _ _ _ Hz _ _ (Hio _ _ _ Hy)), (Hag _ Hs). by eapply (in_cache _ _ _ _ I).
  - intros Hne. rewrite Hag by done. apply (in_root_cache _ _ _ _ I). left. by destruct X.
  - intros x y ([x' y'] & E & Hin)%elem_of_list_fmap. unfold h in E. cbn in E. case_decide; injection E as -> ->; [done|]. by apply (in_valid _ _ _ _ I x').
Qed.
End poke.
