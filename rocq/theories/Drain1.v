(** Drain1.v — pieces of Drain::drop: purging sub-trees, full cache refresh, cutting children. *)
From Verif Require Export Prune.

Section drain1.
Context {B : BTreeTrait}.
Notation btree := (btree B).
Notation child := (child B).
Implicit Types (t : btree) (i j m p q k s : nat) (a b : aidx) (c : child) (cs : list child).

(** ** purge *)
Lemma total_children_rem t i n : a_get (in_nodes t) i = Some n ->
  total_children t = length (n_children n) + total_children (rem_in t i).
Proof.
  intros Hg. unfold total_children, rem_in, a_remove. cbn. unfold a_get in Hg.
  rewrite <- (insert_delete (amap (in_nodes t)) i n Hg) at 1.
  rewrite map_fold_insert_L; [done| |apply lookup_delete].
  intros. lia.
Qed.
Lemma purge_f_ok f : forall t st, length st + total_children t <= f ->
  exists t', purge_f f t st = Ok t' /\ root t' = root t /\ root_cache t' = root_cache t
    /\ anext (in_nodes t') = anext (in_nodes t) /\ anext (leaf_nodes t') = anext (leaf_nodes t)
    /\ (forall i, kids t' i = None \/ (kids t' i = kids t i /\ lnk t' i = lnk t i))
    /\ (forall l, el t' l = None \/ (el t' l = el t l /\ llnk t' l = llnk t l))
    /\ (forall a, a ∈ st -> ~ live t' a)
    /\ (forall i, kids t' i = None -> forall a, a ∈ chs t i -> ~ live t' a)
    /\ (forall D : aidx -> Prop, (forall a, a ∈ st -> D a) -> (forall i a, D (AInt i) -> a ∈ chs t i -> D a) ->
          forall a, ~ D a -> match a with AInt i => kids t' i = kids t i | ALeaf l => el t' l = el t l end).
Proof.
  induction f as [|f IH]; intros t st Hf.
  - destruct st; [|cbn in Hf; lia]. cbn. exists t. split_and!; try done; try (intros; by right).
    + intros a Ha. by apply elem_of_nil in Ha.
    + intros i Hi a Ha. unfold chs in Ha. rewrite Hi in Ha. by apply elem_of_nil in Ha.
    + intros D _ _ [l|i] _; done.
  - destruct st as [|x st].
    { cbn. exists t. split_and!; try done; try (intros; by right).
      + intros a Ha. by apply elem_of_nil in Ha.
      + intros i Hi a Ha. unfold chs in Ha. rewrite Hi in Ha. by apply elem_of_nil in Ha.
      + intros D _ _ [l|i] _; done. }
    cbn [purge_f]. destruct x as [l|i].
    + destruct (IH (rem_lf t l) st) as (t' & E & R & Rc & An & Al & Hk & Hl & Hs & Hc & HD).
      { cbn in Hf. change (total_children (rem_lf t l)) with (total_children t). lia. }
      exists t'. split_and!; try done.
      * intros x. destruct (Hl x) as [?|[Ex Ey]]; [by left|]. rewrite el_rem_lf in Ex. rewrite llnk_rem_lf in Ey.
        case_decide; [by left|by right].
      * intros a [->|Ha]%elem_of_cons; [|by apply Hs]. cbn. destruct (Hl l) as [->|[-> _]]; [by intros []|].
        rewrite el_rem_lf, decide_True by done. by intros [].
      * intros D Hd1 Hd2 a Ha. specialize (HD D). destruct a as [x|x].
        -- rewrite (HD ltac:(intros; apply Hd1; by right) Hd2 (ALeaf x) Ha). rewrite el_rem_lf. rewrite decide_False; [done|].
           intros ->. apply Ha, Hd1. left.
        -- apply (HD ltac:(intros; apply Hd1; by right) Hd2 (AInt x) Ha).
    + destruct (a_get (in_nodes t) i) as [n|] eqn:Eg.
      2:{ destruct (IH t st) as (t' & E & R & Rc & An & Al & Hk & Hl & Hs & Hc & HD); [cbn in Hf; lia|].
          exists t'. split_and!; try done.
          * intros a [->|Ha]%elem_of_cons; [|by apply Hs]. cbn.
            assert (kids t i = None) as Ei by (unfold kids; by rewrite Eg).
            destruct (Hk i) as [->|[-> _]]; [by intros []|rewrite Ei; by intros []].
          * intros D Hd1 Hd2 a Ha. apply (HD D); [intros; apply Hd1; by right|done|done]. }
      assert (Hki : kids t i = Some (n_children n)) by (unfold kids; by rewrite Eg).
      destruct (IH (rem_in t i) (rev (map c_arena (n_children n)) ++ st)) as (t' & E & R & Rc & An & Al & Hk & Hl & Hs & Hc & HD).
      { rewrite (total_children_rem t i n Eg) in Hf. rewrite app_length, rev_length, map_length. cbn in Hf. lia. }
      exists t'. split_and!; try done.
      * intros x. destruct (Hk x) as [?|[Ex Ey]]; [by left|]. rewrite kids_rem_in in Ex. rewrite lnk_rem_in in Ey.
        case_decide; [by left|by right].
      * intros a [->|Ha]%elem_of_cons; [|apply Hs; set_solver]. cbn. destruct (Hk i) as [->|[-> _]]; [by intros []|].
        rewrite kids_rem_in, decide_True by done. by intros [].
      * intros x Hx a Ha. destruct (decide (x = i)) as [->|Hne].
        -- apply Hs. apply elem_of_app. left. apply elem_of_list_In. rewrite <- in_rev. apply elem_of_list_In.
           by rewrite <- (chs_kids _ _ _ Hki).
        -- apply (Hc x Hx). rewrite chs_rem_in. by rewrite decide_False.
      * intros D Hd1 Hd2 a Ha. specialize (HD D).
        assert (HD' : forall a, ~ D a -> match a with AInt i0 => kids t' i0 = kids (rem_in t i) i0 | ALeaf l => el t' l = el (rem_in t i) l end).
        { apply HD.
          - intros b [Hb|Hb]%elem_of_app; [|apply Hd1; by right]. apply (Hd2 i); [apply Hd1; left|].
            rewrite (chs_kids _ _ _ Hki). apply elem_of_list_In. rewrite in_rev. by apply elem_of_list_In.
          - intros x b Hx. rewrite chs_rem_in. case_decide; [by intros ?%elem_of_nil|]. by apply Hd2. }
        specialize (HD' a Ha). destruct a as [x|x]; [done|]. rewrite HD', kids_rem_in, decide_False; [done|].
        intros ->. apply Ha, Hd1. left.
Qed.

(** the effect of purging a list of nodes *)
Definition PG t t' (st : list aidx) : Prop :=
  root t' = root t /\ root_cache t' = root_cache t
    /\ anext (in_nodes t') = anext (in_nodes t) /\ anext (leaf_nodes t') = anext (leaf_nodes t)
    /\ (forall i, kids t' i = None \/ (kids t' i = kids t i /\ lnk t' i = lnk t i))
    /\ (forall l, el t' l = None \/ (el t' l = el t l /\ llnk t' l = llnk t l))
    /\ (forall a, a ∈ st -> ~ live t' a)
    /\ (forall i, kids t' i = None -> forall a, a ∈ chs t i -> ~ live t' a)
    /\ (forall D : aidx -> Prop, (forall a, a ∈ st -> D a) -> (forall i a, D (AInt i) -> a ∈ chs t i -> D a) ->
          forall a, ~ D a -> match a with AInt i => kids t' i = kids t i | ALeaf l => el t' l = el t l end).
Lemma purge_all_ok xs : forall t, exists t', purge_all t xs = Ok t' /\ PG t t' xs.
Proof.
  induction xs as [|x xs IH]; intros t.
  - exists t. split; [done|]. split_and!; try done; try (intros; by right).
    + intros a Ha. by apply elem_of_nil in Ha.
    + intros i Hi a Ha. unfold chs in Ha. rewrite Hi in Ha. by apply elem_of_nil in Ha.
    + intros D _ _ [l|i] _; done.
  - cbn [purge_all]. unfold purge.
    destruct (purge_f_ok (S (total_children t)) t [x]) as (t1 & E & R & Rc & An & Al & Hk & Hl & Hs & Hc & HD); [cbn; lia|].
    rewrite E. cbn [rbind].
    destruct (IH t1) as (t' & E' & R' & Rc' & An' & Al' & Hk' & Hl' & Hs' & Hc' & HD').
    exists t'. split; [done|].
    assert (Hdead : forall a, ~ live t1 a -> ~ live t' a).
    { intros [l|i] Ha Hb; apply Ha; cbn in *; [destruct (Hl' l) as [Ex|[Ex _]]|destruct (Hk' i) as [Ex|[Ex _]]];
        rewrite Ex in Hb; try done; by destruct Hb. }
    split_and!; try congruence.
    + intros i. destruct (Hk' i) as [?|[Ex Ey]]; [by left|]. destruct (Hk i) as [?|[Ex' Ey']]; [left|right]; rewrite ?Ex, ?Ey; done.
    + intros i. destruct (Hl' i) as [?|[Ex Ey]]; [by left|]. destruct (Hl i) as [?|[Ex' Ey']]; [left|right]; rewrite ?Ex, ?Ey; done.
    + intros a [->|Ha]%elem_of_cons; [apply Hdead, Hs; left|by apply Hs'].
    + intros i Hi a Ha. destruct (Hk i) as [Hn|[Ex _]].
      * apply Hdead. by eapply Hc.
      * apply (Hc' i Hi). unfold chs. rewrite Ex. done.
    + intros D Hd1 Hd2 a Ha.
      assert (H1 : match a with AInt i => kids t1 i = kids t i | ALeaf l => el t1 l = el t l end).
      { apply (HD D); [|done|done]. intros b ->%elem_of_list_singleton. apply Hd1. left. }
      assert (H2 : match a with AInt i => kids t' i = kids t1 i | ALeaf l => el t' l = el t1 l end).
      { apply (HD' D); [|intros i b Hi Hb; apply (Hd2 i b Hi)|done].
        - intros b Hb. apply Hd1. by right.
        - destruct (Hk i) as [Hn|[Ex _]]; unfold chs in *; [by rewrite Hn in Hb; apply elem_of_nil in Hb|by rewrite <- Ex]. }
      destruct a; congruence.
Qed.

(** ** cutting the children of one node *)
Lemma delete_range_ok {A} (l : list A) ds de : ds <= de -> de <= length l ->
  delete_range l ds de = Ok (take ds l ++ drop de l).
Proof.
  intros H1 H2. unfold delete_range. case_decide as D1.
  { subst. by rewrite take_drop. }
  rewrite decide_False by lia. case_decide as D2.
  - unfold vec_remove. assert (ds < length l) as Hx by lia. apply lookup_lt_is_Some in Hx as [x ->]. cbn.
    by replace de with (S ds) by lia.
  - by rewrite decide_True by lia.
Qed.
Lemma vec_slice_ok {A} (l : list A) ds de : ds <= de -> de <= length l ->
  vec_slice l ds de = Ok (take (de - ds) (drop ds l)).
Proof. intros. unfold vec_slice. by rewrite decide_True. Qed.

Record EDIT t t' q cs' : Prop := {
  ed_root : root t' = root t;
  ed_rc : root_cache t' = root_cache t;
  ed_an : anext (in_nodes t') = anext (in_nodes t);
  ed_al : anext (leaf_nodes t') = anext (leaf_nodes t);
  ed_el : forall l, el t' l = el t l;
  ed_llnk : forall l, llnk t' l = llnk t l;
  ed_kids : forall i, kids t' i = if decide (q = i) then Some cs' else kids t i;
  ed_par : forall i, fst <$> lnk t' i = fst <$> lnk t i;
  ed_other : forall m, AInt m ∉ map c_arena cs' -> lnk t' m = lnk t m;
  ed_link : forall k m, map c_arena cs' !! k = Some (AInt m) -> lnk t' m = Some (Some (AInt q), k);
}.
Lemma cut_step t q cs ds de n : get_in t q = Ok n -> n_children n = cs ->
  NoDup (map c_arena cs) -> (forall a, a ∈ map c_arena cs -> exists m, a = AInt m /\ is_Some (kids t m)) ->
  AInt q ∉ map c_arena cs ->
  (forall k m, map c_arena cs !! k = Some (AInt m) -> lnk t m = Some (Some (AInt q), k)) ->
  ds <= de -> de <= length cs ->
  exists t', update_children_parent_slot_from (set_in t q (with_children n (take ds cs ++ drop de cs))) (AInt q) ds = Ok t'
    /\ EDIT t t' q (take ds cs ++ drop de cs).
Proof.
  intros Hg Hn Hnd Hint Hself Hlk H1 H2. set (cs' := take ds cs ++ drop de cs).
  set (t1 := set_in t q (with_children n cs')).
  assert (Hsub : map c_arena cs' ⊆+ map c_arena cs).
  { unfold cs'. rewrite map_app. rewrite <- (take_drop de cs) at 3. rewrite map_app.
    apply submseteq_app; [|done]. rewrite <- (take_drop ds (take de cs)), map_app.
    rewrite take_take. replace (ds `min` de) with ds by lia. apply submseteq_inserts_r. done. }
  assert (Hnd' : NoDup (map c_arena cs')).
  { unfold cs'. rewrite map_app. apply NoDup_app. split_and!.
    - rewrite <- (take_drop ds cs), map_app in Hnd. by apply NoDup_app in Hnd as (? & _ & _).
    - intros x Hx Hy. rewrite <- (take_drop de cs), map_app in Hnd. apply NoDup_app in Hnd as (_ & Hd & _).
      apply (Hd x); [|done]. apply elem_of_list_fmap in Hx as (y & -> & Hx). apply elem_of_list_fmap_1.
      apply elem_of_list_lookup in Hx as [j Hj]. apply lookup_take_Some in Hj as [Hj ?].
      apply elem_of_list_lookup. exists j. rewrite lookup_take by lia. done.
    - rewrite <- (take_drop de cs), map_app in Hnd. by apply NoDup_app in Hnd as (_ & _ & ?). }
  assert (Hk1 : forall i, kids t1 i = if decide (q = i) then Some cs' else kids t i) by (intros; apply kids_set_in).
  pose proof (get_in_inv _ _ _ Hg) as [Hkq Hlq].
  assert (Hl1 : forall i, lnk t1 i = lnk t i).
  { intros i. unfold t1. rewrite lnk_set_in. case_decide; [|done]. subst i. by rewrite Hlq. }
  assert (Hg1 : get_internal t1 (AInt q) = Ok (mkNode (n_parent n) (n_slot n) cs')).
  { cbn. apply get_in_proj; [by rewrite Hk1, decide_True|by rewrite Hl1]. }
  (* links of the kept children at the front *)
  assert (Hfront : forall k m, k < ds -> map c_arena cs' !! k = Some (AInt m) -> lnk t m = Some (Some (AInt q), k)).
  { intros k m Hk Hx. apply Hlk. rewrite list_lookup_fmap in Hx |- *. unfold cs' in Hx.
    rewrite lookup_app_l in Hx by (rewrite take_length; lia). by rewrite lookup_take in Hx. }
  unfold update_children_parent_slot_from. rewrite Hg1. cbn [rbind n_children].
  destruct (bool_decide (length cs' <= ds) || is_child_leaf (mkNode (n_parent n) (n_slot n) cs')) eqn:Eb.
  - exists t1. split; [done|]. constructor; try done.
    + intros i. by rewrite Hl1.
    + intros k m Hk. rewrite Hl1. apply Hfront; [|done]. apply orb_true_iff in Eb as [Eb|Eb].
      * apply bool_decide_eq_true in Eb. apply lookup_lt_Some in Hk. rewrite map_length in Hk. lia.
      * exfalso. unfold is_child_leaf in Eb. cbn in Eb. destruct cs' as [|c0 cs0]; [done|].
        assert (c_arena c0 ∈ map c_arena cs) as (m0 & E0 & _)%Hint by (eapply elem_of_submseteq; [|exact Hsub]; left).
        by rewrite E0 in Eb.
  - apply orb_false_iff in Eb as [Eb _]. apply bool_decide_eq_false in Eb.
    destruct (set_slots_ok (drop ds cs') t1 ds) as (t' & E & C & Ho & Hs).
    { intros a Ha. assert (a ∈ map c_arena cs') as Hx.
      { rewrite <- (take_drop ds cs'), map_app. apply elem_of_app. by right. }
      destruct (Hint a) as (m & -> & Hm); [by eapply elem_of_submseteq|]. exists m. split; [done|].
      rewrite Hk1. case_decide; [|done]. eauto. }
    { rewrite <- (take_drop ds cs'), map_app in Hnd'. by apply NoDup_app in Hnd' as (_ & _ & ?). }
    exists t'. split; [done|].
    assert (Hdrop : forall k m, ds <= k -> map c_arena cs' !! k = Some (AInt m) -> map c_arena (drop ds cs') !! (k - ds) = Some (AInt m)).
    { intros k m Hk Hx. rewrite list_lookup_fmap in Hx |- *. rewrite lookup_drop. by replace (ds + (k - ds)) with k by lia. }
    assert (Hin : forall m, AInt m ∈ map c_arena cs' -> exists s, lnk t m = Some (Some (AInt q), s)).
    { intros m Hm. assert (AInt m ∈ map c_arena cs) as [k Hk]%elem_of_list_lookup by (by eapply elem_of_submseteq). eauto. }
    constructor.
    + by rewrite (co_root C).
    + by rewrite (co_rc C).
    + by rewrite (co_an C).
    + by rewrite (co_al C).
    + intros l. by rewrite (co_el C).
    + intros l. pose proof (Ho (ALeaf l)) as Hx. cbn in Hx. rewrite Hx; [done|]. intros Hi.
      assert (ALeaf l ∈ map c_arena cs) as (m & ? & _)%Hint; [|done].
      eapply elem_of_submseteq; [|exact Hsub]. rewrite <- (take_drop ds cs'), map_app. apply elem_of_app. by right.
    + intros i. by rewrite (co_kids C), Hk1.
    + intros i. destruct (decide (AInt i ∈ map c_arena (drop ds cs'))) as [[k Hk]%elem_of_list_lookup|Hi].
      * destruct (Hin i) as [s Hs'].
        { apply elem_of_list_lookup_2 in Hk. rewrite <- (take_drop ds cs'), map_app. apply elem_of_app. by right. }
        rewrite (Hs k i (Some (AInt q)) s Hk) by by rewrite Hl1. by rewrite Hs'.
      * pose proof (Ho (AInt i) Hi) as Hx. cbn in Hx. by rewrite Hx, Hl1.
    + intros m Hm. pose proof (Ho (AInt m)) as Hx. cbn in Hx. rewrite Hx, Hl1; [done|].
      intros Hi. apply Hm. rewrite <- (take_drop ds cs'), map_app. apply elem_of_app. by right.
    + intros k m Hk. destruct (decide (k < ds)) as [Hlt|Hge].
      * pose proof (Ho (AInt m)) as Hx. cbn in Hx. rewrite Hx, Hl1; [by apply Hfront|].
        intros [k' Hk']%elem_of_list_lookup. rewrite list_lookup_fmap, lookup_drop, <- list_lookup_fmap in Hk'.
        assert (k = ds + k') by (by eapply NoDup_lookup). lia.
      * pose proof (Hdrop k m ltac:(lia) Hk) as Hk'. destruct (Hin m) as [s Hs']; [by eapply elem_of_list_lookup_2|].
        rewrite (Hs _ m _ _ Hk') by (rewrite Hl1; exact Hs'). f_equal. f_equal. lia.
Qed.
Lemma cut_suffix t q cs ds n : get_in t q = Ok n -> n_children n = cs ->
  (forall a, a ∈ map c_arena cs -> exists m, a = AInt m) ->
  (forall k m, map c_arena cs !! k = Some (AInt m) -> lnk t m = Some (Some (AInt q), k)) ->
  EDIT t (set_in t q (with_children n (take ds cs))) q (take ds cs).
Proof.
  intros Hg Hn Hint Hlk. pose proof (get_in_inv _ _ _ Hg) as [Hkq Hlq].
  assert (Hl1 : forall i, lnk (set_in t q (with_children n (take ds cs))) i = lnk t i).
  { intros i. rewrite lnk_set_in. case_decide; [|done]. subst i. by rewrite Hlq. }
  constructor; try done.
  - intros i. apply kids_set_in.
  - intros i. by rewrite Hl1.
  - intros k m Hk. rewrite Hl1. apply Hlk. rewrite list_lookup_fmap in Hk |- *.
    destruct (take ds cs !! k) as [c|] eqn:E; [|done]. apply lookup_take_Some in E as [-> _]. done.
Qed.
End drain1.
