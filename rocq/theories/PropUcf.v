(** PropUcf.v — get_elem_mut with recursive_update_cache (C46) and
    update_cache_and_elem_with_filter (C47, for callbacks without state). *)
From Verif Require Import Demo8.

(** ** C46.  [poke t l e'] (Poke.v) is a write of [e'] through get_elem_mut; it does not touch any
    cache.  Calling the public recursive_update_cache on the leaf afterwards — without diffs, or
    with diffs and the diff of the two elements, or with diffs and none given — repairs the tree. *)
Theorem C46_write_and_refresh (B : BTreeTrait) (L : Lawful B) (can_use_diff : bool) (t : btree B) X l e Y e' od :
  (can_use_diff = true -> @USE_DIFF B = true) -> Tree L t (X ++ (l, e) :: Y) -> evalid L e' ->
  (forall d, od = Some d -> can_use_diff = true -> drel L (get_elem_cache e) d (get_elem_cache e')) ->
  exists t1 t', poke t l e' = Some t1 /\ recursive_update_cache t1 (ALeaf l) can_use_diff od = Ok t' /\ Tree L t' (X ++ (l, e') :: Y).
Proof. exact (t_poke L can_use_diff t X l e Y e' od). Qed.
Print Assumptions C46_write_and_refresh.

(** An element with an unchanged cache can be written with no refresh. *)
Theorem C46_write_same_cache (B : BTreeTrait) (L : Lawful B) (t : btree B) X l e Y e' :
  Tree L t (X ++ (l, e) :: Y) -> evalid L e' -> get_elem_cache e' = get_elem_cache e ->
  exists t', poke t l e' = Some t' /\ Tree L t' (X ++ (l, e') :: Y).
Proof. exact (t_poke_same L t X l e Y e'). Qed.
Print Assumptions C46_write_same_cache.

Example C46_example : exists (t : btree RT) (X : list (nat * Elem RT)) (e : Elem RT) (Y : list (nat * Elem RT)), Tree RL t (X ++ (5, e) :: Y) /\ length X = 5 /\ length Y = 8 /\
  @USE_DIFF RT = true /\ evalid RL (gbs [7]) /\ drel RL (@get_elem_cache RT e) (-2)%Z (@get_elem_cache RT (gbs [7])) /\
  evalid RL (gbs [7; 8; 9]) /\ @get_elem_cache RT (gbs [7; 8; 9]) = @get_elem_cache RT e.
Proof. exact demo_poke. Qed.

(** ** C47.  The call with the filter [c := nc c; dr c] and the element update [g].  [Vis dr t]
    (Ucf.v) is the set of nodes reached from the root through children whose old cache the filter
    accepts.  Every cache held by a reached internal node is rewritten once ([pn]), every reached
    leaf is updated once ([pl]), nothing else changes; in particular not the root cache. *)
Theorem C47_frame (B : BTreeTrait) (L : Lawful B) (nc : Cache B -> Cache B) (dr : Cache B -> bool) (g : Elem B -> Elem B) (t : btree B) xs : Tree L t xs ->
  exists t', update_cache_and_elem_with_filter (pfu nc dr) (pgu g) t tt = Ok (tt, t') /\
    root t' = root t /\ root_cache t' = root_cache t /\
    anext (in_nodes t') = anext (in_nodes t) /\ anext (leaf_nodes t') = anext (leaf_nodes t) /\
    (forall i, Vis dr t (AInt i) -> a_get (in_nodes t') i = pn nc <$> a_get (in_nodes t) i) /\
    (forall i, ~ Vis dr t (AInt i) -> a_get (in_nodes t') i = a_get (in_nodes t) i) /\
    (forall l, Vis dr t (ALeaf l) -> a_get (leaf_nodes t') l = pl g <$> a_get (leaf_nodes t) l) /\
    (forall l, ~ Vis dr t (ALeaf l) -> a_get (leaf_nodes t') l = a_get (leaf_nodes t) l).
Proof. exact (t_ucf_frame L nc dr g t xs). Qed.
Print Assumptions C47_frame.

(** Callbacks that keep the caches right ([UcfLaw]: what the filter writes over the aggregate of a
    list is the aggregate of the updated list, and it only declines where nothing would change):
    exactly the accepted elements are updated and the tree is intact — except that the root cache
    still is the old aggregate.  Missing: intactness when the aggregate changes, which is false. *)
Theorem C47_effect_partial (B : BTreeTrait) (L : Lawful B) (nc : Cache B -> Cache B) (dr : Cache B -> bool) (g : Elem B -> Elem B) (t : btree B) xs :
  Tree L t xs -> UcfLaw L nc dr g ->
  exists t', update_cache_and_elem_with_filter (pfu nc dr) (pgu g) t tt = Ok (tt, t') /\ root_cache t' = root_cache t /\
    Tree L (set_root_cache t' (agg L (map (hx dr g) xs))) (map (hx dr g) xs) /\
    (agg L (map (hx dr g) xs) = agg L xs -> Tree L t' (map (hx dr g) xs)).
Proof. exact (t_ucf_effect L nc dr g t xs). Qed.
Print Assumptions C47_effect_partial.

Example C47_example : exists (t : btree RT) (xs : list (nat * Elem RT)) t', Tree RL t xs /\ length xs = 14 /\ UcfLaw RL (fun c => c) u_dr u_g /\
  agg RL (map (hx u_dr u_g) xs) = agg RL xs /\
  update_cache_and_elem_with_filter (pfu (fun c => c) u_dr) (pgu u_g) t tt = Ok (tt, t') /\ map (fun x => to_vec (snd x)) (elems t') = u_out.
Proof. exact demo_ucf. Qed.

(** Emptying every chunk of a rope tree of 6 bytes with callbacks that obey the law: the root cache
    still says 6 bytes, check panics, and the tree is not intact for any content. *)
Theorem C47_root_cache_refuted : exists (t t' : btree RT) (xs : list (nat * Elem RT)), Tree RL t xs /\ UcfLaw RL w_nc w_dr w_g /\
  update_cache_and_elem_with_filter (pfu w_nc w_dr) (pgu w_g) t tt = Ok (tt, t') /\
  contents t' = Ok [[]; []] /\ root_cache t' = 6%Z /\ check t' = Panic /\ ~ exists ys, Tree RL t' ys.
Proof. exact ucf_root_stale. Qed.
Print Assumptions C47_root_cache_refuted.
