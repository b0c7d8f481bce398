(** PropPos.v — exact behaviour where a claim is false in general: merge_adj (C29), bulk insertion
    of arbitrary data (C28), empty ranges (C10, C43), whole-tree ranges (C26), and the panics on
    trees deeper than the path buffer (C24, C25). *)
From Verif Require Import Demo9.

(** ** C29: what remains true.  Elements are seen as sequences of units ([fl F]).  merge_adj may
    reorder, but it never fails on non-empty valid data, loses nothing and invents nothing. *)
Theorem C29_units_kept_partial (B : BTreeTrait) (L : Lawful B) (U : Type) (F : Flatten L U) (data : list (Elem B)) :
  Forall (evalid L) data -> data <> [] ->
  exists d, merge_adj data = Ok d /\ Forall (evalid L) d /\ d <> [] /\ concat (map (fl F) d) ≡ₚ concat (map (fl F) data) /\
    (Forall (fun x => rle_len x <> 0) data -> Forall (fun x => rle_len x <> 0) d) /\ length d <= length data.
Proof. exact (merge_adj_perm L F data). Qed.
Print Assumptions C29_units_kept_partial.
(** data without mergeable neighbours is returned as it is *)
Theorem C29_unmergeable_partial (B : BTreeTrait) (data : list (Elem B)) : NoAdj data -> data <> [] -> merge_adj data = Ok data.
Proof. exact (merge_adj_id data). Qed.
Print Assumptions C29_unmergeable_partial.

(** ** C28 for arbitrary non-empty data on a non-empty tree: the compacted data [d] is inserted in
    two blocks, [d1] right before the cursor's leaf (absorbed by the previous leaf of the same
    node) and [d2] at the cursor.  [d1] is empty if there is no previous leaf, if [d] is a single
    element, or if the previous leaf does not merge with the first element. *)
Theorem C28_insert_many_exact (B : BTreeTrait) (L : Lawful B) (U : Type) (F : Flatten L U) (t : btree B) X l e Y off data :
  Tree L t (X ++ (l, e) :: Y) -> off <= rle_len e -> Forall (evalid L) data -> data <> [] ->
  exists d d1 d2 t' xs', merge_adj data = Ok d /\ d = d1 ++ d2 /\ (X = [] -> d1 = []) /\ (length d = 1 -> d1 = []) /\
    (forall X' l0 e0 x, X = X' ++ [(l0, e0)] -> head d = Some x -> can_merge e0 x = false -> d1 = []) /\
    insert_many_by_cursor t (Some (mkCur l off)) data = Ok t' /\ Tree L t' xs' /\
    ft L F xs' = ft L F X ++ concat (map (fl F) d1) ++ take off (fl F e) ++ concat (map (fl F) d2) ++ drop off (fl F e) ++ ft L F Y.
Proof. exact (fs_insert_many_all L F t X l e Y off data). Qed.
Print Assumptions C28_insert_many_exact.
(** nothing is lost, nothing invented, the tree stays intact: for every data and every cursor *)
Theorem C28_nothing_lost (B : BTreeTrait) (L : Lawful B) (U : Type) (F : Flatten L U) (t : btree B) xs cur p data :
  Tree L t xs -> CurAt xs cur p -> Forall (evalid L) data ->
  exists t' xs', insert_many_by_cursor t (Some cur) data = Ok t' /\ Tree L t' xs' /\
    ft L F xs' ≡ₚ ft L F xs ++ concat (map (fl F) data).
Proof. exact (fs_insert_many_perm L F t xs cur p data). Qed.
Print Assumptions C28_nothing_lost.
Example C28_exact_example : exists (t : btree RT) (X : list (nat * Elem RT)) (e : Elem RT) (Y : list (nat * Elem RT)),
  let data := [gbs [1]; gbs [2]; gbs [3; 3; 3]; gbs [4; 4]; gbs [5]] : list (Elem RT) in
  Tree RL t (X ++ (5, e) :: Y) /\ 1 <= rle_len e /\ Forall (evalid RL) data /\ ~ NoAdj data.
Proof. exact demo_many_all. Qed.

(** ** C43, for every tree, cursor and function: a zero-length range never reaches the function, the
    state [s] comes back as it was; the element the cursor points into is split, nothing else changes. *)
Theorem C43_never_called_refuted (B : BTreeTrait) (L : Lawful B) (S0 : Type) (fu : S0 -> Elem B -> S0 * Elem B * option (Diff B)) ord
  (t : btree B) xs (a : cursor) ea s :
  Tree L t xs -> (cu_leaf a, ea) ∈ xs -> cu_offset a <= rle_len ea -> (forall l, ord l ≡ₚ l) -> upd_sound L fu ->
  exists A Z t2, let fr n := anext (leaf_nodes t) <= n < anext (leaf_nodes t2) in
    cuts t a a = Ok t2 /\ Cut fr xs a A Z /\
    (Z = [] \/ Shallow t2 9 -> exists ls t', update ord t a a fu s = Ok (ls, s, t') /\ Tree L t' (A ++ Z)) /\
    (Z <> [] -> ~ Shallow t2 9 -> update ord t a a fu s = Panic).
Proof. exact (t_update_empty L fu ord t xs a ea s). Qed.
Print Assumptions C43_never_called_refuted.

(** ** C10, the part that holds: an empty range before the end of the tree drains nothing, for every
    number [k] of [next] calls, and keeps the content (up to the split at the cursor). *)
Theorem C10_empty_range_partial (B : BTreeTrait) (L : Lawful B) (t : btree B) xs (a : cursor) (ea : Elem B) (fa fb : bool) :
  Tree L t xs -> Fits t a a -> (cu_leaf a, ea) ∈ xs -> cu_offset a <= rle_len ea ->
  (cu_offset a = 0 -> rle_len ea <> 0) ->
  (forall X Y l e, xs = X ++ [(cu_leaf a, ea); (l, e)] ++ Y -> cu_offset a = rle_len ea -> rle_len e <> 0) ->
  (forall X, xs = X ++ [(cu_leaf a, ea)] -> cu_offset a < rle_len ea) ->
  exists A Z t', let fr n := anext (leaf_nodes t) <= n < anext (leaf_nodes t') in Cut fr xs a A Z /\
    (forall k, drain_range t (Some (mkQR a fa)) (Some (mkQR a fb)) k = Ok ([], t')) /\ Tree L t' (A ++ Z).
Proof. exact (t_drain_empty L t xs a ea fa fb). Qed.
Print Assumptions C10_empty_range_partial.
Example C10_C43_example : exists (t : btree RT) (xs : list (nat * Elem RT)) (ea : Elem RT), Tree RL t xs /\ Shallow t 9 /\
  Fits t (mkCur 3 1) (mkCur 3 1) /\ (3, ea) ∈ xs /\ 1 < @rle_len RT ea.
Proof. exact demo_empty_range. Qed.

(** ** C26, the part that holds: on a non-empty tree the whole range is the whole content, and
    the depth is the number of levels. *)
Theorem C26_nonempty_range_partial (B : BTreeTrait) (L : Lawful B) (t : btree B) xs : Tree L t xs -> xs <> [] -> Shallow t 9 ->
  exists r, iter_range t Unbounded Unbounded = Ok r /\ map (fun s => (cu_leaf (es_cursor s), es_elem s)) r = xs /\
    (forall s, s ∈ r -> (es_start s = None \/ es_start s = Some 0) /\ (es_end s = None \/ es_end s = Some (rle_len (es_elem s)))).
Proof. exact (t_iter_range_full L t xs). Qed.
Print Assumptions C26_nonempty_range_partial.
Theorem C26_nonempty_depth_partial (B : BTreeTrait) (L : Lawful B) (t : btree B) d xs :
  Tree L t xs -> xs <> [] -> InOrder t (root t) d xs -> depth t = Ok d.
Proof. exact (t_depth L t d xs). Qed.
Print Assumptions C26_nonempty_depth_partial.

(** ** C24, C25 on trees deeper than the path buffer *)
Theorem C24_too_deep (B : BTreeTrait) (L : Lawful B) (t : btree B) xs l off :
  Tree L t xs -> l ∈ xs.*1 -> ~ Shallow t 9 -> visit_previous_caches t (mkCur l off) = Panic.
Proof. exact (t_visit_deep L t xs l off). Qed.
Print Assumptions C24_too_deep.
Theorem C25_too_deep (B : BTreeTrait) (L : Lawful B) (t : btree B) xs (a b : cursor) inc :
  Tree L t xs -> cu_leaf a ∈ xs.*1 -> ~ Shallow t 9 -> iter_range_ t a b inc = Panic.
Proof. exact (t_iter_range_deep L t xs a b inc). Qed.
Print Assumptions C25_too_deep.
