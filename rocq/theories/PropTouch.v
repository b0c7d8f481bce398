(** PropTouch.v — C65: an edit writes only logarithmically many nodes.

    [Touched k t t'] (Touch.v): there is a list of at most [k] arena indices such that every entry of the two arenas that is not in
    the list is in [t'] exactly as it was in [t] (present with the same contents, or absent).  So a second entry that is freed,
    allocated or overwritten behind the caller's back counts.  [d] is the depth of the tree; [MDw true] is the minimal filling that
    every history keeps (C59), under which [length xs <= 5 ^ k] bounds the depth by [k].  The element, the query and its finder,
    the cursor (dangling or not) are arbitrary. *)
From Verif Require Import Touch5 Touch8 Touch10 Touch11 Touch12 Demo7 RopeP.

Theorem C65_meaning (B : BTreeTrait) k (t t' : btree B) : Touched k t t' <-> exists ns : list aidx, length ns <= k /\
  (forall i, AInt i ∉ ns -> a_get (in_nodes t') i = a_get (in_nodes t) i) /\ (forall l, ALeaf l ∉ ns -> a_get (leaf_nodes t') l = a_get (leaf_nodes t) l).
Proof. exact (touched_raw k t t'). Qed.
Print Assumptions C65_meaning.

(** in terms of the depth: any tree *)
Theorem C65_insert (B : BTreeTrait) (L : Lawful B) (Q : Query B) (t : btree B) d xs q e r t' : Tree L t xs -> InOrder t (root t) d xs ->
  BTree.insert Q t q e = Ok (r, t') -> Touched (57 * d + 41) t t'.
Proof. exact (t_insert_to L Q t d xs q e r t'). Qed.
Print Assumptions C65_insert.
Theorem C65_insert_by_path (B : BTreeTrait) (L : Lawful B) (t : btree B) d xs cur e r t' : Tree L t xs -> InOrder t (root t) d xs ->
  insert_by_path t cur e = Ok (r, t') -> Touched (57 * d + 41) t t'.
Proof. exact (t_insert_by_path_to L t d xs cur e r t'). Qed.
Print Assumptions C65_insert_by_path.
Theorem C65_push (B : BTreeTrait) (L : Lawful B) (t : btree B) d xs e c t' : Tree L t xs -> InOrder t (root t) d xs ->
  push t e = Ok (c, t') -> Touched (29 * d + 6) t t'.
Proof. exact (t_push_to L t d xs e c t'). Qed.
Print Assumptions C65_push.
Theorem C65_prepend (B : BTreeTrait) (L : Lawful B) (t : btree B) d xs e c t' : Tree L t xs -> InOrder t (root t) d xs ->
  prepend t e = Ok (c, t') -> Touched (29 * d + 6) t t'.
Proof. exact (t_prepend_to L t d xs e c t'). Qed.
Print Assumptions C65_prepend.
Theorem C65_remove (B : BTreeTrait) (L : Lawful B) (t : btree B) d xs cur o t' : Tree L t xs -> InOrder t (root t) d xs ->
  remove_leaf t cur = Ok (o, t') -> Touched (31 * d + 1) t t'.
Proof. exact (t_remove_to L t d xs cur o t'). Qed.
Print Assumptions C65_remove.

(** [f] is the update function: it turns the element into [e1] and up to two pieces to be put behind it ([n1], [n2]), and says whether
    caches have to be refreshed ([upd]; when it says no the cache of what takes the place of the element has to be that of the element).
    The bound also covers the case in which everything is emptied and the leaf removed. *)
Theorem C65_update_leaf (B : BTreeTrait) (L : Lawful B) (t : btree B) d X l e Y f e1 (upd : bool) n1 n2 r t' : Tree L t (X ++ (l, e) :: Y) -> InOrder t (root t) d (X ++ (l, e) :: Y) ->
  f e = (e1, (upd, n1, n2)) -> evalid L e1 -> (forall x, n1 = Some x -> evalid L x) -> (forall x, n2 = Some x -> evalid L x) ->
  (upd = false -> get_elem_cache (default e1 (head (ul_parts e1 n1 n2))) = get_elem_cache e) ->
  update_leaf t l f = Ok (r, t') -> Touched (31 * d + 9) t t'.
Proof. exact (t_update_leaf_to L t d X l e Y f e1 upd n1 n2 r t'). Qed.
Print Assumptions C65_update_leaf.

(** whatever the update function returns *)
Theorem C65_update_leaf_by_search (B : BTreeTrait) (L : Lawful B) (Q : Query B) (t : btree B) d xs (q : QArg Q) f x t' : Tree L t xs -> InOrder t (root t) d xs ->
  update_leaf_by_search Q t q f = Ok (x, t') -> Touched (31 * d + 16) t t'.
Proof. exact (t_ulbs_to L Q t d xs q f x t'). Qed.
Print Assumptions C65_update_leaf_by_search.

(** in terms of the number of elements: trees with the minimal filling *)
Theorem C65_log_insert (B : BTreeTrait) (L : Lawful B) (Q : Query B) (t : btree B) xs k q e r t' : Tree L t xs -> MDw true t -> 1 <= k -> length xs <= 5 ^ k ->
  BTree.insert Q t q e = Ok (r, t') -> Touched (57 * k + 41) t t'.
Proof. exact (log_insert L Q t xs k q e r t'). Qed.
Print Assumptions C65_log_insert.
Theorem C65_log_insert_by_path (B : BTreeTrait) (L : Lawful B) (t : btree B) xs k cur e r t' : Tree L t xs -> MDw true t -> 1 <= k -> length xs <= 5 ^ k ->
  insert_by_path t cur e = Ok (r, t') -> Touched (57 * k + 41) t t'.
Proof. exact (log_insert_by_path L t xs k cur e r t'). Qed.
Print Assumptions C65_log_insert_by_path.
Theorem C65_log_push (B : BTreeTrait) (L : Lawful B) (t : btree B) xs k e c t' : Tree L t xs -> MDw true t -> 1 <= k -> length xs <= 5 ^ k ->
  push t e = Ok (c, t') -> Touched (29 * k + 6) t t'.
Proof. exact (log_push L t xs k e c t'). Qed.
Print Assumptions C65_log_push.
Theorem C65_log_prepend (B : BTreeTrait) (L : Lawful B) (t : btree B) xs k e c t' : Tree L t xs -> MDw true t -> 1 <= k -> length xs <= 5 ^ k ->
  prepend t e = Ok (c, t') -> Touched (29 * k + 6) t t'.
Proof. exact (log_prepend L t xs k e c t'). Qed.
Print Assumptions C65_log_prepend.
Theorem C65_log_remove (B : BTreeTrait) (L : Lawful B) (t : btree B) xs k cur o t' : Tree L t xs -> MDw true t -> 1 <= k -> length xs <= 5 ^ k ->
  remove_leaf t cur = Ok (o, t') -> Touched (31 * k + 1) t t'.
Proof. exact (log_remove L t xs k cur o t'). Qed.
Print Assumptions C65_log_remove.

Theorem C65_log_update_leaf (B : BTreeTrait) (L : Lawful B) (t : btree B) k X l e Y f e1 (upd : bool) n1 n2 r t' : Tree L t (X ++ (l, e) :: Y) -> MDw true t -> 1 <= k ->
  length (X ++ (l, e) :: Y) <= 5 ^ k -> f e = (e1, (upd, n1, n2)) -> evalid L e1 -> (forall x, n1 = Some x -> evalid L x) -> (forall x, n2 = Some x -> evalid L x) ->
  (upd = false -> get_elem_cache (default e1 (head (ul_parts e1 n1 n2))) = get_elem_cache e) ->
  update_leaf t l f = Ok (r, t') -> Touched (31 * k + 9) t t'.
Proof. exact (log_update_leaf L t k X l e Y f e1 upd n1 n2 r t'). Qed.
Print Assumptions C65_log_update_leaf.

Theorem C65_log_update_leaf_by_search (B : BTreeTrait) (L : Lawful B) (Q : Query B) (t : btree B) xs k (q : QArg Q) f x t' : Tree L t xs -> MDw true t -> 1 <= k -> length xs <= 5 ^ k ->
  update_leaf_by_search Q t q f = Ok (x, t') -> Touched (31 * k + 16) t t'.
Proof. exact (log_ulbs L Q t xs k q f x t'). Qed.
Print Assumptions C65_log_update_leaf_by_search.

(** many elements at once: one insertion's worth per element and one for the split at the cursor; the number of elements may double on the way,
    hence the hypothesis on [k].  [F] reads an element as a list of units (the elements of a lawful trait that can be flattened). *)
Theorem C65_log_insert_many (B : BTreeTrait) (L : Lawful B) (U : Type) (F : Flatten L U) (t : btree B) X l e Y off data k t' : Tree L t (X ++ (l, e) :: Y) -> off <= rle_len e ->
  Forall (evalid L) data -> MDw true t -> 1 <= k -> length (X ++ (l, e) :: Y) + 1 + 2 * length data <= 5 ^ k ->
  insert_many_by_cursor t (Some (mkCur l off)) data = Ok t' -> Touched (S (length data) * (57 * k + 41)) t t'.
Proof. exact (insert_many_to L F t X l e Y off data k t'). Qed.
Print Assumptions C65_log_insert_many.

(** an update of the range from [a] to [b]: two cuts, and a bounded multiple of [k] for each of the leaves [M] in the range
    ([Cut], [cur_le], [upd_sound], [ord] as in C07).  The function may change the elements, report any right diff and make elements removable. *)
Theorem C65_log_update (B : BTreeTrait) (L : Lawful B) (S0 : Type) (fu : S0 -> Elem B -> S0 * Elem B * option (Diff B)) ord (t : btree B) xs (a b : cursor) ea eb s k r t' :
  Tree L t xs -> (cu_leaf a, ea) ∈ xs -> cu_offset a <= rle_len ea -> (cu_leaf b, eb) ∈ xs -> cu_offset b <= rle_len eb ->
  cur_le xs a b -> (forall l, ord l ≡ₚ l) -> upd_sound L fu -> MDw true t -> 1 <= k -> length xs + 2 <= 5 ^ k ->
  update ord t a b fu s = Ok (r, t') ->
  exists A Z A1 M, Cut (fun n => anext (leaf_nodes t) <= n) xs b A Z /\ Cut (fun n => anext (leaf_nodes t) <= n) (A ++ Z) a A1 (M ++ Z) /\
    Touched (56 * k + 12 + length M * (32 * k + 3)) t t'.
Proof. exact (update_to L fu ord t xs a b ea eb s k r t'). Qed.
Print Assumptions C65_log_update.

(** update_leaves_with_arg_in_ranges: a bounded multiple of [k] for each range; a range cuts its leaf at most twice, hence the hypothesis on [k]
    (the other hypotheses as in C31) *)
Theorem C65_log_ranges (B : BTreeTrait) (L : Lawful B) (U : Type) (F : Flatten L U) (A : Type) (fu : Elem B -> A -> Elem B) ord ord2 (t : btree B) xs args k nl t' :
  (forall e a, evalid L e -> evalid L (fu e a)) -> Tree L t xs -> xs <> [] -> @USE_DIFF B = true ->
  (forall l, ord l ≡ₚ l) -> (forall l, ord2 l ≡ₚ l) ->
  (forall l r, (l, r) ∈ args -> exists e, (l, e) ∈ xs /\ fst (fst r) < snd (fst r) <= rle_len e) ->
  MDw true t -> 1 <= k -> length xs + 4 * length args <= 5 ^ k ->
  update_leaves_with_arg_in_ranges fu ord ord2 t args = Ok (nl, t') -> Touched (length args * (115 * k + 84)) t t'.
Proof. exact (fun H => ranges_to L F fu H ord ord2 t xs args k nl t'). Qed.
Print Assumptions C65_log_ranges.

(** typing: at most a buffer full of text goes into a rope that holds [str]; through the cursor or through a query, into a gap buffer, by a split or as a new leaf *)
Theorem C65_rope_insert CAP (r : rope CAP) str i s k r' : 0 < CAP -> RopeOf CAP r str -> 1 <= k -> length str <= 5 ^ k -> i <= length str -> length s <= CAP ->
  rope_insert CAP r i s = Ok r' -> Touched (88 * k + 50) (rp_tree CAP r) (rp_tree CAP r').
Proof. exact (fun H => rope_insert_to CAP H r str i s k r'). Qed.
Print Assumptions C65_rope_insert.

(** pasting: a text of any length; [CAP] is the size of a buffer *)
Theorem C65_rope_paste CAP (r : rope CAP) str i s k r' : 0 < CAP -> RopeOf CAP r str -> 1 <= k -> length str + 2 * length s < 5 ^ k -> i <= length str ->
  rope_insert CAP r i s = Ok r' -> Touched ((length s / CAP + 2) * (57 * k + 41) + 31 * k + 9) (rp_tree CAP r) (rp_tree CAP r').
Proof. exact (fun H => rope_insert_any_to CAP H r str i s k r'). Qed.
Print Assumptions C65_rope_paste.

(** backspace: at most one byte is removed *)
Theorem C65_rope_delete CAP (r : rope CAP) str st en k r' : 0 < CAP -> RopeOf CAP r str -> 1 <= k -> length str <= 5 ^ k -> en <= S st ->
  rope_delete_range CAP r st en = Ok r' -> Touched (31 * k + 16) (rp_tree CAP r) (rp_tree CAP r').
Proof. exact (fun H => rope_delete_to CAP H r str st en k r'). Qed.
Print Assumptions C65_rope_delete.
(** a range of any length inside one buffer [e], or to the end of the last buffer; the buffers [X] come before it *)
Theorem C65_rope_delete_in CAP (r : rope CAP) str st en k r' (X : list (nat * Elem (RopeTrait CAP))) l (e : Elem (RopeTrait CAP)) Y :
  0 < CAP -> RopeOf CAP r str -> 1 <= k -> length str <= 5 ^ k -> Tree (RopeLaw CAP) (rp_tree CAP r) (X ++ (l, e) :: Y) ->
  length (concat (map (fun x => to_vec (snd x)) X)) <= st -> en < length (concat (map (fun x => to_vec (snd x)) X)) + length (to_vec e) \/ Y = [] ->
  rope_delete_range CAP r st en = Ok r' -> Touched (31 * k + 16) (rp_tree CAP r) (rp_tree CAP r').
Proof. exact (fun H => rope_delete_in_to CAP H r str st en k r' X l e Y). Qed.
Print Assumptions C65_rope_delete_in.

(** ordered maps and sets *)
Theorem C65_map_insert (Key Value : Type) (kcmp : Key -> Key -> comparison) (TO : TOrd kcmp) (m m' : omap_t Key Value kcmp) s n k v :
  MapOf TO m s -> 1 <= n -> length s < 2 * 6 ^ n -> om_insert kcmp m k v = Ok m' -> Touched (29 * n + 6) (om_tree kcmp m) (om_tree kcmp m').
Proof. exact (om_insert_to TO m m' s n k v). Qed.
Print Assumptions C65_map_insert.
Theorem C65_map_delete (Key Value : Type) (kcmp : Key -> Key -> comparison) (TO : TOrd kcmp) (m m' : omap_t Key Value kcmp) s n k o :
  MapOf TO m s -> 1 <= n -> length s < 2 * 6 ^ n -> om_delete kcmp m k = Ok (o, m') -> Touched (31 * n + 1) (om_tree kcmp m) (om_tree kcmp m').
Proof. exact (om_delete_to TO m m' s n k o). Qed.
Print Assumptions C65_map_delete.

Example C65_example : exists t : btree RT, Tree RL t (elems t) /\ depth t = Ok 2 /\ length (elems t) = 14 /\
  isok (push t (gbs [1; 2; 3; 4])) = true /\ isok (prepend t (gbs [1; 2; 3; 4])) = true /\
  isok (insert_by_path t (mkCur 5 1) (gbs [1; 2; 3; 4])) = true /\ isok (remove_leaf t (mkCur 5 0)) = true.
Proof. exact touch_demo. Qed.
Example C65_example_map : exists m : omap_t nat nat Nat.compare, MapOf nat_TO m [(1, 10); (5, 50)] /\
  isok (om_insert Nat.compare m 3 30) = true /\ isok (om_delete Nat.compare m 5) = true.
Proof. exact touch_map. Qed.
Example C65_example_update : exists (t : btree RT) (X : list (nat * Elem RT)) (e : Elem RT) (Y : list (nat * Elem RT)) r t', Tree RL t (X ++ (5, e) :: Y) /\ length X = 5 /\ length Y = 8 /\
  evalid RL (gbs [1; 2]) /\ update_leaf t 5 (fun _ => (gbs [1; 2], (true, Some (gbs [3]), Some (gbs [4])))) = Ok (r, t').
Proof. exact touch_upd. Qed.
Example C65_example_rope : exists r r1 r2, RopeOf 4 r (seq 0 60) /\ rope_insert 4 r 30 [7; 8; 9] = Ok r1 /\ RopeOf 4 r1 (seq 0 30 ++ [7; 8; 9] ++ seq 30 30) /\
  rope_insert 4 r1 31 [5] = Ok r2 /\ length (seq 0 60) <= 5 ^ 3 /\ isok (rope_delete_range 4 r 17 18) = true /\ isok (rope_delete_range 4 r1 31 32) = true.
Proof. exact touch_rope. Qed.
Example C65_example_bulk : exists (r r1 : rope 4) (t' : btree (RopeTrait 4)), RopeOf 4 r (seq 0 60) /\ rope_insert 4 r 30 (seq 100 13) = Ok r1 /\ RopeOf 4 r1 (seq 0 30 ++ seq 100 13 ++ seq 30 30) /\
  60 + 2 * 13 < 5 ^ 3 /\ insert_many_by_cursor (rp_tree 4 r) (Some (mkCur 5 1)) [gbs [1; 2; 3; 4]; gbs [5; 6; 7]] = Ok t' /\ length (elems (rp_tree 4 r)) = 15 /\ length (elems t') = 18.
Proof. exact touch_bulk. Qed.
Example C65_example_range : exists (t : btree RT) xs, Tree RL t xs /\ MDw true t /\ length xs = 15 /\ 15 + 2 <= 5 ^ 2 /\ isok (update (fun l => l) t (mkCur 3 1) (mkCur 9 2) dfu 0) = true.
Proof. exact touch_range. Qed.
Example C65_example_ranges : exists (t : btree RT) xs, Tree RL t xs /\ MDw true t /\ length xs = 15 /\ 15 + 4 * length dargs <= 5 ^ 3 /\ @USE_DIFF RT = true /\
  (forall e a, evalid RL e -> evalid RL (gb_add e a)) /\
  (forall l r, (l, r) ∈ dargs -> exists e, (l, e) ∈ xs /\ fst (fst r) < snd (fst r) <= @rle_len RT e) /\
  isok (update_leaves_with_arg_in_ranges (B := RT) gb_add (@rev _) (@rev _) t dargs) = true.
Proof. exact touch_ranges. Qed.
Example C65_example_rope_in : exists (r : rope 4) (X : list (nat * Elem (RopeTrait 4))) l (e : Elem (RopeTrait 4)) Y, RopeOf 4 r (seq 0 60) /\ length (seq 0 60) <= 5 ^ 3 /\
  Tree (RopeLaw 4) (rp_tree 4 r) (X ++ (l, e) :: Y) /\ length (concat (map (fun x => to_vec (snd x)) X)) = 16 /\ to_vec e = [16; 17; 18; 19] /\
  isok (rope_delete_range 4 r 17 19) = true.
Proof. exact touch_rope_in. Qed.
Example C65_example_rope_last : exists (r : rope 4) (X : list (nat * Elem (RopeTrait 4))) l (e : Elem (RopeTrait 4)), RopeOf 4 r (seq 0 60) /\
  Tree (RopeLaw 4) (rp_tree 4 r) (X ++ [(l, e)]) /\ length (concat (map (fun x => to_vec (snd x)) X)) = 56 /\ to_vec e = [56; 57; 58; 59] /\
  isok (rope_delete_range 4 r 57 70) = true.
Proof. exact touch_rope_last. Qed.
