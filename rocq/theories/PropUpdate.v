(** PropUpdate.v — in-place updates: update_leaf (C05) and update (C07).
    [ul_parts e n1 n2]: the pieces that stay, i.e. the non-removable ones among the new element
    and the two insertions, in order.  [ul_res l Y fresh ps alive sl R] (UpdLeaf.v): with pieces
    [ps], the leaf [l] and the rest [Y] of the content are replaced by [R]:
    no piece: the leaf is gone; one piece: it replaces the element; two pieces may be stored as
    "piece, next element with the second piece merged in front"; otherwise the further pieces get
    fresh leaves right after [l], which are reported in [sl]. *)
From Verif Require Import Demo2.

(** ** C05.  [upd = false] means that the closure reports "no cache update needed"; then the
    summary of the element stored in the leaf must be the old one.
    [MDw true] (Split.v): every inner node other than the leftmost ones has five or more children. *)
Theorem C05_update_leaf (B : BTreeTrait) (L : Lawful B) (t : btree B) X l e Y f e1 (upd : bool) n1 n2 :
  Tree L t (X ++ (l, e) :: Y) ->
  f e = (e1, (upd, n1, n2)) -> evalid L e1 -> (forall x, n1 = Some x -> evalid L x) -> (forall x, n2 = Some x -> evalid L x) ->
  (upd = false -> get_elem_cache (default e1 (head (ul_parts e1 n1 n2))) = get_elem_cache e) ->
  exists alive sl R t', update_leaf t l f = Ok (alive, sl, t') /\ Tree L t' (X ++ R) /\
    ul_res l Y (fun n => anext (leaf_nodes t) <= n < anext (leaf_nodes t')) (ul_parts e1 n1 n2) alive sl R /\
    anext (leaf_nodes t) <= anext (leaf_nodes t') /\ (MDw true t -> MDw true t').
Proof. exact (t_update_leaf L t X l e Y f e1 upd n1 n2). Qed.
Print Assumptions C05_update_leaf.

Example C05_example : exists (t : btree RT) (X : list (nat * Elem RT)) (e : Elem RT) (Y : list (nat * Elem RT)),
  Tree RL t (X ++ (5, e) :: Y) /\ MD t /\ Shallow t 9 /\ length X = 5 /\ length Y = 8 /\ to_vec e = [30; 31; 32] /\ @rle_len RT e = 3 /\
  evalid RL (gbs [1; 2]).
Proof. exact demo_mid. Qed.

(** ** C07.  [Cut fresh xs cur A Z] (Upd.v): the cursor [cur] cuts the content [xs] into [A] and
    [Z], splitting the element it points into.  [cur_le xs a b]: [a] is not after [b].
    [upd_run fu s M] folds the user's function over [M] from left to right, [upd_keep] drops the
    removable results, [upd_sound]: the function reports right diffs.
    [ord]: the iteration order of the hash set, arbitrary.
    [cuts t a b]: the tree after the two boundary splits.  Node paths hold 10 entries: if the cut
    tree is deeper than 9 levels the call panics, before the closure is called (it can be deeper
    only if the tree was deeper than 7). *)
Theorem C07_update (B : BTreeTrait) (L : Lawful B) (S0 : Type) (fu : S0 -> Elem B -> S0 * Elem B * option (Diff B)) ord
  (t : btree B) xs (a b : cursor) ea eb s :
  Tree L t xs -> (cu_leaf a, ea) ∈ xs -> cu_offset a <= rle_len ea -> (cu_leaf b, eb) ∈ xs -> cu_offset b <= rle_len eb ->
  cur_le xs a b -> (forall l, ord l ≡ₚ l) -> upd_sound L fu ->
  exists A Z A1 M t2, let fr n := anext (leaf_nodes t) <= n < anext (leaf_nodes t2) in
    cuts t a b = Ok t2 /\ Tree L t2 (A1 ++ M ++ Z) /\ anext (leaf_nodes t) <= anext (leaf_nodes t2) /\
    (forall k, Shallow t k -> Shallow t2 (S (S k))) /\
    Cut fr xs b A Z /\ Cut fr (A ++ Z) a A1 (M ++ Z) /\
    (M ++ Z = [] \/ Shallow t2 9 -> exists t',
      update ord t a b fu s = Ok (cut_new xs A Z ++ cut_new (A ++ Z) A1 (M ++ Z), (upd_run fu s M).1, t') /\
      Tree L t' (A1 ++ upd_keep (upd_run fu s M).2 ++ Z) /\ anext (leaf_nodes t2) <= anext (leaf_nodes t') /\ (forall w, MDw w t2 -> MDw w t')) /\
    (M ++ Z <> [] -> ~ Shallow t2 9 -> update ord t a b fu s = Panic).
Proof. exact (t_update_full L fu ord t xs a b ea eb s). Qed.
Print Assumptions C07_update.

Example C07_example : exists (t : btree RT) (xs : list (nat * Elem RT)) (ea eb : Elem RT), Tree RL t xs /\ Shallow t 2 /\
  (3, ea) ∈ xs /\ 1 < @rle_len RT ea /\ (9, eb) ∈ xs /\ 2 < @rle_len RT eb /\ cur_le xs (mkCur 3 1) (mkCur 9 2) /\ length xs = 14.
Proof. exact demo_range. Qed.
Example C07_function_example : upd_sound RL dfu /\ upd_sound RL dfu0.
Proof. exact (conj dfu_sound dfu0_sound). Qed.
