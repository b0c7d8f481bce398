(** PropTree.v — properties of the tree operations.
    [Tree L t xs] (Spec.v): [t] is an intact tree (shape, links, caches, no leaks) whose
    (handle, element) sequence from left to right is [xs]; [L] are the laws the trait
    implementation obeys (Law.v).  [Shallow t 9]: [t] is at most 9 levels deep. *)
From Verif Require Import Demo.

(** ** C01 *)
Theorem C01_insert (B : BTreeTrait) (L : Lawful B) (t : btree B) X l e Y off x :
  Tree L t (X ++ (l, e) :: Y) -> off <= rle_len e -> evalid L x ->
  exists cur sl R t', insert_by_path t (mkCur l off) x = Ok (cur, sl, t') /\ Tree L t' (X ++ R ++ Y) /\
    ins_res l e off x (fun n => anext (leaf_nodes t) <= n < anext (leaf_nodes t')) cur sl R /\
    anext (leaf_nodes t) <= anext (leaf_nodes t') /\
    (forall w, (w = true \/ off = 0 \/ off = rle_len e) -> MDw w t -> MDw w t').
Proof. exact (t_insert L t X l e Y off x). Qed.
Print Assumptions C01_insert.
(** a two-level tree with fourteen leaves; offset 1 of its sixth leaf (3 bytes) *)
Example C01_example : exists (t : btree RT) (X : list (nat * Elem RT)) (e : Elem RT) (Y : list (nat * Elem RT)),
  Tree RL t (X ++ (5, e) :: Y) /\ MD t /\ Shallow t 9 /\ length X = 5 /\ length Y = 8 /\
  to_vec e = [30; 31; 32] /\ @rle_len RT e = 3 /\ evalid RL (gbs [1; 2]).
Proof. exact demo_mid. Qed.

(** ** C02 *)
Theorem C02_push (B : BTreeTrait) (L : Lawful B) (t : btree B) xs x :
  Tree L t xs -> evalid L x ->
  exists cur t', push t x = Ok (cur, t') /\ (forall w, MDw w t -> MDw w t') /\ anext (leaf_nodes t) <= anext (leaf_nodes t') /\
    ((exists X l e e', xs = X ++ [(l, e)] /\ can_merge e x = true /\ merge_right e x = Ok e' /\
        Tree L t' (X ++ [(l, e')]) /\ cur = mkCur l (rle_len e)) \/
     (exists n, anext (leaf_nodes t) <= n < anext (leaf_nodes t') /\ Tree L t' (xs ++ [(n, x)]) /\ cur = mkCur n 0 /\
        (forall X l e, xs = X ++ [(l, e)] -> can_merge e x = false))).
Proof. exact (t_push L t xs x). Qed.
Print Assumptions C02_push.

(** ** C03.  Missing: on an empty tree [root_cache] is left at the default value
    (C03_prepend_empty_refuted), so the aggregate part holds only for non-empty trees. *)
Theorem C03_prepend_partial (B : BTreeTrait) (L : Lawful B) (t : btree B) xs x :
  Tree L t xs -> xs <> [] -> evalid L x ->
  exists cur t', prepend t x = Ok (cur, t') /\ (forall w, MDw w t -> MDw w t') /\ anext (leaf_nodes t) <= anext (leaf_nodes t') /\
    ((exists Y l e e', xs = (l, e) :: Y /\ can_merge x e = true /\ merge_left e x = Ok e' /\
        Tree L t' ((l, e') :: Y) /\ cur = mkCur l 0) \/
     (exists n, anext (leaf_nodes t) <= n < anext (leaf_nodes t') /\ Tree L t' ((n, x) :: xs) /\ cur = mkCur n 0 /\
        (forall Y l e, xs = (l, e) :: Y -> can_merge x e = false))).
Proof. exact (t_prepend L t xs x). Qed.
Print Assumptions C03_prepend_partial.
(** on an empty tree only the content is right *)
Theorem C03_prepend_empty_partial (B : BTreeTrait) (L : Lawful B) (t : btree B) x :
  Tree L t [] -> evalid L x ->
  exists n t', prepend t x = Ok (mkCur n 0, t') /\ n = anext (leaf_nodes t) /\ Content t' [(n, x)] /\
    root_cache t' = root_cache t.
Proof. exact (t_prepend_empty L t x). Qed.
Print Assumptions C03_prepend_empty_partial.
Example C02_C03_empty_example (B : BTreeTrait) (L : Lawful B) : Tree L (@bt_new B) [].
Proof. exact (Tree_new L). Qed.

(** ** C04.  [mono L = true]: the default cache is the aggregate of nothing (ropes, counters).
    For other traits (ordered maps) no node may be under-full ([MD]), which their own
    operations preserve. *)
Theorem C04_remove (B : BTreeTrait) (L : Lawful B) (t : btree B) X l e Y off :
  Tree L t (X ++ (l, e) :: Y) -> mono L = true \/ MD t ->
  exists t', remove_leaf t (mkCur l off) = Ok (Some e, t') /\ Tree L t' (X ++ Y) /\ (forall w, MDw w t -> MDw w t') /\
    anext (leaf_nodes t) <= anext (leaf_nodes t').
Proof. exact (t_remove L t X l e Y off). Qed.
Print Assumptions C04_remove.
Theorem C04_remove_dead (B : BTreeTrait) (t : btree B) l off :
  a_get (leaf_nodes t) l = None -> remove_leaf t (mkCur l off) = Ok (None, t).
Proof. exact (t_remove_dead t l off). Qed.
Print Assumptions C04_remove_dead.

(** ** C11 / C12: the self-check and the root cache of an intact tree *)
Theorem C11_check (B : BTreeTrait) (L : Lawful B) (t : btree B) xs :
  Tree L t xs -> Shallow t 9 -> xs <> [] \/ mono L = true -> check t = Ok tt.
Proof. exact (t_check L t xs). Qed.
Print Assumptions C11_check.
Theorem C12_root_cache (B : BTreeTrait) (L : Lawful B) (t : btree B) xs :
  Tree L t xs -> xs <> [] \/ mono L = true -> root_cache t = agg L xs.
Proof. exact (t_root_cache L t xs). Qed.
Print Assumptions C12_root_cache.

(** ** C14 *)
Theorem C14_depth (B : BTreeTrait) (L : Lawful B) (t : btree B) d xs :
  Tree L t xs -> xs <> [] -> InOrder t (root t) d xs -> depth t = Ok d.
Proof. exact (t_depth L t d xs). Qed.
Print Assumptions C14_depth.
Theorem C14_min_entries (B : BTreeTrait) (L : Lawful B) (t : btree B) d xs :
  Tree L t xs -> xs <> [] -> MD t -> InOrder t (root t) d xs -> 2 <= d -> 2 * 6 ^ (d - 1) <= length xs.
Proof. exact (t_depth_min L t d xs). Qed.
Print Assumptions C14_min_entries.
Example C14_example : exists (t : btree RT), push_all (B := RT) bt_new dgb = Ok t /\ Tree RL t (elems t) /\ MD t /\ Shallow t 9 /\ depth t = Ok 2 /\
  map (fun x => (fst x, to_vec (snd x))) (elems t) = zip (seq 0 14) dseq.
Proof. exact demo_tree. Qed.

(** ** C17 *)
Theorem C17_iter (B : BTreeTrait) (L : Lawful B) (t : btree B) xs :
  Tree L t xs -> Shallow t 9 -> BTree.iter t = Ok (map snd xs).
Proof. exact (t_iter L t xs). Qed.
Print Assumptions C17_iter.
Theorem C17_iter_too_deep (B : BTreeTrait) (L : Lawful B) (t : btree B) xs :
  Tree L t xs -> ~ Shallow t 9 -> BTree.iter t = Panic.
Proof. exact (t_iter_deep L t xs). Qed.
Print Assumptions C17_iter_too_deep.

(** ** C18 *)
Theorem C18_next (B : BTreeTrait) (L : Lawful B) (t : btree B) X l e Y off :
  Tree L t (X ++ (l, e) :: Y) -> next_elem t (mkCur l off) = Ok ((fun y => mkCur (fst y) 0) <$> head Y).
Proof. exact (t_next L t X l e Y off). Qed.
Print Assumptions C18_next.
Theorem C18_prev (B : BTreeTrait) (L : Lawful B) (t : btree B) X l e Y off :
  Tree L t (X ++ (l, e) :: Y) -> prev_elem t (mkCur l off) = Ok ((fun y => mkCur (fst y) 0) <$> last X).
Proof. exact (t_prev L t X l e Y off). Qed.
Print Assumptions C18_prev.

(** ** C19: lexicographic order on (position of the leaf, offset) *)
Theorem C19_compare (B : BTreeTrait) (L : Lawful B) (t : btree B) xs i j la ea lb eb oa ob :
  Tree L t xs -> xs !! i = Some (la, ea) -> xs !! j = Some (lb, eb) ->
  compare_pos t (mkCur la oa) (mkCur lb ob) = Ok (match Nat.compare i j with Eq => Nat.compare oa ob | r => r end).
Proof. exact (t_compare_lex L t xs i j la ea lb eb oa ob). Qed.
Print Assumptions C19_compare.

(** ** C20 *)
Theorem C20_first (B : BTreeTrait) (L : Lawful B) (t : btree B) xs : Tree L t xs -> first_leaf t = Ok (fst <$> head xs).
Proof. exact (t_first L t xs). Qed.
Print Assumptions C20_first.
Theorem C20_last (B : BTreeTrait) (L : Lawful B) (t : btree B) xs : Tree L t xs -> last_leaf t = Ok (fst <$> last xs).
Proof. exact (t_last L t xs). Qed.
Print Assumptions C20_last.
Theorem C20_start (B : BTreeTrait) (L : Lawful B) (t : btree B) xs :
  Tree L t xs -> start_cursor t = Ok ((fun y => mkCur (fst y) 0) <$> head xs).
Proof. exact (t_start L t xs). Qed.
Print Assumptions C20_start.
Theorem C20_end (B : BTreeTrait) (L : Lawful B) (t : btree B) xs :
  Tree L t xs -> end_cursor t = Ok ((fun y => mkCur (fst y) (rle_len (snd y))) <$> last xs).
Proof. exact (t_end L t xs). Qed.
Print Assumptions C20_end.
Theorem C20_is_empty (B : BTreeTrait) (L : Lawful B) (t : btree B) xs : Tree L t xs -> is_empty t = Ok (bool_decide (xs = [])).
Proof. exact (t_is_empty L t xs). Qed.
Print Assumptions C20_is_empty.

(** ** C21 *)
Theorem C21_prefer_right (B : BTreeTrait) (L : Lawful B) (t : btree B) X l e Y off :
  Tree L t (X ++ (l, e) :: Y) -> off <= rle_len e ->
  prefer_right t (mkCur l off) =
    Ok (if decide (off <> 0 /\ off = rle_len e) then (fun y => mkCur (fst y) 0) <$> head Y else Some (mkCur l off)).
Proof. exact (t_prefer_right L t X l e Y off). Qed.
Print Assumptions C21_prefer_right.
Theorem C21_prefer_left (B : BTreeTrait) (L : Lawful B) (t : btree B) X l e Y off :
  Tree L t (X ++ (l, e) :: Y) -> off <= rle_len e ->
  prefer_left t (mkCur l off) =
    Ok (if decide (off = 0) then (fun y => mkCur (fst y) (rle_len (snd y))) <$> last X else Some (mkCur l off)).
Proof. exact (t_prefer_left L t X l e Y off). Qed.
Print Assumptions C21_prefer_left.

(** ** C25 *)
Theorem C25_iter_range (B : BTreeTrait) (L : Lawful B) (t : btree B) X la ea M lb eb Y oa ob :
  Tree L t (X ++ (la, ea) :: M ++ (lb, eb) :: Y) -> Shallow t 9 ->
  let mid := map (fun x => mkES (mkCur (fst x) 0) (snd x) None None) M in
  let first := mkES (mkCur la 0) ea (Some oa) None in
  let last := mkES (mkCur lb 0) eb None (Some ob) in
  iter_range t (Included (mkCur la oa)) (Included (mkCur lb ob)) = Ok (first :: mid ++ [last]) /\
  iter_range t (Included (mkCur la oa)) (Excluded (mkCur lb ob)) = Ok (first :: mid ++ (if decide (ob = 0) then [] else [last])).
Proof. exact (t_iter_range L t X la ea M lb eb Y oa ob). Qed.
Print Assumptions C25_iter_range.
Theorem C25_iter_range_same_leaf (B : BTreeTrait) (L : Lawful B) (t : btree B) X l e Y oa ob :
  Tree L t (X ++ (l, e) :: Y) -> Shallow t 9 ->
  let it := mkES (mkCur l 0) e (Some oa) (Some ob) in
  iter_range t (Included (mkCur l oa)) (Included (mkCur l ob)) = Ok [it] /\
  iter_range t (Included (mkCur l oa)) (Excluded (mkCur l ob)) = Ok (if decide (ob = 0) then [] else [it]).
Proof. exact (t_iter_range_one L t X l e Y oa ob). Qed.
Print Assumptions C25_iter_range_same_leaf.
Theorem C25_unbounded_start (B : BTreeTrait) (L : Lawful B) (t : btree B) xs b :
  Tree L t xs -> iter_range t Unbounded b = match xs with [] => Panic | (l, _) :: _ => iter_range t (Included (mkCur l 0)) b end.
Proof. exact (t_iter_range_start L t xs b). Qed.
Print Assumptions C25_unbounded_start.
Theorem C25_unbounded_end (B : BTreeTrait) (L : Lawful B) (t : btree B) xs c l e :
  Tree L t (xs ++ [(l, e)]) ->
  iter_range t (Included c) Unbounded = iter_range t (Included c) (Included (mkCur l (rle_len e))).
Proof. exact (t_iter_range_end L t xs c l e). Qed.
Print Assumptions C25_unbounded_end.

(** ** C41 *)
Theorem C41_split_leaf (B : BTreeTrait) (L : Lawful B) (t : btree B) X l e Y off :
  Tree L t (X ++ (l, e) :: Y) -> off <= rle_len e ->
  exists si t', split_leaf_if_needed t (mkCur l off) = Ok (si, t') /\ anext (leaf_nodes t) <= anext (leaf_nodes t') /\
    ((off = 0 /\ t' = t /\ si_new_pos si = Some (mkCur l 0)) \/
     (off <> 0 /\ off = rle_len e /\ t' = t /\ si_new_pos si = (fun y => mkCur (fst y) 0) <$> head Y) \/
     (0 < off < rle_len e /\ exists n e1 e2, e_split e off = Ok (e1, e2) /\ rle_len e1 = off /\ rle_len e2 = rle_len e - off /\
        anext (leaf_nodes t) <= n < anext (leaf_nodes t') /\
        Tree L t' (X ++ (l, e1) :: (n, e2) :: Y) /\ si_new_pos si = Some (mkCur n 0))).
Proof. exact (t_split L t X l e Y off). Qed.
Print Assumptions C41_split_leaf.

(** ** C42 *)
Theorem C42_rebalance (B : BTreeTrait) (L : Lawful B) (t : btree B) xs i nd :
  Tree L t xs -> a_get (in_nodes t) i = Some nd ->
  exists t', handle_lack_recursively t (AInt i) = Ok t' /\ Tree L t' xs /\ anext (leaf_nodes t) <= anext (leaf_nodes t').
Proof. exact (t_lack L t xs i nd). Qed.
Print Assumptions C42_rebalance.
