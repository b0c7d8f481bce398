(** PropUnwind.v — leaked drains (C56) and panicking closures (C57). *)
From Verif Require Import Demo18 Demo21.

(** ** C56: a drain that is never dropped.  After [k] calls of next the tree is the cut tree without the first
    [k] leaves of the range; everything else is as the cuts left it.  With [k = 0] it is the cut
    tree itself, which is intact.  Missing: the case [k > 0], in which iteration panics (last line). *)
Theorem C56_leak_partial (B : BTreeTrait) (L : Lawful B) (t : btree B) xs (a b : cursor) (ea eb : Elem B) (fa fb : bool) :
  Tree L t xs -> Fits t a b -> (cu_leaf a, ea) ∈ xs -> cu_offset a <= rle_len ea -> (cu_leaf b, eb) ∈ xs -> cu_offset b <= rle_len eb ->
  cur_le xs a b -> (forall X, xs = X ++ [(cu_leaf a, ea)] -> cu_offset a = rle_len ea -> cu_offset a = 0) ->
  exists A Z A1 M t2, let fr n := anext (leaf_nodes t) <= n < anext (leaf_nodes t2) in
    cuts t a b = Ok t2 /\ Tree L t2 (A1 ++ M ++ Z) /\ Cut fr xs b A Z /\ Cut fr (A ++ Z) a A1 (M ++ Z) /\
    forall k, exists t', drain_leak t (Some (mkQR a fa)) (Some (mkQR b fb)) k = Ok (snd <$> take k M, t') /\
      (k = 0 -> t' = t2) /\
      in_nodes t' = in_nodes t2 /\ root t' = root t2 /\ root_cache t' = root_cache t2 /\ anext (leaf_nodes t') = anext (leaf_nodes t2) /\
      (forall l, get_elem t' l = if decide (l ∈ (take k M).*1) then None else get_elem t2 l) /\
      (k <> 0 -> M <> [] -> BTree.iter t' = Panic).
Proof. exact (t_leak L t xs a b ea eb fa fb). Qed.
Print Assumptions C56_leak_partial.
(** the tree left behind still counts the element that was handed out, iteration panics, and [check] accepts it *)
Theorem C56_refuted : exists t es t', @from_iter RT (map gbs [[0]; [1]; [2]; [3]; [4]]) = Ok t /\ drain_leak t (qr0 1 0) (qr0 3 0) 1 = Ok (es, t') /\
  map to_vec es = [[1]] /\ @BTree.iter RT t' = Panic /\ root_cache t' = 5%Z /\ check t' = Ok tt.
Proof. exact demo_leak. Qed.
Print Assumptions C56_refuted.
Example C56_example : exists (t : btree RT) (xs : list (nat * Elem RT)) (ea eb : Elem RT), Tree RL t xs /\ Fits t (mkCur 3 1) (mkCur 9 2) /\
  (3, ea) ∈ xs /\ 1 < @rle_len RT ea /\ (9, eb) ∈ xs /\ 2 < @rle_len RT eb /\ cur_le xs (mkCur 3 1) (mkCur 9 2) /\
  (forall X, xs = X ++ [(3, ea)] -> 1 = @rle_len RT ea -> 1 = 0) /\ unw_sound RL du.
Proof. exact demo_fits. Qed.

(** ** C57: a closure of update that panics.  [W] is the range with the elements as the closure left
    them up to the panic.  Some intact tree [u] with that content differs from the tree left behind only in
    summaries; these are the ones of the cut tree, so that the tree is intact if no summary
    changed.  Without a panic the call is update.  Missing: right summaries. *)
Theorem C57_update_partial (B : BTreeTrait) (L : Lawful B) (S0 : Type) (fu : S0 -> Elem B -> (S0 * Elem B * option (Diff B)) + Elem B) ord (t : btree B) xs (a b : cursor) ea eb s :
  Tree L t xs -> Fits t a b -> (cu_leaf a, ea) ∈ xs -> cu_offset a <= rle_len ea -> (cu_leaf b, eb) ∈ xs -> cu_offset b <= rle_len eb ->
  cur_le xs a b -> unw_sound L fu ->
  exists A Z A1 M t2, let fr n := anext (leaf_nodes t) <= n < anext (leaf_nodes t2) in
    cuts t a b = Ok t2 /\ Tree L t2 (A1 ++ M ++ Z) /\ Cut fr xs b A Z /\ Cut fr (A ++ Z) a A1 (M ++ Z) /\
    match unwound fu s M with
    | None => update_u ord t a b fu s = (let? r := update ord t a b (total_fu fu) s in Ok (inl r))
    | Some W => exists t' u, update_u ord t a b fu s = Ok (inr t') /\ Tree L u (A1 ++ W ++ Z) /\ SameButCaches u t' /\
        in_nodes t' = in_nodes t2 /\ root_cache t' = root_cache t2 /\
        ((forall l e e', (l, e) ∈ M -> (l, e') ∈ W -> get_elem_cache e' = get_elem_cache e) -> Tree L t' (A1 ++ W ++ Z))
    end.
Proof. exact (t_update_unwind L fu ord t xs a b ea eb s). Qed.
Print Assumptions C57_update_partial.
(** update_leaf and update_leaf_by_search: the same, and one recursive_update_cache mends the tree *)
Theorem C57_update_leaf_partial (B : BTreeTrait) (L : Lawful B) (t : btree B) X l e Y e' : Tree L t (X ++ (l, e) :: Y) -> evalid L e' ->
  exists t' u, update_leaf_u t l e' = Ok t' /\ poke t l e' = Some t' /\ Tree L u (X ++ (l, e') :: Y) /\ SameButCaches u t' /\
    in_nodes t' = in_nodes t /\ root_cache t' = root_cache t /\
    (get_elem_cache e' = get_elem_cache e -> Tree L t' (X ++ (l, e') :: Y)) /\
    (exists t2, recursive_update_cache t' (ALeaf l) false None = Ok t2 /\ Tree L t2 (X ++ (l, e') :: Y)).
Proof. exact (t_update_leaf_unwind L t X l e Y e'). Qed.
Print Assumptions C57_update_leaf_partial.
Theorem C57_by_search_partial (B : BTreeTrait) (L : Lawful B) (Q : Query B) (t : btree B) X l e Y (q : QArg Q) off fd (s' : Qst Q) f :
  Tree L t (X ++ (l, e) :: Y) -> Shallow t 10 -> query_with_finder_return Q t q = Ok (Some (mkQR (mkCur l off) fd), s') ->
  exists fnd, ulbs_u Q t q f = update_leaf_u t l (f e (mkQR (mkCur l off) fnd)).
Proof. exact (t_ulbs_unwind L Q t X l e Y q off fd s' f). Qed.
Print Assumptions C57_by_search_partial.
(** the summaries of the tree left behind are those from before the call *)
Theorem C57_refuted : exists t t', push_all (B := RT) bt_new dgb = Ok t /\ update_u (fun l => l) t (mkCur 3 1) (mkCur 9 2) du 0 = Ok (inr t') /\
  contents t' = Ok (take 3 dseq ++ [[20]; [9]; [9]; [7]] ++ take 3 (drop 6 dseq) ++ [[50; 51]; [52]] ++ drop 10 dseq) /\
  root_cache t = 49%Z /\ root_cache t' = 49%Z /\ check t' = Panic.
Proof. exact demo_unwind. Qed.
Print Assumptions C57_refuted.
Example C57_example : exists (t : btree RT) (xs : list (nat * Elem RT)) (ea eb : Elem RT), Tree RL t xs /\ Fits t (mkCur 3 1) (mkCur 9 2) /\
  (3, ea) ∈ xs /\ 1 < @rle_len RT ea /\ (9, eb) ∈ xs /\ 2 < @rle_len RT eb /\ cur_le xs (mkCur 3 1) (mkCur 9 2) /\
  (forall X, xs = X ++ [(3, ea)] -> 1 = @rle_len RT ea -> 1 = 0) /\ unw_sound RL du.
Proof. exact demo_fits. Qed.

(** ** C57: a closure of update_leaves_with_arg_in_ranges that may panic.  [js], [paint_all]: as in C31_stateful.
    [W]: the pieces of the leaves visited up to the panic.  Of the pieces of each of these leaves only the first
    stays in the tree, the others are lost; some intact tree [u] with that content differs from the tree left behind only
    in summaries, and these are the ones from before the call.  Missing: the other pieces, right summaries. *)
Theorem C57_ranges_partial (B : BTreeTrait) (L : Lawful B) (U : Type) (F : Flatten L U) (A S0 : Type) (fu : S0 -> Elem B -> A -> (S0 * Elem B) + Elem B) ordL ord ord2 (t : btree B) xs args s :
  keeps_valid L fu -> Tree L t xs -> xs <> [] -> @USE_DIFF B = true ->
  (forall l, ordL l ≡ₚ l) -> (forall l, ord l ≡ₚ l) -> (forall l, ord2 l ≡ₚ l) ->
  (forall l r, (l, r) ∈ args -> exists e, (l, e) ∈ xs /\ fst (fst r) < snd (fst r) <= rle_len e) ->
  exists js : list (nat * (list (nat * nat * A) * list (Elem B))), NoDup js.*1 /\ (forall l, l ∈ js.*1 <-> l ∈ args.*1) /\
    (forall l g ps, (l, (g, ps)) ∈ js -> g = of_key l args /\ exists e, (l, e) ∈ xs /\ CutAt L F g e ps) /\
    match paint_all fu s js with
    | inl (s', outs) => outs.*1 = js.*1 /\ exists nl t' Rs, update_ranges_u fu ordL ord ord2 t args s = Ok (inl (s', nl, t')) /\ Tree L t' (concat Rs) /\
        Forall2 (fun x R => (forall out, (fst x, out) ∈ outs -> ft L F R = concat (map (fl F) out)) /\ (fst x ∉ outs.*1 -> ft L F R = fl F (snd x)) /\
          fst x ∈ R.*1 /\ (forall z, z ∈ R.*1 -> z = fst x \/ z ∈ nl)) xs Rs /\
        (forall z, z ∈ nl -> z ∈ (concat Rs).*1)
    | inr W => exists t' u ys, update_ranges_u fu ordL ord ord2 t args s = Ok (inr t') /\
        Forall2 (fun x y => fst y = fst x /\ (forall out, (fst x, out) ∈ W -> head out = Some (snd y)) /\ (fst x ∉ W.*1 -> snd y = snd x)) xs ys /\
        Tree L u ys /\ SameButCaches u t' /\ in_nodes t' = in_nodes t /\ root_cache t' = root_cache t
    end.
Proof. exact (t_ranges_u L F fu ordL ord ord2 t xs args s). Qed.
Print Assumptions C57_ranges_partial.
(** three of the 49 bytes are gone, the summary still says 49 *)
Theorem C57_ranges_refuted : exists t t', push_all (B := RT) bt_new dgb = Ok t /\ update_ranges_u (cu 1) (@rev _) (@rev _) (@rev _) t dargs 0 = Ok (inr t') /\
  bytes_of t = concat dseq /\
  bytes_of t' = [10; 10; 10; 10; 10; 11; 12; 20; 20; 21; 22; 30; 30; 30; 30; 530; 531; 532] ++ drop 21 (concat dseq) /\
  root_cache t = 49%Z /\ root_cache t' = 49%Z /\ check t' = Panic.
Proof. exact demo_ranges_unwind. Qed.
Print Assumptions C57_ranges_refuted.
Example C57_ranges_example : exists (t : btree RT) (xs : list (nat * Elem RT)) nl t', Tree RL t xs /\ xs <> [] /\ @USE_DIFF RT = true /\ (forall k, keeps_valid RL (cu k)) /\
  (forall s e a, evalid RL e -> evalid RL (snd (cn s e a))) /\
  (forall l r, (l, r) ∈ dargs -> exists e, (l, e) ∈ xs /\ fst (fst r) < snd (fst r) <= @rle_len RT e) /\
  update_ranges_u (fun s e a => inl (cn s e a)) (@rev _) (@rev _) (@rev _) t dargs 0 = Ok (inl (5, nl, t')) /\
  bytes_of t' = [10; 10; 10; 10; 10; 11; 12; 20; 120; 520; 420; 20; 21; 22; 30; 30; 30; 30; 30; 31; 32] ++ drop 21 (concat dseq).
Proof. exact demo_ranges_state. Qed.
