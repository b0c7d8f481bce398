(** PropDrain.v — drain (C08), dropping a drain early (C09), and the panic of C10.
    [Cut fresh xs cur A Z] (Upd.v): the cursor [cur] cuts the content [xs] into [A] and [Z],
    splitting the element it points into.  [cur_le xs a b]: [a] is not after [b]. *)
From Verif Require Import Drain5 Demo2.

(** ** C08.  [A1] is the content before the start, [M] the drained elements, [Z] the content from
    the end on.  The drained values are [M] in order, and the tree is intact with content
    [A1 ++ Z].  [cuts t a b]: the tree after the two boundary splits.  Node paths hold 10 entries:
    if the cut tree is deeper than 9 levels the call panics (it can be deeper only if the tree was
    deeper than 7).
    Excluded, as the claim says: a zero-length element right of the end (false there:
    C44_drain_zero_length_refuted) and a start at the end of the tree (panics:
    C10_drain_at_end_refuted). *)
Theorem C08_drain (B : BTreeTrait) (L : Lawful B) (t : btree B) xs (a b : cursor) (ea eb : Elem B) (fa fb : bool) :
  Tree L t xs -> (cu_leaf a, ea) ∈ xs -> cu_offset a <= rle_len ea -> (cu_leaf b, eb) ∈ xs -> cu_offset b <= rle_len eb ->
  cur_le xs a b ->
  (cu_offset b = 0 -> rle_len eb <> 0) ->
  (forall X Y l e, xs = X ++ [(cu_leaf b, eb); (l, e)] ++ Y -> cu_offset b = rle_len eb -> rle_len e <> 0) ->
  (forall X, xs = X ++ [(cu_leaf a, ea)] -> cu_offset a = rle_len ea -> cu_offset a = 0) ->
  exists A Z A1 M t2, let fr n := anext (leaf_nodes t) <= n < anext (leaf_nodes t2) in
    cuts t a b = Ok t2 /\ Tree L t2 (A1 ++ M ++ Z) /\ anext (leaf_nodes t) <= anext (leaf_nodes t2) /\
    (forall k, Shallow t k -> Shallow t2 (S (S k))) /\
    Cut fr xs b A Z /\ Cut fr (A ++ Z) a A1 (M ++ Z) /\
    (Shallow t2 9 -> exists t',
      drain_range t (Some (mkQR a fa)) (Some (mkQR b fb)) (length M) = Ok (snd <$> M, t') /\
      Tree L t' (A1 ++ Z) /\ anext (leaf_nodes t2) <= anext (leaf_nodes t')) /\
    (~ Shallow t2 9 -> forall k, drain_range t (Some (mkQR a fa)) (Some (mkQR b fb)) k = Panic).
Proof. exact (t_drain_all L t xs a b ea eb fa fb). Qed.
Print Assumptions C08_drain.

(** ** C09.  For every number [k] of calls to next the values are the first [k] of the full
    drain, and the resulting tree [t'] does not depend on [k].  Same exclusions as C08;
    [Fits t a b]: the cut tree is at most 9 levels deep (otherwise C08 says the call panics). *)
Theorem C09_drain_early (B : BTreeTrait) (L : Lawful B) (t : btree B) xs (a b : cursor) (ea eb : Elem B) (fa fb : bool) :
  Tree L t xs -> Fits t a b -> (cu_leaf a, ea) ∈ xs -> cu_offset a <= rle_len ea -> (cu_leaf b, eb) ∈ xs -> cu_offset b <= rle_len eb ->
  cur_le xs a b ->
  (cu_offset b = 0 -> rle_len eb <> 0) ->
  (forall X Y l e, xs = X ++ [(cu_leaf b, eb); (l, e)] ++ Y -> cu_offset b = rle_len eb -> rle_len e <> 0) ->
  (forall X, xs = X ++ [(cu_leaf a, ea)] -> cu_offset a = rle_len ea -> cu_offset a = 0) ->
  exists A Z A1 M t', let fr n := anext (leaf_nodes t) <= n < anext (leaf_nodes t') in
    Cut fr xs b A Z /\ Cut fr (A ++ Z) a A1 (M ++ Z) /\
    (forall k, drain_range t (Some (mkQR a fa)) (Some (mkQR b fb)) k = Ok (snd <$> take k M, t')) /\
    Tree L t' (A1 ++ Z) /\ anext (leaf_nodes t) <= anext (leaf_nodes t').
Proof. exact (t_drain L t xs a b ea eb fa fb). Qed.
Print Assumptions C09_drain_early.

Example C08_example : exists (t : btree RT) (xs : list (nat * Elem RT)) (ea eb : Elem RT), Tree RL t xs /\ Shallow t 2 /\
  (3, ea) ∈ xs /\ 1 < @rle_len RT ea /\ (9, eb) ∈ xs /\ 2 < @rle_len RT eb /\ cur_le xs (mkCur 3 1) (mkCur 9 2) /\ length xs = 14.
Proof. exact demo_range. Qed.

(** ** C10: whatever the tree, draining the empty range at its end panics. *)
Theorem C10_drain_at_end_refuted (B : BTreeTrait) (L : Lawful B) (t : btree B) X l e (fa fb : bool) k :
  Tree L t (X ++ [(l, e)]) -> rle_len e <> 0 ->
  drain_range t (Some (mkQR (mkCur l (rle_len e)) fa)) (Some (mkQR (mkCur l (rle_len e)) fb)) k = Panic.
Proof. exact (t_drain_end_panics L t X l e fa fb k). Qed.
Print Assumptions C10_drain_at_end_refuted.
