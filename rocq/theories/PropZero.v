(** PropZero.v — drains that end at an element of length 0 (C44). *)
From Verif Require Import Demo15.

(** Without any hypothesis on lengths: the values handed out, the remaining sequence and the shape are
    right: the tree left behind agrees with an intact tree [u] of content [A1 ++ Z] in everything but the
    cached summaries ([SameButCaches]).  The summaries are right too if [Covered]: every node above the end
    element that loses a leaf is also above the leaf before the range or above the leaf [after_leaf Z]
    whose path drop refreshes (the end element, or its successor if the end element is empty).
    Missing from C44: the summaries in the remaining case, C44_drain_zero_length_refuted. *)
Theorem C44_drain_any_partial (B : BTreeTrait) (L : Lawful B) (t : btree B) xs (a b : cursor) (ea eb : Elem B) (fa fb : bool) :
  Tree L t xs -> (cu_leaf a, ea) ∈ xs -> cu_offset a <= rle_len ea -> (cu_leaf b, eb) ∈ xs -> cu_offset b <= rle_len eb ->
  cur_le xs a b ->
  (forall X, xs = X ++ [(cu_leaf a, ea)] -> cu_offset a = rle_len ea -> cu_offset a = 0) ->
  exists A Z A1 M t2, let fr n := anext (leaf_nodes t) <= n < anext (leaf_nodes t2) in
    cuts t a b = Ok t2 /\ Tree L t2 (A1 ++ M ++ Z) /\ anext (leaf_nodes t) <= anext (leaf_nodes t2) /\
    (forall k, Shallow t k -> Shallow t2 (S (S k))) /\
    Cut fr xs b A Z /\ Cut fr (A ++ Z) a A1 (M ++ Z) /\
    (Shallow t2 9 -> exists t' u, (forall k, drain_range t (Some (mkQR a fa)) (Some (mkQR b fb)) k = Ok (snd <$> take k M, t')) /\
      Tree L u (A1 ++ Z) /\ SameButCaches u t' /\ (Covered t2 A1 M Z -> Tree L t' (A1 ++ Z)) /\
      anext (leaf_nodes t2) <= anext (leaf_nodes t')) /\
    (~ Shallow t2 9 -> forall k, drain_range t (Some (mkQR a fa)) (Some (mkQR b fb)) k = Panic).
Proof. exact (t_drain_any L t xs a b ea eb fa fb). Qed.
Print Assumptions C44_drain_any_partial.

(** [Covered] holds if the empty end element and its successor are children of one node, or the last
    element before the range and the end element are. *)
Theorem C44_covered_next_partial (B : BTreeTrait) (L : Lawful B) (t : btree B) A M z ez y ey Z d i n :
  Intact L t d (A ++ M ++ (z, ez) :: (y, ey) :: Z) -> rle_len ez = 0 -> a_get (in_nodes t) i = Some n ->
  ALeaf z ∈ map c_arena (n_children n) -> ALeaf y ∈ map c_arena (n_children n) ->
  Covered t A M ((z, ez) :: (y, ey) :: Z).
Proof. exact (covered_next L t A M z ez y ey Z d i n). Qed.
Print Assumptions C44_covered_next_partial.
Theorem C44_covered_prev_partial (B : BTreeTrait) (L : Lawful B) (t : btree B) A y ey M z ez Z d i n :
  Intact L t d ((A ++ [(y, ey)]) ++ M ++ (z, ez) :: Z) -> a_get (in_nodes t) i = Some n ->
  ALeaf z ∈ map c_arena (n_children n) -> ALeaf y ∈ map c_arena (n_children n) ->
  Covered t (A ++ [(y, ey)]) M ((z, ez) :: Z).
Proof. exact (covered_prev L t A y ey M z ez Z d i n). Qed.
Print Assumptions C44_covered_prev_partial.

(** thirteen leaves in two nodes, leaf 11 is empty; draining leaves 5 to 10 *)
Example C44_example : exists (t : btree RT) (A M : list (nat * Elem RT)) (ez ey : Elem RT),
  from_iter (B := RT) zgb = Ok t /\ Tree RL t (A ++ M ++ [(11, ez); (12, ey)]) /\ A.*1 = seq 0 5 /\ M.*1 = seq 5 6 /\
  @rle_len RT ez = 0 /\ Covered t A M [(11, ez); (12, ey)] /\
  (let? (l, t') := drain_range t (Some (mkQR (mkCur 5 0) true)) (Some (mkQR (mkCur 11 0) true)) 2 in Ok (map to_vec l, root_cache t', check t')) =
    Ok ([[1]; [1]], 6%Z, Ok tt).
Proof. exact demo_zero. Qed.
