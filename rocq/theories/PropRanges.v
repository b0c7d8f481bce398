(** PropRanges.v — update_leaves_with_arg_in_ranges (C31).
    A range is [(start, end, argument)].  [of_key l args]: the ranges given for leaf [l], in the
    order given.  [Painted fu g e out]: [e] is cut exactly at the ends of the ranges in [g], and to
    each piece the closure has been applied once, in order, for every range of [g] that covers the
    piece, and for no other.  [ft F xs]: the units of a sequence of leaves.  [ord], [ord2]: the
    iteration orders of the two hash maps, arbitrary permutations. *)
From Verif Require Import Ranges RopeFl Demo7 Demo21.

(** ** C31.  Each leaf becomes a run of leaves that contains it; the units of the run are those of
    the leaf, cut and painted; every other leaf of a run is reported, and what is reported is live. *)
Theorem C31_ranges (B : BTreeTrait) (L : Lawful B) (U : Type) (F : Flatten L U) (A : Type) (fu : Elem B -> A -> Elem B) ord ord2 t xs args :
  (forall e a, evalid L e -> evalid L (fu e a)) -> Tree L t xs -> xs <> [] -> @USE_DIFF B = true ->
  (forall l, ord l ≡ₚ l) -> (forall l, ord2 l ≡ₚ l) ->
  (forall l r, (l, r) ∈ args -> exists e, (l, e) ∈ xs /\ fst (fst r) < snd (fst r) <= rle_len e) ->
  exists nl t' Rs, update_leaves_with_arg_in_ranges fu ord ord2 t args = Ok (nl, t') /\ Tree L t' (concat Rs) /\
    Forall2 (fun x R => (exists out, Painted L F fu (of_key (fst x) args) (snd x) out /\ ft L F R = concat (map (fl F) out)) /\
      fst x ∈ R.*1 /\ (forall z, z ∈ R.*1 -> z = fst x \/ z ∈ nl)) xs Rs /\
    (forall z, z ∈ nl -> z ∈ (concat Rs).*1) /\ (forall w, MDw w t -> MDw w t').
Proof. intros Hf. exact (t_ranges L F fu Hf ord ord2 t xs args). Qed.
Print Assumptions C31_ranges.

(** If the closure acts unit by unit ([gu]), unit [i] of leaf [l] has been changed by exactly the
    ranges of [l] that contain [i], in the order given. *)
Theorem C31_units (B : BTreeTrait) (L : Lawful B) (U : Type) (F : Flatten L U) (A : Type) (fu : Elem B -> A -> Elem B) (gu : U -> A -> U) ord ord2 t xs args :
  (forall e a, evalid L e -> evalid L (fu e a)) -> Tree L t xs -> xs <> [] -> @USE_DIFF B = true ->
  (forall l, ord l ≡ₚ l) -> (forall l, ord2 l ≡ₚ l) ->
  (forall e a, evalid L e -> fl F (fu e a) = map (fun u => gu u a) (fl F e)) ->
  (forall l r, (l, r) ∈ args -> exists e, (l, e) ∈ xs /\ fst (fst r) < snd (fst r) <= rle_len e) ->
  exists nl t' Rs, update_leaves_with_arg_in_ranges fu ord ord2 t args = Ok (nl, t') /\ Tree L t' (concat Rs) /\
    Forall2 (fun x R => ft L F R = imap (unit_at gu (of_key (fst x) args)) (fl F (snd x)) /\ fst x ∈ R.*1) xs Rs.
Proof. intros Hf. exact (t_ranges_units L F fu Hf gu ord ord2 t xs args). Qed.
Print Assumptions C31_units.

(** fourteen leaves of bytes; overlapping ranges in one leaf, a whole leaf, a closure that adds a
    hundred times its argument *)
Example C31_example : exists (t : btree RT) (xs : list (nat * Elem RT)) t' nl, Tree RL t xs /\ length xs = 14 /\ @USE_DIFF RT = true /\
  (forall e a, evalid RL e -> evalid RL (gb_add e a)) /\
  (forall e a, evalid RL e -> fl (RopeF 4) (gb_add e a) = map (fun u => u + 100 * a) (fl (RopeF 4) e)) /\
  (forall l r, (l, r) ∈ dargs -> exists e, (l, e) ∈ xs /\ fst (fst r) < snd (fst r) <= @rle_len RT e) /\
  update_leaves_with_arg_in_ranges (B := RT) gb_add (@rev _) (@rev _) t dargs = Ok (nl, t') /\
  concat (map (fun x => to_vec (snd x)) (elems t')) =
    [10; 10; 10; 10; 10; 11; 12; 20; 120; 320; 220; 20; 21; 22; 30; 30; 30; 30; 530; 531; 532] ++ drop 21 (concat dseq).
Proof. exact demo_ranges. Qed.

(** ** C31 for closures with a state.  [js]: the leaves with ranges in the order in which they are visited, each
    with its ranges (in the order given) and its pieces (it is cut exactly at the ends of the ranges, [CutAt]).
    [paint_all]: the state is threaded through the leaves of [js], the pieces of a leaf from left to right, and
    the ranges that cover the piece in the order given; [outs]: the pieces afterwards.  [ordL]: the order of the
    leaves under LeafIndex's Ord, any permutation. *)
Theorem C31_stateful (B : BTreeTrait) (L : Lawful B) (U : Type) (F : Flatten L U) (A S0 : Type) (f : S0 -> Elem B -> A -> S0 * Elem B) ordL ord ord2 (t : btree B) xs args s :
  (forall s e a, evalid L e -> evalid L (snd (f s e a))) -> Tree L t xs -> xs <> [] -> @USE_DIFF B = true ->
  (forall l, ordL l ≡ₚ l) -> (forall l, ord l ≡ₚ l) -> (forall l, ord2 l ≡ₚ l) ->
  (forall l r, (l, r) ∈ args -> exists e, (l, e) ∈ xs /\ fst (fst r) < snd (fst r) <= rle_len e) ->
  let fs := fun s e a => inl (f s e a) in
  exists (js : list (nat * (list (nat * nat * A) * list (Elem B)))) s' outs nl t' Rs, NoDup js.*1 /\ (forall l, l ∈ js.*1 <-> l ∈ args.*1) /\
    (forall l g ps, (l, (g, ps)) ∈ js -> g = of_key l args /\ exists e, (l, e) ∈ xs /\ CutAt L F g e ps) /\
    paint_all fs s js = inl (s', outs) /\ outs.*1 = js.*1 /\
    update_ranges_u fs ordL ord ord2 t args s = Ok (inl (s', nl, t')) /\ Tree L t' (concat Rs) /\
    Forall2 (fun x R => (forall out, (fst x, out) ∈ outs -> ft L F R = concat (map (fl F) out)) /\ (fst x ∉ outs.*1 -> ft L F R = fl F (snd x)) /\
      fst x ∈ R.*1 /\ (forall z, z ∈ R.*1 -> z = fst x \/ z ∈ nl)) xs Rs /\
    (forall z, z ∈ nl -> z ∈ (concat Rs).*1).
Proof. exact (t_ranges_state L F f ordL ord ord2 t xs args s). Qed.
Print Assumptions C31_stateful.
(** a closure without state that never panics: the call of C31_ranges *)
Theorem C31_stateless (B : BTreeTrait) (A S0 : Type) (fu : Elem B -> A -> Elem B) ord ord2 (t : btree B) args (s : S0) :
  update_ranges_u (fun s e a => inl (s, fu e a)) (fun l => l) ord ord2 t args s =
  (let? (nl, t') := update_leaves_with_arg_in_ranges fu ord ord2 t args in Ok (inl (s, nl, t'))).
Proof. exact (ranges_u_total fu ord ord2 t args s). Qed.
Print Assumptions C31_stateless.
(** a closure that adds a hundred times the number of the call: leaf 5 by call 0, the pieces of leaf 2 by calls 1 to 4 *)
Example C31_stateful_example : exists (t : btree RT) (xs : list (nat * Elem RT)) nl t', Tree RL t xs /\ xs <> [] /\ @USE_DIFF RT = true /\ (forall k, keeps_valid RL (cu k)) /\
  (forall s e a, evalid RL e -> evalid RL (snd (cn s e a))) /\
  (forall l r, (l, r) ∈ dargs -> exists e, (l, e) ∈ xs /\ fst (fst r) < snd (fst r) <= @rle_len RT e) /\
  update_ranges_u (fun s e a => inl (cn s e a)) (@rev _) (@rev _) (@rev _) t dargs 0 = Ok (inl (5, nl, t')) /\
  bytes_of t' = [10; 10; 10; 10; 10; 11; 12; 20; 120; 520; 420; 20; 21; 22; 30; 30; 30; 30; 30; 31; 32] ++ drop 21 (concat dseq).
Proof. exact demo_ranges_state. Qed.
