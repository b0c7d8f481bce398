(** PropFilter.v — iter_with_filter (C30), for pure filters, run to exhaustion. *)
From Verif Require Import Demo6.

(** ** C30.  [Filt radd fu t x r out] (Filter.v): the accepted leaves below the node [x], left to
    right.  A child is entered iff the filter accepts its cache; its offset is the offset of the
    node plus the contributions of all its siblings to the left. *)
Theorem C30_iter_with_filter (B : BTreeTrait) (L : Lawful B) (R : Type) (r0 : R) (radd : R -> R -> R) (fu : Cache B -> bool * R) (S0 : Type)
  (t : btree B) xs (s : S0) : Tree L t xs ->
  exists out, iter_with_filter r0 radd (fun s c => (s, fu c)) t s = Ok (s, out) /\ Filt radd fu t (root t) r0 out.
Proof. exact (t_filter L r0 radd fu t xs s). Qed.
Print Assumptions C30_iter_with_filter.

(** If the filter respects the aggregation ([FiltLaw]: it accepts the aggregate of a list with an
    accepted element, and the contribution of an aggregate is the sum of the contributions), the
    result does not depend on the shape of the tree: [hits] are the elements whose own cache is
    accepted, each with the contributions of everything left of it. *)
Theorem C30_shape_independent (B : BTreeTrait) (L : Lawful B) (R : Type) (r0 : R) (radd : R -> R -> R) (fu : Cache B -> bool * R) (S0 : Type)
  (t : btree B) xs (s : S0) : Tree L t xs -> FiltLaw L radd fu (evalid L) ->
  iter_with_filter r0 radd (fun s c => (s, fu c)) t s = Ok (s, hits radd fu r0 xs).
Proof. exact (t_filter_hits L r0 radd fu t xs s). Qed.
Print Assumptions C30_shape_independent.

Example C30_example : exists (t : btree RT) (xs : list (nat * Elem RT)), Tree RL t xs /\ length xs = 15 /\ FiltLaw RL Z.add dfilt (evalid RL) /\
  map (fun x => (fst x, to_vec (snd x))) (hits Z.add dfilt 0%Z xs) = dhits.
Proof. exact demo_filter. Qed.
