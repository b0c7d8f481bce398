(** PropLazy.v — the lazy iterators call by call (C17, C25, C26, C30).
    [Yields next s es] (Lazy.v): for every k, the first k calls of [next] from the state [s] return the
    items of [es] one by one and [None] from then on (never panic, and stay exhausted). *)
From Verif Require Import Demo13.

(** ** C17.  iter *)
Theorem C17_lazy (B : BTreeTrait) (L : Lawful B) (t : btree B) xs : Tree L t xs -> Shallow t 9 ->
  exists s, iter_start t = Ok s /\ Yields (iter_next t) s (map snd xs).
Proof. exact (t_iter_lazy L t xs). Qed.
Print Assumptions C17_lazy.
(** on deeper trees already the call of iter panics, before any [next] *)
Theorem C17_lazy_too_deep (B : BTreeTrait) (L : Lawful B) (t : btree B) xs : Tree L t xs -> ~ Shallow t 9 -> iter_start t = Panic.
Proof. exact (t_iter_lazy_deep L t xs). Qed.
Print Assumptions C17_lazy_too_deep.
Example C17_lazy_example :
  (let? t := push_all (B := RT) bt_new dgb in let? s := iter_start t in let? (os, _) := nexts (iter_next t) 16 s in Ok (map (option_map to_vec) os)) =
  Ok (map Some dseq ++ [None; None]).
Proof. exact demo_lazy_iter. Qed.

(** ** C25.  iter_range between two leaves, and inside one leaf; the last argument of [range_next]
    is true for an included end *)
Theorem C25_lazy (B : BTreeTrait) (L : Lawful B) (t : btree B) X la ea M lb eb Y oa ob :
  Tree L t (X ++ (la, ea) :: M ++ (lb, eb) :: Y) -> Shallow t 9 ->
  let mid := map (fun x => mkES (mkCur (fst x) 0) (snd x) None None) M in
  let first := mkES (mkCur la 0) ea (Some oa) None in
  let last := mkES (mkCur lb 0) eb None (Some ob) in
  exists s, range_start_ t (mkCur la oa) (mkCur lb ob) = Ok s /\
    Yields (range_next t (mkCur la oa) (mkCur lb ob) true) s (first :: mid ++ [last]) /\
    Yields (range_next t (mkCur la oa) (mkCur lb ob) false) s (first :: mid ++ (if decide (ob = 0) then [] else [last])).
Proof. exact (t_range_lazy L t X la ea M lb eb Y oa ob). Qed.
Print Assumptions C25_lazy.
Theorem C25_lazy_same_leaf (B : BTreeTrait) (L : Lawful B) (t : btree B) X l e Y oa ob : Tree L t (X ++ (l, e) :: Y) -> Shallow t 9 ->
  let it := mkES (mkCur l 0) e (Some oa) (Some ob) in
  exists s, range_start_ t (mkCur l oa) (mkCur l ob) = Ok s /\
    Yields (range_next t (mkCur l oa) (mkCur l ob) true) s [it] /\
    Yields (range_next t (mkCur l oa) (mkCur l ob) false) s (if decide (ob = 0) then [] else [it]).
Proof. exact (t_range_lazy_one L t X l e Y oa ob). Qed.
Print Assumptions C25_lazy_same_leaf.
Example C25_lazy_example :
  (let? t := push_all (B := RT) bt_new dgb in let? s := range_start_ t (mkCur 4 1) (mkCur 6 0) in
   let? (os, _) := nexts (range_next t (mkCur 4 1) (mkCur 6 0) false) 3 s in Ok (map (option_map (fun x : elem_slice (B := RT) => (to_vec (es_elem x : gbuf), es_start x, es_end x))) os)) =
  Ok [Some ([30; 30; 30; 30], Some 1, None); Some ([30; 31; 32], None, None); None].
Proof. exact demo_lazy_range. Qed.

(** ** C26, the part that holds: iter_range(..) on a non-empty tree *)
Theorem C26_lazy_partial (B : BTreeTrait) (L : Lawful B) (t : btree B) xs : Tree L t xs -> xs <> [] -> Shallow t 9 ->
  exists st en inc s r, range_bounds t Unbounded Unbounded = Ok (st, en, inc) /\ range_start_ t st en = Ok s /\
    Yields (range_next t st en inc) s r /\ map (fun s => (cu_leaf (es_cursor s), es_elem s)) r = xs.
Proof. exact (t_range_lazy_all L t xs). Qed.
Print Assumptions C26_lazy_partial.

(** ** C30.  iter_with_filter with any filter, stateful or not.  [Levels t q s s' out] (Lazy.v): the filter
    is asked about the children of the accepted nodes level by level, each level from left to right,
    taking its state from [s] to [s']; [out] are the accepted leaves in order, each with the offset
    of its parent plus what the filter returned for its siblings to the left.  The first call of
    [next] already asks the filter about everything (the state after it is the final [s']). *)
Theorem C30_stateful (B : BTreeTrait) (L : Lawful B) (S0 R : Type) (r0 : R) (radd : R -> R -> R) (fu : S0 -> Cache B -> S0 * (bool * R))
  (t : btree B) xs (s : S0) : Tree L t xs ->
  exists s' out, iter_with_filter r0 radd fu t s = Ok (s', out) /\ Levels radd fu t [(root t, r0)] s s' out /\
    (exists q, iwf_next radd fu t (iwf_start r0 t s) = Ok (head out, (q, s'))) /\ Yields (iwf_next radd fu t) (iwf_start r0 t s) out.
Proof. exact (t_filter_state L r0 radd fu t xs s). Qed.
Print Assumptions C30_stateful.
Example C30_stateful_example : exists (t : btree RT) (xs : list (nat * Elem RT)) s' out, Tree RL t xs /\ length xs = 14 /\
  iter_with_filter 0%Z Z.add cfilt t 0 = Ok (s', out) /\ s' = 16 /\ map (fun x => (fst x, to_vec (snd x))) out = couts.
Proof. exact demo_lazy_filter. Qed.
