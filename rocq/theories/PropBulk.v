(** PropBulk.v — update_leaf_by_search (C06), ranges of positions (C23), insertion at a position
    (C01) and bulk insertion (C28).  Elements are seen as sequences of units: [Flatten L U] says
    that length, split, try_insert, merging and removability of elements act on the units as the
    list operations do; [ft L F xs] is the concatenation over the content [xs]; [tlen] its length. *)
From Verif Require Import Demo3 Pos.

(** ** C06.  [ul_kept e' n1]: the pieces that stay, [[]] if the new element is removable, else the
    new element and the extra one.  [ulbs_res l off fresh ps rc sl R]: the leaf is replaced by [R]
    (nothing; the leaf; the leaf and a fresh leaf), [rc]/[sl] are the returned cursor and new leaves.
    [fnd]: the flag handed to the closure is the leaf's own.  The code asserts that nothing is
    inserted when the new element is removable.  [drel]: the reported diff is right.  [MDw true]: every
    inner node off the left spine has five children or more. *)
Theorem C06_update_leaf_by_search (B : BTreeTrait) (L : Lawful B) (Q : Query B) (t : btree B) X l e Y (q : QArg Q) off fd (s' : Qst Q) f :
  Tree L t (X ++ (l, e) :: Y) -> Shallow t 10 ->
  query_with_finder_return Q t q = Ok (Some (mkQR (mkCur l off) fd), s') ->
  exists fnd, (fd = true -> fnd = true) /\
    (forall e', f e (mkQR (mkCur l off) fnd) = (e', None) -> evalid L e' -> get_elem_cache e' = get_elem_cache e ->
      exists t', update_leaf_by_search Q t q f = Ok (Some (mkCur l off), [], t') /\ Tree L t' (X ++ (l, e') :: Y) /\ (MDw true t -> MDw true t')) /\
    (forall e' d n1, f e (mkQR (mkCur l off) fnd) = (e', Some (d, n1, None)) -> evalid L e' -> (forall x, n1 = Some x -> evalid L x) ->
      (can_remove e' = true -> n1 = None) ->
      drel L (get_elem_cache e) d (summ L (map get_elem_cache (ul_kept e' n1))) ->
      exists rc sl R t', update_leaf_by_search Q t q f = Ok (rc, sl, t') /\ Tree L t' (X ++ R ++ Y) /\
        ulbs_res l off (fun n => anext (leaf_nodes t) <= n < anext (leaf_nodes t')) (ul_kept e' n1) rc sl R /\
        anext (leaf_nodes t) <= anext (leaf_nodes t') /\ (MDw true t -> MDw true t')).
Proof. exact (t_ulbs L Q t X l e Y q off fd s' f). Qed.
Print Assumptions C06_update_leaf_by_search.
(** deeper than the path buffer: panic, before the closure is called *)
Theorem C06_too_deep (B : BTreeTrait) (L : Lawful B) (Q : Query B) (t : btree B) xs (q : QArg Q) qr (s' : Qst Q) f :
  Tree L t xs -> xs <> [] -> ~ Shallow t 10 ->
  query_with_finder_return Q t q = Ok (Some qr, s') -> update_leaf_by_search Q t q f = Panic.
Proof. exact (t_ulbs_deep L Q t xs q qr s' f). Qed.
Print Assumptions C06_too_deep.
(** a second extra element is not implemented: panic *)
Theorem C06_second_insertion (B : BTreeTrait) (L : Lawful B) (Q : Query B) (t : btree B) X l e Y (q : QArg Q) off fd (s' : Qst Q) f :
  Tree L t (X ++ (l, e) :: Y) -> query_with_finder_return Q t q = Ok (Some (mkQR (mkCur l off) fd), s') ->
  (forall fnd, exists e' d n1 n2, f e (mkQR (mkCur l off) fnd) = (e', Some (d, n1, Some n2))) -> update_leaf_by_search Q t q f = Panic.
Proof. exact (t_ulbs_second L Q t X l e Y q off fd s' f). Qed.
Print Assumptions C06_second_insertion.

(** three closures: keep, empty the leaf, replace it and add a leaf *)
Example C06_example : exists (t : btree RT) (X : list (nat * Elem RT)) (e : Elem RT) (Y : list (nat * Elem RT)) s',
  Tree RL t (X ++ (5, e) :: Y) /\ Shallow t 10 /\
  @query_with_finder_return RT (RopeFinder 4) t (tlen X + 1) = Ok (Some (mkQR (mkCur 5 1) true), s') /\
  evalid RL (gbs [] : Elem RT) /\ drel RL (get_elem_cache e) (- 3)%Z (summ RL (map get_elem_cache (ul_kept (gbs [] : Elem RT) None))) /\
  evalid RL (gbs [1; 2] : Elem RT) /\
  drel RL (get_elem_cache e) 1%Z (summ RL (map get_elem_cache (ul_kept (gbs [1; 2] : Elem RT) (Some (gbs [1; 2] : Elem RT))))).
Proof. exact demo_ulbs. Qed.

(** ** C23: both ends of a range of positions *)
Theorem C23_range (B : BTreeTrait) (L : Lawful B) get_len (t : btree B) xs X1 l1 e1 Y1 k1 X2 l2 e2 Y2 k2 :
  LenCache L get_len -> Tree L t xs ->
  xs = X1 ++ (l1, e1) :: Y1 -> k1 < rle_len e1 -> xs = X2 ++ (l2, e2) :: Y2 -> k2 < rle_len e2 ->
  range (LengthFinder get_len) t (tlen X1 + k1) (tlen X2 + k2) = Ok (Some (mkQR (mkCur l1 k1) true, mkQR (mkCur l2 k2) true)).
Proof. exact (fun HL => t_range L get_len HL t xs X1 l1 e1 Y1 k1 X2 l2 e2 Y2 k2). Qed.
Print Assumptions C23_range.
Theorem C23_range_end (B : BTreeTrait) (L : Lawful B) get_len (t : btree B) xs X1 l1 e1 Y1 k1 X2 l2 e2 :
  LenCache L get_len -> Tree L t xs ->
  xs = X1 ++ (l1, e1) :: Y1 -> k1 < rle_len e1 -> xs = X2 ++ [(l2, e2)] ->
  range (LengthFinder get_len) t (tlen X1 + k1) (tlen xs) = Ok (Some (mkQR (mkCur l1 k1) true, mkQR (mkCur l2 (rle_len e2)) false)).
Proof. exact (fun HL => t_range_end L get_len HL t xs X1 l1 e1 Y1 k1 X2 l2 e2). Qed.
Print Assumptions C23_range_end.

(** ** C01: insertion at a position [q], also at the end and into an empty tree.  The returned
    cursor is at position [q]; leaves starting before [q] keep their handle and their start; no
    zero-length element appears. *)
Theorem C01_insert_at (B : BTreeTrait) (L : Lawful B) get_len (U : Type) (F : Flatten L U) (t : btree B) xs q x :
  LenCache L get_len -> Tree L t xs -> q <= tlen xs -> evalid L x ->
  exists cur' sl t' xs', BTree.insert (LengthFinder get_len) t q x = Ok (cur', sl, t') /\ Tree L t' xs' /\
    ft L F xs' = take q (ft L F xs) ++ fl F x ++ drop q (ft L F xs) /\ CurAt xs' cur' q /\ Keep q xs xs' /\
    (NZ xs -> rle_len x <> 0 -> NZ xs').
Proof. exact (fun HL => t_insert_at_cur L F get_len HL t xs q x). Qed.
Print Assumptions C01_insert_at.
Example C01_insert_at_example : exists (t : btree RT) (X : list (nat * Elem RT)) (e : Elem RT) (Y : list (nat * Elem RT)),
  LenCache RL rope_get_len /\ Tree RL t (X ++ (5, e) :: Y) /\ tlen X + 1 <= tlen (X ++ (5, e) :: Y) /\ evalid RL (gbs [1; 2]) /\ fl (RopeF 4) (gbs [1; 2]) = [1; 2].
Proof. exact demo_insert_at. Qed.

(** ** C28.  Missing: inputs with mergeable neighbours (merge_adj reorders them, C29), a first
    input that merges into the leaf before the cursor's although the cursor is not at its end, and
    the empty tree (both refuted in PropRefuted.v). *)
Theorem C28_insert_many_partial (B : BTreeTrait) (L : Lawful B) (U : Type) (F : Flatten L U) (t : btree B) X l e Y off data :
  Tree L t (X ++ (l, e) :: Y) -> off <= rle_len e -> Forall (evalid L) data -> NoAdj data ->
  (off <> 0 -> forall X' l0 e0 x y r, X = X' ++ [(l0, e0)] -> data = x :: y :: r -> can_merge e0 x = false) ->
  exists t' xs', insert_many_by_cursor t (Some (mkCur l off)) data = Ok t' /\ Tree L t' xs' /\
    let p := tlen X + off in let s := ft L F (X ++ (l, e) :: Y) in
    ft L F xs' = take p s ++ concat (map (fl F) data) ++ drop p s /\ Keep p (X ++ (l, e) :: Y) xs' /\
    (NZ (X ++ (l, e) :: Y) -> Forall (fun x => rle_len x <> 0) data -> NZ xs').
Proof. exact (fs_insert_many L F t X l e Y off data). Qed.
Print Assumptions C28_insert_many_partial.
Example C28_example : exists (t : btree RT) (X : list (nat * Elem RT)) (e : Elem RT) (Y : list (nat * Elem RT)),
  let data := [gbs [1; 2; 3; 4]; gbs [5; 6; 7; 8]; gbs [9]] : list (Elem RT) in
  Tree RL t (X ++ (5, e) :: Y) /\ 1 <= rle_len e /\ Forall (evalid RL) data /\ NoAdj data /\
  (forall X' l0 e0 x y r, X = X' ++ [(l0, e0)] -> data = x :: y :: r -> can_merge e0 x = false) /\
  concat (map (fl (RopeF 4)) data) = [1; 2; 3; 4; 5; 6; 7; 8; 9].
Proof. exact demo_many. Qed.
