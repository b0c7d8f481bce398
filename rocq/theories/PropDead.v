(** PropDead.v — cursors that do not denote a position: dead handles (C54), reversed ranges and offsets past
    the end (C55). *)
From Verif Require Import Demo17.

(** ** C54: a cursor whose leaf is gone.  Every call that follows the handle panics; [remove_leaf] answers
    [None] and leaves the tree alone. *)
Theorem C54_reads (B : BTreeTrait) (L : Lawful B) (t : btree B) xs l off : Tree L t xs -> get_elem t l = None ->
  next_elem t (mkCur l off) = Panic /\ prev_elem t (mkCur l off) = Panic /\
  shift_path_by_one_offset t (mkCur l off) = Panic /\ visit_previous_caches t (mkCur l off) = Panic /\
  (forall c, (exists e, (cu_leaf c, e) ∈ xs) -> compare_pos t (mkCur l off) c = Panic /\ compare_pos t c (mkCur l off) = Panic) /\
  (forall b, iter_range t (Included (mkCur l off)) b = Panic) /\
  (forall c e, (cu_leaf c, e) ∈ xs -> iter_range t (Included c) (Included (mkCur l off)) = Panic /\ iter_range t (Included c) (Excluded (mkCur l off)) = Panic) /\
  prefer_right t (mkCur l off) = (if decide (off = 0) then Ok (Some (mkCur l off)) else Panic) /\
  prefer_left t (mkCur l off) = (if decide (off = 0) then Panic else Ok (Some (mkCur l off))).
Proof. exact (dead_reads L t xs l off). Qed.
Print Assumptions C54_reads.
Theorem C54_writes (B : BTreeTrait) (t : btree B) l off (x : Elem B) f dd use : get_elem t l = None ->
  insert_by_path t (mkCur l off) x = Panic /\ update_leaf t l f = Panic /\ remove_leaf t (mkCur l off) = Ok (None, t) /\
  recursive_update_cache t (ALeaf l) use dd = Panic.
Proof. exact (dead_writes t l off x f dd use). Qed.
Print Assumptions C54_writes.
(** bulk insertion succeeds only with no data *)
Theorem C54_insert_many (B : BTreeTrait) (t : btree B) l off (data : list (Elem B)) t' : get_elem t l = None ->
  insert_many_by_cursor t (Some (mkCur l off)) data = Ok t' -> data = [] /\ t' = t.
Proof. exact (dead_insert_many t l off data t'). Qed.
Print Assumptions C54_insert_many.
(** ranges with one dead end *)
Theorem C54_ranges (B : BTreeTrait) (L : Lawful B) (t : btree B) xs l off c e : Tree L t xs -> get_elem t l = None -> l < anext (leaf_nodes t) ->
  (cu_leaf c, e) ∈ xs -> cu_offset c <= rle_len e ->
  (forall S0 ord (fu : S0 -> Elem B -> S0 * Elem B * option (Diff B)) s,
    update ord t (mkCur l off) c fu s = Panic /\ update ord t c (mkCur l off) fu s = Panic) /\
  (forall fa fb k, drain_range t (Some (mkQR (mkCur l off) fa)) (Some (mkQR c fb)) k = Panic /\
    drain_range t (Some (mkQR c fa)) (Some (mkQR (mkCur l off) fb)) k = Panic).
Proof. exact (dead_ranges L t xs l off c e). Qed.
Print Assumptions C54_ranges.
(** a dead leaf among the arguments *)
Theorem C54_args (B : BTreeTrait) (A : Type) (fu : Elem B -> A -> Elem B) ord ord2 (t : btree B) (args : list (nat * (nat * nat * A))) l r :
  get_elem t l = None -> l ∈ args.*1 -> update_leaves_with_arg_in_ranges fu ord ord2 t args <> Ok r.
Proof. exact (dead_args fu ord ord2 t args l r). Qed.
Print Assumptions C54_args.

Example C54_example : exists (t t' : btree RT) (X Y : list (nat * Elem RT)) e, Tree RL t (X ++ (3, e) :: Y) /\ remove_leaf t (mkCur 3 0) = Ok (Some e, t') /\
  Tree RL t' (X ++ Y) /\ get_elem t' 3 = None /\ 3 < anext (leaf_nodes t') /\ length (X ++ Y) = 13.
Proof. exact demo_dead. Qed.

(** ** C55: ranges whose end lies before their start.
    Within one leaf, behind its first position, update and drain panic.  Missing: all other reversed
    ranges, which are accepted (theorems below). *)
Theorem C55_one_leaf_partial (B : BTreeTrait) (L : Lawful B) (t : btree B) xs l e oa ob : Tree L t xs -> (l, e) ∈ xs -> 0 < ob < oa -> oa <= rle_len e ->
  (forall S0 ord (fu : S0 -> Elem B -> S0 * Elem B * option (Diff B)) s, update ord t (mkCur l oa) (mkCur l ob) fu s = Panic) /\
  (forall fa fb k, drain_range t (Some (mkQR (mkCur l oa) fa)) (Some (mkQR (mkCur l ob) fb)) k = Panic).
Proof. exact (t_rev_one L t xs l e oa ob). Qed.
Print Assumptions C55_one_leaf_partial.
(** An offset past the end of its element makes update, drain and bulk insertion of several elements panic. *)
Theorem C55_past_end_partial (B : BTreeTrait) (L : Lawful B) (t : btree B) xs l e off c ec : Tree L t xs -> (l, e) ∈ xs -> rle_len e < off ->
  (cu_leaf c, ec) ∈ xs -> cu_offset c <= rle_len ec -> cu_leaf c <> l ->
  (forall S0 ord (fu : S0 -> Elem B -> S0 * Elem B * option (Diff B)) s,
    update ord t (mkCur l off) c fu s = Panic /\ update ord t c (mkCur l off) fu s = Panic) /\
  (forall fa fb k, drain_range t (Some (mkQR (mkCur l off) fa)) (Some (mkQR c fb)) k = Panic /\
    drain_range t (Some (mkQR c fa)) (Some (mkQR (mkCur l off) fb)) k = Panic) /\
  (forall x y data, merge_adj (x :: y :: data) = Ok (x :: y :: data) -> insert_many_by_cursor t (Some (mkCur l off)) (x :: y :: data) = Panic).
Proof. exact (t_past_end L t xs l e off c ec). Qed.
Print Assumptions C55_past_end_partial.
(** [cur_rev xs a b] (Rev.v): the cursor [b] lies before the cursor [a], and not within the leaf of [a] behind its first
    position.  update then calls the function on everything from [a] to the end of the tree ([R]). *)
Theorem C55_update_refuted (B : BTreeTrait) (L : Lawful B) (S0 : Type) (fu : S0 -> Elem B -> S0 * Elem B * option (Diff B)) ord (t : btree B) xs (a b : cursor) ea eb s :
  Tree L t xs -> Fits t a b -> (cu_leaf a, ea) ∈ xs -> cu_offset a <= rle_len ea -> (cu_leaf b, eb) ∈ xs -> cu_offset b <= rle_len eb ->
  cur_rev xs a b -> (forall l, ord l ≡ₚ l) -> upd_sound L fu ->
  exists A Z A1 R t', let fr n := anext (leaf_nodes t) <= n < anext (leaf_nodes t') in
    Cut fr xs b A Z /\ Cut fr (A ++ Z) a A1 R /\
    update ord t a b fu s = Ok (cut_new xs A Z ++ cut_new (A ++ Z) A1 R, (upd_run fu s R).1, t') /\
    Tree L t' (A1 ++ upd_keep (upd_run fu s R).2) /\ anext (leaf_nodes t) <= anext (leaf_nodes t').
Proof. exact (t_update_rev L fu ord t xs a b ea eb s). Qed.
Print Assumptions C55_update_refuted.
(** iter_range then yields everything from [a] to the end of the tree *)
Theorem C55_iter_range_refuted (B : BTreeTrait) (L : Lawful B) (t : btree B) X la ea Y oa lb ob : Tree L t (X ++ (la, ea) :: Y) -> Shallow t 9 -> lb ∈ X.*1 ->
  forall bd, bd = Included (mkCur lb ob) \/ bd = Excluded (mkCur lb ob) ->
  iter_range t (Included (mkCur la oa)) bd = Ok (mkES (mkCur la 0) ea (Some oa) None :: map (fun x => mkES (mkCur (fst x) 0) (snd x) None None) Y).
Proof. exact (t_iter_range_rev L t X la ea Y oa lb ob). Qed.
Print Assumptions C55_iter_range_refuted.
(** and drain can remove it *)
Theorem C55_drain_refuted : exists t l t', @from_iter RT (map gbs [[0]; [1]; [2]; [3]; [4]]) = Ok t /\
  @drain_range RT t (qr0 3 0) (qr0 1 0) 2 = Ok (l, t') /\ map to_vec l = [[3]; [4]] /\ contents t' = Ok [[0]; [1]; [2]] /\ check t' = Ok tt.
Proof. exact demo_rev_drain. Qed.
Print Assumptions C55_drain_refuted.

Example C55_example : exists (t : btree RT) (xs : list (nat * Elem RT)) (ea eb : Elem RT), Tree RL t xs /\ Fits t (mkCur 9 2) (mkCur 3 1) /\ Shallow t 9 /\
  (3, ea) ∈ xs /\ 1 < @rle_len RT ea /\ (9, eb) ∈ xs /\ 2 < @rle_len RT eb /\ cur_rev xs (mkCur 9 2) (mkCur 3 1) /\ length xs = 14.
Proof. exact demo_rev. Qed.
Example C55_update_example : exists t sl t', push_all (B := RT) bt_new dgb = Ok t /\ update (fun l => l) t (mkCur 9 2) (mkCur 3 1) dfu 0 = Ok (sl, 5, t') /\
  contents t' = Ok (take 3 dseq ++ [[20]; [21; 22]] ++ take 5 (drop 4 dseq) ++ [[50; 51]; [9]; [9]; [9]; [9]; [9]]).
Proof. exact demo_rev_update. Qed.
