(** PropQuery.v — counting, handles, length queries, prefix visits, shift, clear.
    [tlen xs]: total length of the elements of [xs].
    [LenCache L get_len]: [get_len] reads the total length off an aggregate, the contract of
    [UseLengthFinder]. *)
From Verif Require Import Facts.

(** ** C13: every node of an intact tree has 1..11 children (the root may have none).  That the
    12-place vectors never overflow on the way is part of every [= Ok _] conclusion. *)
Theorem C13_fan_out (B : BTreeTrait) (L : Lawful B) (t : btree B) xs i n :
  Tree L t xs -> a_get (in_nodes t) i = Some n ->
  length (n_children n) <= 11 /\ (AInt i <> root t -> 1 <= length (n_children n)).
Proof. exact (fun T => t_fan L t xs T i n). Qed.
Print Assumptions C13_fan_out.

(** ** C15 *)
Theorem C15_node_len (B : BTreeTrait) (L : Lawful B) (t : btree B) xs :
  Tree L t xs ->
  (forall l, is_Some (a_get (leaf_nodes t) l) <-> l ∈ xs.*1) /\
  exists ks, NoDup ks /\ (forall i, i ∈ ks <-> Reach t (AInt i)) /\ node_len t = length ks + length xs.
Proof. exact (t_node_len L t xs). Qed.
Print Assumptions C15_node_len.

(** ** C16: a handle denotes the element paired with it in the content; the operation theorems
    say which pairs survive. *)
Theorem C16_get_elem (B : BTreeTrait) (L : Lawful B) (t : btree B) xs l e :
  Tree L t xs -> get_elem t l = Some e <-> (l, e) ∈ xs.
Proof. exact (fun T => t_get_elem L t xs l T e). Qed.
Print Assumptions C16_get_elem.
(** [clear] starts a fresh arena: a handle taken before it denotes a foreign leaf afterwards *)
Theorem C16_clear_refuted :
  exists (t : btree RT) l e t' l' e', push (bt_new (B := RT)) e = Ok (mkCur l 0, t) /\ push (clear t) e' = Ok (mkCur l' 0, t') /\
    get_elem t l = Some e /\ e <> e' /\ get_elem t' l = Some e'.
Proof. exact clear_alias. Qed.
Print Assumptions C16_clear_refuted.

(** ** C22.  Missing: cursors with offset = length, for which the claim is false
    (C22_shift_from_end_refuted). *)
Theorem C22_shift_partial (B : BTreeTrait) (L : Lawful B) (t : btree B) X l e Y off :
  Tree L t (X ++ (l, e) :: Y) -> off < rle_len e ->
  shift_path_by_one_offset t (mkCur l off) =
    Ok (if decide (off + 1 < rle_len e) then Some (mkCur l (off + 1))
        else (fun y => mkCur (fst y) 0) <$> head (filter (fun y => 0 < rle_len (snd y)) Y)).
Proof. exact (t_shift L t X l e Y off). Qed.
Print Assumptions C22_shift_partial.

(** ** C23 *)
Theorem C23_query_inside (B : BTreeTrait) (L : Lawful B) get_len (t : btree B) X l e Y k :
  LenCache L get_len -> Tree L t (X ++ (l, e) :: Y) -> k < rle_len e ->
  query (LengthFinder get_len) t (tlen X + k) = Ok (Some (mkQR (mkCur l k) true)).
Proof. exact (t_len_query_in L get_len t X l e Y k). Qed.
Print Assumptions C23_query_inside.
Theorem C23_query_past_end (B : BTreeTrait) (L : Lawful B) get_len (t : btree B) X l e k :
  LenCache L get_len -> Tree L t (X ++ [(l, e)]) -> rle_len e <= k ->
  query (LengthFinder get_len) t (tlen X + k) = Ok (Some (mkQR (mkCur l k) false)).
Proof. exact (fun HL T => t_len_query_end L get_len t X l e HL T k). Qed.
Print Assumptions C23_query_past_end.
Theorem C23_query_empty (B : BTreeTrait) (L : Lawful B) (Q : Query B) (t : btree B) q :
  Tree L t [] -> query_with_finder_return Q t q = Ok (None, q_init Q q).
Proof. exact (t_query_empty L Q t q). Qed.
Print Assumptions C23_query_empty.
(** the length caches of the shipped traits meet the contract *)
Theorem C23_rope (CAP : nat) : LenCache (RopeLaw CAP) rope_get_len.
Proof. exact (rope_LenCache CAP). Qed.
Print Assumptions C23_rope.
Theorem C23_range_num_map : LenCache RNMLaw (fun c => c).
Proof. exact rnm_LenCache. Qed.
Print Assumptions C23_range_num_map.

(** ** C24: the caches handed out cover disjoint consecutive blocks of the prefix *)
Theorem C24_visit (B : BTreeTrait) (L : Lawful B) (t : btree B) X l e Y off :
  Tree L t (X ++ (l, e) :: Y) -> Shallow t 9 ->
  exists cs, visit_previous_caches t (mkCur l off) = Ok (map NodeCache cs ++ [ThisElemAndOffset e off]) /\
    exists ss, Forall2 (fun u s => s <> [] /\ u = agg L s) cs ss /\ concat ss = X.
Proof. exact (t_visit L t X l e Y off). Qed.
Print Assumptions C24_visit.
Theorem C24_visit_aggregate (B : BTreeTrait) (L : Lawful B) (t : btree B) X l e Y off :
  Tree L t (X ++ (l, e) :: Y) -> Shallow t 9 ->
  exists cs, visit_previous_caches t (mkCur l off) = Ok (map NodeCache cs ++ [ThisElemAndOffset e off]) /\
    summ L (cs ++ [get_elem_cache e]) = agg L (X ++ [(l, e)]).
Proof. exact (t_visit_agg L t X l e Y off). Qed.
Print Assumptions C24_visit_aggregate.
Theorem C24_visit_length (B : BTreeTrait) (L : Lawful B) get_len (t : btree B) X l e Y off :
  LenCache L get_len -> Tree L t (X ++ (l, e) :: Y) -> Shallow t 9 ->
  exists cs, visit_previous_caches t (mkCur l off) = Ok (map NodeCache cs ++ [ThisElemAndOffset e off]) /\
    sum_list (map get_len cs) = tlen X.
Proof. exact (t_visit_len L get_len t X l e Y off). Qed.
Print Assumptions C24_visit_length.
(** hypotheses of all the theorems above: the sixth of fourteen leaves *)
Example C22_C24_example : exists (t : btree RT) (X : list (nat * Elem RT)) (e : Elem RT) (Y : list (nat * Elem RT)),
  Tree RL t (X ++ (5, e) :: Y) /\ MD t /\ Shallow t 9 /\ length X = 5 /\ length Y = 8 /\
  to_vec e = [30; 31; 32] /\ @rle_len RT e = 3 /\ evalid RL (gbs [1; 2]).
Proof. exact demo_mid. Qed.

(** ** C40 *)
Theorem C40_clear (B : BTreeTrait) (L : Lawful B) (t : btree B) :
  Tree L (clear t) [] /\ clear t = bt_new /\ node_len (clear t) = 1 /\ root_cache (clear t) = cache_default /\
  is_empty (clear t) = Ok true.
Proof. exact (t_clear L t). Qed.
Print Assumptions C40_clear.
