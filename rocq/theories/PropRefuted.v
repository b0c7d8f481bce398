(** PropRefuted.v — claims that are false of the code, each with a concrete run. *)
From Verif Require Import Rope OrdMap Refuted.

Theorem C03_prepend_empty_refuted :
  exists c t, @prepend RT bt_new (gbs [1; 1]) = Ok (c, t)
    /\ contents t = Ok [[1; 1]] /\ root_cache t = 0%Z /\ check t = Panic.
Proof. exact prepend_empty_cache. Qed.
Print Assumptions C03_prepend_empty_refuted.

Theorem C10_drain_empty_tree_refuted (B : BTreeTrait) (Q : Query B) (a b : QArg Q) (k : nat) :
  drain_by_query Q (@bt_new B) a b k = Panic.
Proof. exact (drain_empty_panics B Q a b k). Qed.
Print Assumptions C10_drain_empty_tree_refuted.

Theorem C10_drain_empty_range_at_end_refuted :
  exists t, pushes bt_new [[1; 1]; [2; 2; 2; 2]] = Ok t
    /\ drain_by_query (RopeFinder 4) t 6 6 0 = Panic.
Proof. exact drain_end_panics. Qed.
Print Assumptions C10_drain_empty_range_at_end_refuted.

Theorem C22_shift_from_end_refuted :
  exists t, pushes bt_new (repeat [1; 1; 1; 1] 12) = Ok t
    /\ @shift_path_by_one_offset RT t (mkCur 5 4) = Ok (Some (mkCur 6 0))
    /\ @shift_path_by_one_offset RT t (mkCur 4 4) = Ok (Some (mkCur 5 1)).
Proof. exact shift_from_end. Qed.
Print Assumptions C22_shift_from_end_refuted.

Theorem C26_unbounded_empty_refuted (B : BTreeTrait) :
  @iter_range B bt_new Unbounded Unbounded = Panic /\ @depth B bt_new = Panic.
Proof. exact (unbounded_empty B). Qed.
Print Assumptions C26_unbounded_empty_refuted.

Theorem C28_insert_many_empty_refuted :
  @insert_many_by_cursor RT bt_new None [gbs [1; 1; 1; 1]; gbs [2; 2; 2; 2]] = Panic.
Proof. exact insert_many_empty_panics. Qed.
Print Assumptions C28_insert_many_empty_refuted.

Theorem C28_insert_many_place_refuted :
  exists t t', pushes bt_new [[1]; [2; 3; 4; 5]] = Ok t
    /\ @insert_many_by_cursor RT t (Some (mkCur 1 2)) [gbs [8]; gbs [9; 9; 9; 9]] = Ok t'
    /\ contents t' = Ok [[1; 8]; [2; 3]; [9; 9; 9; 9]; [4; 5]].
Proof. exact insert_many_wrong_place. Qed.
Print Assumptions C28_insert_many_place_refuted.

Theorem C29_merge_adj_refuted :
  exists l, @merge_adj RT (map gbs [[1]; [2]; [3; 3; 3]; [4; 4]; [5]]) = Ok l
    /\ map to_vec l = [[1; 2]; [4; 4; 5]; [3; 3; 3]].
Proof. exact merge_adj_reorders. Qed.
Print Assumptions C29_merge_adj_refuted.

Theorem C31_empty_range_panics_refuted :
  exists t, pushes bt_new [[1; 2; 3; 4]] = Ok t
    /\ @update_leaves_with_arg_in_ranges RT nat paint (fun x => x) (fun x => x) t
         [(0, (0, 0, 7))] = Panic.
Proof. exact ranges_empty_panics. Qed.
Print Assumptions C31_empty_range_panics_refuted.

Theorem C31_empty_range_misapplied_refuted :
  exists t ls t', pushes bt_new [[1; 2; 3; 4]] = Ok t
    /\ @update_leaves_with_arg_in_ranges RT nat paint (fun x => x) (fun x => x) t
         [(0, (0, 0, 7)); (0, (2, 3, 9))] = Ok (ls, t')
    /\ contents t' = Ok [[7; 7; 9; 4]].
Proof. exact ranges_empty_misapplied. Qed.
Print Assumptions C31_empty_range_misapplied_refuted.

Theorem C33_rope_clear_refuted :
  exists r r', rope_insert 4 (rope_new 4) 0 (repeat 1 6) = Ok r
    /\ rope_insert 4 r 5 [7] = Ok r'
    /\ (let? x := rope_insert 4 (rope_clear 4 r') 0 (repeat 2 4) in rope_insert 4 x 4 [9]) = Panic
    /\ (let? x := rope_insert 4 (rope_new 4) 0 (repeat 2 4) in
        let? x := rope_insert 4 x 4 [9] in rope_to_bytes 4 x) = Ok [2; 2; 2; 2; 9].
Proof. exact rope_clear_panics. Qed.
Print Assumptions C33_rope_clear_refuted.

Theorem C37_delete_absent_refuted :
  exists m m', om_insert Nat.compare (om_new Nat.compare) 5 50 = Ok m
    /\ om_delete Nat.compare m 3 = Ok (Some (5, 50), m')
    /\ om_iter Nat.compare m' = Ok [].
Proof. exact ord_delete_absent. Qed.
Print Assumptions C37_delete_absent_refuted.

Theorem C43_update_zero_length_refuted :
  exists t t' l, pushes bt_new [[1; 2; 3; 4]] = Ok t
    /\ @update RT nat (fun x => x) t (mkCur 0 1) (mkCur 0 1) (fun n e => (S n, e, None)) 0
       = Ok (l, 0, t').
Proof. exact update_zero_length. Qed.
Print Assumptions C43_update_zero_length_refuted.

Theorem C44_drain_zero_length_refuted :
  exists t t' l, @from_iter RT (repeat (gbs [1]) 99 ++ [gb_new 4; gbs [1]]) = Ok t
    /\ check t = Ok tt
    /\ @drain_range RT t (qr0 5 0) (qr0 99 0) 0 = Ok (l, t')
    /\ contents t' = Ok [[1]; [1]; [1]; [1]; [1]; []; [1]]
    /\ root_cache t' = 15%Z /\ check t' = Panic.
Proof. exact drain_zero_length. Qed.
Print Assumptions C44_drain_zero_length_refuted.

Theorem C45_ord_delete_last_refuted :
  exists m m' e, om_insert Nat.compare (om_new Nat.compare) 5 50 = Ok m
    /\ om_delete Nat.compare m 5 = Ok (Some e, m')
    /\ om_iter Nat.compare m' = Ok []
    /\ root_cache (om_tree Nat.compare m') = Some (5, 5)
    /\ check (om_tree Nat.compare m') = Panic.
Proof. exact ord_delete_last_check. Qed.
Print Assumptions C45_ord_delete_last_refuted.
