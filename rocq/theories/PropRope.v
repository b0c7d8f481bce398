(** PropRope.v — the rope as a byte string (C32), Rope::clear (C33) and draining a range of
    positions (C08).

    Specification side (RopeP.v): [ins i x s] / [del st en s] are the edits of a plain list of bytes;
    [sedit]/[str_run] apply one edit / a history to a string; [fits]: every insertion position is at
    most the current length.  [rope_run] performs the history on a rope.  [RopeOf CAP r s]: the rope's
    tree is intact, the concatenation of its leaves is [s], no leaf is empty, the cached cursor, if
    any, names a leaf and the position it starts at, and inner nodes off the left spine have at least
    five children ([MDw true], used in PropThick.v). *)
From Verif Require Import Demo4.

(** ** C32 *)
Theorem C32_new CAP : RopeOf CAP (rope_new CAP) [].
Proof. exact (rope_new_ok CAP). Qed.
Print Assumptions C32_new.
Theorem C32_insert CAP (r : rope CAP) s i x : 0 < CAP -> RopeOf CAP r s -> i <= length s ->
  exists r', rope_insert CAP r i x = Ok r' /\ RopeOf CAP r' (take i s ++ x ++ drop i s).
Proof. exact (fun H => rope_insert_ok CAP H r s i x). Qed.
Print Assumptions C32_insert.
Theorem C32_insert_out_of_bounds CAP (r : rope CAP) s i x : 0 < CAP -> RopeOf CAP r s -> length s < i -> rope_insert CAP r i x = Panic.
Proof. exact (fun H => rope_insert_oob CAP H r s i x). Qed.
Print Assumptions C32_insert_out_of_bounds.
Theorem C32_delete_range CAP (r : rope CAP) s st en : 0 < CAP -> RopeOf CAP r s -> Shallow (rp_tree CAP r) 7 ->
  exists r', rope_delete_range CAP r st en = Ok r' /\ RopeOf CAP r' (take (Nat.min st en) s ++ drop en s).
Proof. exact (fun H => rope_delete_ok CAP H r s st en). Qed.
Print Assumptions C32_delete_range.
(** without the bound on the depth: the right string, or a panic of the call on a tree deeper than 7 *)
Theorem C32_delete_range_any CAP (r : rope CAP) s st en : 0 < CAP -> RopeOf CAP r s ->
  (exists r', rope_delete_range CAP r st en = Ok r' /\ RopeOf CAP r' (take (Nat.min st en) s ++ drop en s)) \/
  (~ Shallow (rp_tree CAP r) 7 /\ rope_delete_range CAP r st en = Panic).
Proof. exact (fun H => rope_delete_any CAP H r s st en). Qed.
Print Assumptions C32_delete_range_any.
Theorem C32_to_string CAP (r : rope CAP) s : 0 < CAP -> RopeOf CAP r s -> Shallow (rp_tree CAP r) 9 -> rope_to_bytes CAP r = Ok s.
Proof. exact (fun H => rope_to_bytes_ok CAP H r s). Qed.
Print Assumptions C32_to_string.
Theorem C32_len CAP (r : rope CAP) s : 0 < CAP -> RopeOf CAP r s ->
  rope_len CAP r = length s /\ rope_is_empty CAP r = bool_decide (s = []).
Proof. exact (fun H HR => conj (rope_len_ok CAP H r s HR) (rope_empty_ok CAP H r s HR)). Qed.
Print Assumptions C32_len.
(** whole histories of edits of a new rope whose tree stays at most 7 levels deep *)
Theorem C32_history CAP (os : list redit) : 0 < CAP -> fits os [] ->
  (forall os1 os2 r', os = os1 ++ os2 -> rope_run CAP os1 (rope_new CAP) = Ok r' -> Shallow (rp_tree CAP r') 7) ->
  exists r, rope_run CAP os (rope_new CAP) = Ok r /\ rope_to_bytes CAP r = Ok (str_run os []) /\
    rope_len CAP r = length (str_run os []) /\ rope_is_empty CAP r = bool_decide (str_run os [] = []) /\ rope_check CAP r = Ok tt.
Proof. exact (fun H => rope_history CAP H os). Qed.
Print Assumptions C32_history.
(** any history: the right string, or a panic of a deletion on a tree deeper than 7 *)
Theorem C32_history_any CAP (os : list redit) : 0 < CAP -> fits os [] ->
  (exists r, rope_run CAP os (rope_new CAP) = Ok r /\ RopeOf CAP r (str_run os [])) \/
  (rope_run CAP os (rope_new CAP) = Panic /\ exists os1 st en os2 r1, os = os1 ++ RDel st en :: os2 /\
     rope_run CAP os1 (rope_new CAP) = Ok r1 /\ RopeOf CAP r1 (str_run os1 []) /\ ~ Shallow (rp_tree CAP r1) 7).
Proof. exact (fun H => rope_run_any CAP H os (rope_new CAP) [] (rope_new_ok CAP)). Qed.
Print Assumptions C32_history_any.
(** histories of insertions: no bound on the depth *)
Theorem C32_insert_history CAP (os : list redit) : 0 < CAP -> fits os [] -> (forall o, o ∈ os -> exists i x, o = RIns i x) ->
  exists r, rope_run CAP os (rope_new CAP) = Ok r /\ RopeOf CAP r (str_run os []) /\ rope_len CAP r = length (str_run os []).
Proof. exact (fun H => rope_inserts CAP H os). Qed.
Print Assumptions C32_insert_history.
(** eleven edits, leaves of at most four bytes *)
Example C32_example : fits demo_edits [] /\
  (forall os1 os2 r', demo_edits = os1 ++ os2 -> rope_run 4 os1 (rope_new 4) = Ok r' -> Shallow (rp_tree 4 r') 7) /\
  str_run demo_edits [] = [1; 2; 202; 203; 204; 205; 206; 207; 208; 3; 4; 48; 49; 50; 51; 52; 53; 54; 7].
Proof. exact (conj demo_edits_fit demo_edits_ok). Qed.

(** ** C33.  Only for a rope without cached cursor; with one the claim is false
    (PropRefuted.v, C33_rope_clear_refuted). *)
Theorem C33_clear_partial CAP (r : rope CAP) : rp_cursor CAP r = None -> rope_clear CAP r = rope_new CAP.
Proof. exact (rope_clear_new CAP r). Qed.
Print Assumptions C33_clear_partial.
Example C33_example : exists r, rope_insert 4 (rope_new 4) 0 (repeat 1 6) = Ok r /\ rp_cursor 4 r = None /\ rope_len 4 r = 6.
Proof. exact demo_clear. Qed.

(** ** C08 for positions: drain_by_query with the length query.  [p]/[q] are positions; the units of
    the drained elements are exactly those in between, and the rest stays, for every number [k] of
    [next] calls.  The only other outcome is a panic, on trees deeper than 7.  Excluded, as in
    C08_drain: zero-length elements and ranges starting at the end of the tree. *)
Theorem C08_drain_by_query (B : BTreeTrait) (L : Lawful B) (U : Type) (F : Flatten L U) get_len (HL : LenCache L get_len)
  (t : btree B) xs p q : Tree L t xs -> NZ xs -> p <= q -> q <= tlen xs -> p < tlen xs ->
  (exists M t' xs', (forall k : nat, drain_by_query (@LengthFinder B get_len) t (p : nat) (q : nat) k = Ok (take k M, t')) /\
    Tree L t' xs' /\ ft L F xs' = take p (ft L F xs) ++ drop q (ft L F xs) /\
    concat (map (fl F) M) = drop p (take q (ft L F xs)) /\ NZ xs') \/
  (~ Shallow t 7 /\ forall k : nat, drain_by_query (@LengthFinder B get_len) t (p : nat) (q : nat) k = Panic).
Proof. exact (t_drain_at_all L F get_len HL t xs p q). Qed.
Print Assumptions C08_drain_by_query.
Example C08_drain_by_query_example : exists (t : btree RT) (xs : list (nat * Elem RT)), LenCache RL rope_get_len /\ Tree RL t xs /\ Shallow t 7 /\ NZ xs /\ tlen xs = 49.
Proof. exact demo_drain_at. Qed.
