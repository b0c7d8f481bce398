(** PropMore.v — shift_path_by_one_offset from any offset (C22), Rope::clear (C33), deleting any key
    (C37, C36), the ordered map emptied by deletions (C45), Rope::to_string (C51), slots (C13). *)
From Verif Require Import Demo14 Slots.

(** ** C13: [parent_slot] is a u8 in the code *)
Theorem C13_slots (B : BTreeTrait) (L : Lawful B) (t : btree B) xs i n : Tree L t xs -> a_get (in_nodes t) i = Some n -> AInt i <> root t ->
  exists p pn c, n_parent n = Some (AInt p) /\ a_get (in_nodes t) p = Some pn /\ n_children pn !! n_slot n = Some c /\
    c_arena c = AInt i /\ n_slot n <= 10.
Proof. exact (t_slots L t xs i n). Qed.
Print Assumptions C13_slots.

(** ** C22 from any offset.  [seek r xs]: the unit number [r] of [xs] ([Some] cursor strictly inside an
    element, [None] if there are at most [r] units); [par t l]: the node above leaf [l].  The leaves right of the cursor's leaf
    split into those under the same node and the others.  Missing from C22: [C22_shift_right_partial] needs the
    units up to the new position minus one to lie under the cursor's node; otherwise
    [C22_shift_lost_refuted] shows that the position reached is the start of the next node. *)
Theorem C22_shift_any_partial (B : BTreeTrait) (L : Lawful B) (t : btree B) X l e Y off : Tree L t (X ++ (l, e) :: Y) -> exists Y1 Y2, Y = Y1 ++ Y2 /\
  (forall y, y ∈ Y1 -> par t (fst y) = par t l) /\ (forall y, y ∈ Y2 -> par t (fst y) <> par t l) /\
  shift_path_by_one_offset t (mkCur l off) =
    Ok (match seek (off + 1) ((l, e) :: Y1) with Some c => Some c | None => seek 0 Y2 end).
Proof. exact (t_shift_any L t X l e Y off). Qed.
Print Assumptions C22_shift_any_partial.
Theorem C22_shift_right_partial (B : BTreeTrait) (L : Lawful B) (t : btree B) X l e Y1 Y2 off : Tree L t (X ++ (l, e) :: Y1 ++ Y2) ->
  (forall y, y ∈ Y1 -> par t (fst y) = par t l) -> off + 1 <= tlen ((l, e) :: Y1) ->
  shift_path_by_one_offset t (mkCur l off) = Ok (seek (off + 1) ((l, e) :: Y1 ++ Y2)).
Proof. exact (t_shift_right L t X l e Y1 Y2 off). Qed.
Print Assumptions C22_shift_right_partial.
Theorem C22_shift_lost_refuted (B : BTreeTrait) (L : Lawful B) (t : btree B) X l e Y1 Y2 off : Tree L t (X ++ (l, e) :: Y1 ++ Y2) ->
  (forall y, y ∈ Y1 -> par t (fst y) = par t l) -> (forall y, head Y2 = Some y -> par t (fst y) <> par t l) ->
  tlen ((l, e) :: Y1) <= off + 1 ->
  shift_path_by_one_offset t (mkCur l off) = Ok (seek 0 Y2).
Proof. exact (t_shift_lost L t X l e Y1 Y2 off). Qed.
Print Assumptions C22_shift_lost_refuted.
(** offsets 3 (right) and 10 (lost) on this tree meet the hypotheses *)
Example C22_any_example : exists (t : btree RT) (X : list (nat * Elem RT)) (e : Elem RT) (Y1 Y2 : list (nat * Elem RT)),
  Tree RL t (X ++ (3, e) :: Y1 ++ Y2) /\ length Y1 = 2 /\ length Y2 = 8 /\ @rle_len RT e = 3 /\ tlen ((3, e) :: Y1) = 10 /\
  (forall y, y ∈ Y1 -> par t (fst y) = par t 3) /\ (forall y, y ∈ Y2 -> par t (fst y) <> par t 3).
Proof. exact demo_shift. Qed.

(** ** C33: the cursor cached before clear is used after it.  If the leaf it names is missing from the new
    tree, edits behind its position panic; if the new tree has a leaf of that name, edits go astray. *)
Theorem C33_stale_cursor_refuted CAP (r : rope CAP) s r1 pos l : 0 < CAP -> rp_cursor CAP r = Some (mkRC pos l) -> s <> [] ->
  rope_insert CAP (rope_clear CAP r) 0 s = Ok r1 -> a_get (leaf_nodes (rp_tree CAP r1)) l = None ->
  rope_len CAP r1 = length s /\
  (forall i x, pos <= i -> i <= length s -> rope_insert CAP r1 i x = Panic) /\
  (forall st en, pos <= st -> st < en -> st < length s -> rope_delete_range CAP r1 st en = Panic).
Proof. exact (fun H => clear_stale_panics CAP H r s r1 pos l). Qed.
Print Assumptions C33_stale_cursor_refuted.
Example C33_stale_example : exists r r1, stale = Ok r /\ rp_cursor 4 r = Some (mkRC 2 1) /\ rope_insert 4 (rope_clear 4 r) 0 [5; 6; 7] = Ok r1 /\
  a_get (leaf_nodes (rp_tree 4 r1)) 1 = None.
Proof. exact clear_stale_demo. Qed.
Theorem C33_silent_refuted : exists r, stale = Ok r /\ rope_to_bytes 4 r = Ok [1; 1; 1; 7; 1] /\
  (let? x := rope_insert 4 (rope_clear 4 r) 0 [0; 1; 2; 3; 4; 5; 6; 7] in let? x := rope_insert 4 x 3 [9] in rope_to_bytes 4 x) = Ok [0; 1; 2; 3; 4; 9; 5; 6; 7] /\
  (let? x := rope_insert 4 (rope_clear 4 r) 0 [0; 1; 2; 3; 4; 5; 6; 7] in let? x := rope_delete_range 4 x 3 4 in rope_to_bytes 4 x) = Ok [0; 1; 2; 3; 4; 6; 7].
Proof. exact clear_silent. Qed.
Print Assumptions C33_silent_refuted.

(** ** C36, C37, C45 *)
Section p.
Context {Key Value : Type} {kcmp : Key -> Key -> comparison} (TO : TOrd kcmp).
(** deleting any key: the removed entry is the one with that key or, if there is none, next to the gap *)
Theorem C37_delete_near_partial (m : omap_t Key Value kcmp) s k : MapOf TO m s -> s <> [] ->
  exists s1 e s2 m', s = s1 ++ e :: s2 /\ (forall a, a ∈ s1 -> kcmp (fst a) k = Lt) /\ (forall a, a ∈ s2 -> kcmp k (fst a) = Lt) /\
    om_delete kcmp m k = Ok (Some e, m') /\ MapOf TO m' (s1 ++ s2).
Proof. exact (t_om_delete_near TO m s k). Qed.
(** no sequence of insertions and deletions of any keys, present or not, panics *)
Theorem C36_total (os : list (@mop Key Value)) (m : omap_t Key Value kcmp) s : MapOf TO m s -> exists m' s', mrun (kcmp := kcmp) os m = Ok m' /\ MapOf TO m' s'.
Proof. exact (t_om_total TO os m s). Qed.
(** every map emptied by a deletion keeps the removed key in its root cache and fails its self-check *)
Theorem C45_emptied_refuted (m : omap_t Key Value kcmp) a k : MapOf TO m [a] ->
  exists m', om_delete kcmp m k = Ok (Some a, m') /\ MapOf TO m' [] /\
    root_cache (om_tree kcmp m') = Some (fst a, fst a) /\ check (om_tree kcmp m') = Panic.
Proof. exact (t_om_delete_last TO m a k). Qed.
End p.
Print Assumptions C37_delete_near_partial.
Print Assumptions C36_total.
Print Assumptions C45_emptied_refuted.
Example C45_example : exists m, mrun (kcmp := Nat.compare) [MIns 5 50; MIns 3 30; MDel 3] (om_new Nat.compare) = Ok m /\ MapOf nat_TO m [(5, 50)].
Proof. exact demo_one. Qed.

(** ** C51.  Specification (Utf8.v): [enc c] encodes a Unicode scalar value; [is_str bs]: [bs] is the
    encoding of a sequence of scalar values; [boundary bs p]: [p] lies between two of them; [whole os s]: every
    insertion of the history is of a string at a boundary, every deletion is between boundaries. *)
Theorem C51_check_is_utf8 bs : utf8_ok bs = true <-> exists cs, Forall scalar cs /\ bs = concat (map enc cs).
Proof. exact (utf8_ok_spec bs). Qed.
Print Assumptions C51_check_is_utf8.
Theorem C51_boundary bs p : is_str bs -> boundary bs p <-> p = length bs \/ exists b, bs !! p = Some b /\ (b < 128 \/ 192 <= b).
Proof. exact (boundary_spec bs p). Qed.
Print Assumptions C51_boundary.
Theorem C51_to_string CAP (r : rope CAP) s : 0 < CAP -> RopeOf CAP r s -> Shallow (rp_tree CAP r) 9 ->
  (is_str s /\ rope_to_string CAP r = Ok s) \/ (~ is_str s /\ rope_to_string CAP r = Panic).
Proof. exact (fun H => rope_to_string_ok CAP H r s). Qed.
Print Assumptions C51_to_string.
Theorem C51_history CAP (os : list redit) : 0 < CAP -> whole os [] ->
  (forall os1 os2 r', os = os1 ++ os2 -> rope_run CAP os1 (rope_new CAP) = Ok r' -> Shallow (rp_tree CAP r') 7) ->
  exists r, rope_run CAP os (rope_new CAP) = Ok r /\ rope_to_string CAP r = Ok (str_run os []) /\ is_str (str_run os []).
Proof. exact (fun H => rope_string_history CAP H os). Qed.
Print Assumptions C51_history.
(** text inserted inside a character: accepted, and to_string panics from then on *)
Theorem C51_inside CAP (r : rope CAP) s i x r' : 0 < CAP -> RopeOf CAP r s -> is_str s -> i <= length s -> ~ boundary s i -> is_str x -> x <> [] ->
  rope_insert CAP r i x = Ok r' -> Shallow (rp_tree CAP r') 9 -> rope_to_string CAP r' = Panic.
Proof. exact (fun H => rope_insert_inside CAP H r s i x r'). Qed.
Print Assumptions C51_inside.
Theorem C51_cut : (let? r := rope_insert 4 (rope_new 4) 0 [97; 195; 169] in let? r := rope_delete_range 4 r 1 2 in Ok (rope_to_bytes 4 r, rope_to_string 4 r)) =
  Ok (Ok [97; 169], Panic).
Proof. exact uni_cut. Qed.
Print Assumptions C51_cut.
(** characters of one to four bytes, cut across the leaves of a rope with buffers of four bytes *)
Example C51_example : whole uni_edits [] /\ uni_text = enc_all [97; 233; 8364; 128512; 122]%Z /\
  (forall os1 os2 r', uni_edits = os1 ++ os2 -> rope_run 4 os1 (rope_new 4) = Ok r' -> Shallow (rp_tree 4 r') 7) /\
  str_run uni_edits [] = [97; 195; 159; 195; 169; 226; 130; 172].
Proof. exact (conj uni_whole (conj uni_text_str (conj uni_shallow uni_result))). Qed.
Example C51_inside_example : exists r r', RopeOf 4 r uni_text /\ is_str uni_text /\ 5 <= length uni_text /\ ~ boundary uni_text 5 /\ is_str [98] /\
  rope_insert 4 r 5 [98] = Ok r' /\ Shallow (rp_tree 4 r') 9.
Proof. exact uni_inside. Qed.
