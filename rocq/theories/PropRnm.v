(** PropRnm.v — update on sequences of units (C07), and the range map of the test-suite (C49, C50).
    Specification ([arr_reserve], [arr_fill], [arr_map], [arr_run], [Describes], [Gapless]): Rnm.v,
    functions on lists of optional numbers. *)
From Verif Require Import Demo23.

(** ** C07 seen as a sequence of units: [update] over the positions [p .. q) with a function that
    maps units to units changes exactly these; the only other outcome is a panic on trees deeper than 7 *)
Theorem C07_units (B : BTreeTrait) (L : Lawful B) (U : Type) (F : Flatten L U) (S0 : Type)
    (fu : S0 -> Elem B -> S0 * Elem B * option (Diff B)) (g : U -> U) ord (t : btree B) xs a b p q s :
  Tree L t xs -> CurAt xs a p -> CurAt xs b q -> (p < q \/ a = b) -> (forall l, ord l ≡ₚ l) -> upd_sound L fu ->
  (forall s e, evalid L e -> fl F (fu s e).1.2 = map g (fl F e)) ->
  (exists new s' t' xs', update ord t a b fu s = Ok (new, s', t') /\ Tree L t' xs' /\
    ft L F xs' = take p (ft L F xs) ++ map g (drop p (take q (ft L F xs))) ++ drop q (ft L F xs) /\ Keep p xs xs') \/
  (~ Shallow t 7 /\ update ord t a b fu s = Panic).
Proof. exact (fs_update L F fu g ord t xs a b p q s). Qed.
Print Assumptions C07_units.

(** ** C49: RangeNumMap is an array of optional numbers *)
Theorem C49_new : RnmOf rnm_new [].
Proof. exact rnm_new_ok. Qed.
Print Assumptions C49_new.
Theorem C49_insert ord m u st en v : (forall l, ord l ≡ₚ l) -> RnmOf m u -> st <= en -> 0 < en \/ u <> [] ->
  (exists m', rnm_insert ord m st en v = Ok m' /\ RnmOf m' (arr_fill (arr_reserve u en) st en v)) \/
  (rnm_insert ord m st en v = Panic /\ exists m1, rnm_reserve m en = Ok m1 /\ ~ Shallow m1 7).
Proof. exact (rnm_insert_ok ord m u st en v). Qed.
Print Assumptions C49_insert.
Theorem C49_plus ord m u st en c : (forall l, ord l ≡ₚ l) -> RnmOf m u -> st <= en ->
  (exists m', rnm_plus ord m st en c = Ok m' /\ RnmOf m' (arr_map (fmap (fun x => (x + c)%Z)) (arr_reserve u en) st en)) \/
  (rnm_plus ord m st en c = Panic /\ exists m1, rnm_reserve m en = Ok m1 /\ ~ Shallow m1 7).
Proof. exact (rnm_plus_ok ord m u st en c). Qed.
Print Assumptions C49_plus.
Theorem C49_drain m u st en : RnmOf m u -> st <= en -> en <= length u -> st < length u ->
  (exists ps m', rnm_drain m st en = Ok (ps, m') /\ RnmOf m' (take st u ++ drop en u) /\ Gapless st ps (omap id (drop st (take en u)))) \/
  (rnm_drain m st en = Panic /\ ~ Shallow m 7).
Proof. exact (rnm_drain_ok m u st en). Qed.
Print Assumptions C49_drain.
Theorem C49_get m u i : RnmOf m u -> rnm_get m i = Ok (mjoin (u !! i)) /\ rnm_len m = length u.
Proof. exact (fun HR => conj (rnm_get_ok m u i HR) (rnm_len_ok m u HR)). Qed.
Print Assumptions C49_get.
(** histories of calls; [mops_ok]: ranges the right way round, drains inside the array, and no
    insertion over 0..0 into an empty map *)
Theorem C49_history ord (os : list mop) : (forall l, ord l ≡ₚ l) -> mops_ok os [] ->
  (exists m, mrun ord os rnm_new = Ok m /\ RnmOf m (arr_run os [])) \/
  (mrun ord os rnm_new = Panic /\ exists os1 o os2 m1, os = os1 ++ o :: os2 /\ mrun ord os1 rnm_new = Ok m1 /\
     RnmOf m1 (arr_run os1 []) /\ TooDeep o m1).
Proof. exact (fun H => mrun_any ord H os rnm_new [] rnm_new_ok). Qed.
Print Assumptions C49_history.
Example C49_example : mops_ok mdemo [] /\ exists m : rnm, mrun (fun l => l) mdemo rnm_new = Ok m /\ RnmOf m (arr_run mdemo []) /\ Shallow m 9 /\
  take 14 (arr_run mdemo []) = [None; Some 8; Some 10; Some 13; Some 13; Some 13; Some 13; None; None; Some (-2); None; None; None; Some 1]%Z /\ length (arr_run mdemo []) = 37.
Proof. exact mdemo_ok. Qed.

(** histories that keep the array, with the room reserved by the calls, within 5^7 entries ([MFits]) never panic *)
Theorem C49_short ord (os : list mop) : (forall l, ord l ≡ₚ l) -> mops_ok os [] -> MFits (5 ^ 7) os [] ->
  exists m ps, mrun ord os rnm_new = Ok m /\ RnmOf m (arr_run os []) /\ (forall i, rnm_get m i = Ok (mjoin (arr_run os [] !! i))) /\
    rnm_iter m = Ok ps /\ Gapless 0 ps (omap id (arr_run os [])).
Proof. exact (rnm_history_short ord os). Qed.
Print Assumptions C49_short.
Example C49_short_example : mops_ok mdemo [] /\ MFits (5 ^ 7) mdemo [].
Proof. exact mdemo_fits. Qed.

(** What [mops_ok] excludes: an insertion over 0..0 into an empty map is not without effect.  It leaves an element of
    length 0 that the iterator reports from then on; the array is unharmed. *)
Theorem C49_empty_insert :
  (let? m1 := mrun (fun l => l) [MIns 0 0 7%Z] rnm_new in let? m2 := mrun (fun l => l) [MIns 2 5 9%Z] m1 in
   let? i1 := rnm_iter m1 in let? i2 := rnm_iter m2 in Ok (i1, i2, map (rnm_get m2) (seq 0 16), rnm_len m2)) =
  Ok ([(0, 0, 7%Z)], [(0, 0, 7%Z); (0, 3, 9%Z)], map Ok ([None; None; Some 9%Z; Some 9%Z; Some 9%Z] ++ replicate 11 None), 15).
Proof. exact empty_insert. Qed.
Print Assumptions C49_empty_insert.

(** ** C50: its iterator lists the values in order; the ranges it reports are right only if the
    entries without value all come last.  Missing: the indices after an entry without value. *)
Theorem C50_values_partial m u : RnmOf m u -> Shallow m 9 -> exists ps, rnm_iter m = Ok ps /\ Gapless 0 ps (omap id u).
Proof. exact (rnm_iter_ok m u). Qed.
Print Assumptions C50_values_partial.
Theorem C50_ranges_partial m w n : RnmOf m ((Some <$> w) ++ replicate n None) -> Shallow m 9 ->
  exists ps, rnm_iter m = Ok ps /\ Describes 0 ((Some <$> w) ++ replicate n None) ps.
Proof. exact (rnm_iter_full m w n). Qed.
Print Assumptions C50_ranges_partial.
(** after insert(1..10, 7) into an empty map, iter reports 0..9, but index 0 has no value *)
Theorem C50_iter_refuted : exists m : rnm, rnm_insert (fun l => l) rnm_new 1 10 7 = Ok m /\ rnm_iter m = Ok [(0, 9, 7%Z)] /\
  rnm_get m 0 = Ok None /\ rnm_get m 9 = Ok (Some 7%Z).
Proof. exact iter_wrong. Qed.
Print Assumptions C50_iter_refuted.
Example C50_example : exists m : rnm, RnmOf m ((Some <$> [1; 1; 1; 2; 2]%Z) ++ replicate 8 None) /\ Shallow m 9.
Proof. exact mdemo_iter. Qed.
