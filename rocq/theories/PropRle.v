(** PropRle.v — the provided methods of Sliceable (C39).
    [SliceLaw S valid fl]: what an implementation of [_slice], [slice_] and [split] must satisfy
    with respect to the content [fl]; it is proved of both implementations in the repository
    below.  [b_start lo], [b_end n hi]: the two ends of a Rust range. *)
From Verif Require Import Rle.

(** ** C39.  The parts in order ([parts r]: self, then the returned ones) are [pre], the result of
    the closure on a value [m] holding exactly the range, and [post]; the closure is called once,
    or not at all if the range is empty. *)
Theorem C39_update_with_split (T U : Type) (S : sliceable T) (valid : T -> Prop) (fl : T -> list U) x lo hi f :
  SliceLaw S valid fl -> valid x ->
  let n := length (fl x) in let st := b_start lo in let en := b_end n hi in
  (en <= st -> update_with_split S x lo hi f = Ok (x, (None, None))) /\
  (st < en -> en <= n -> exists r m pre post, update_with_split S x lo hi f = Ok r /\
    parts r = pre ++ [f m] ++ post /\ valid m /\ fl m = drop st (take en (fl x)) /\
    Forall valid (pre ++ post) /\ concat (map fl pre) = take st (fl x) /\ concat (map fl post) = drop en (fl x) /\
    length pre = Nat.min st 1 /\ length post = Nat.min (n - en) 1).
Proof. exact (update_with_split_ok S valid fl x lo hi f). Qed.
Print Assumptions C39_update_with_split.

Theorem C39_content (T U : Type) (S : sliceable T) (valid : T -> Prop) (fl : T -> list U) x lo hi f :
  SliceLaw S valid fl -> valid x -> b_start lo < b_end (length (fl x)) hi <= length (fl x) ->
  exists r m, update_with_split S x lo hi f = Ok r /\ fl m = drop (b_start lo) (take (b_end (length (fl x)) hi) (fl x)) /\
    concat (map fl (parts r)) = take (b_start lo) (fl x) ++ fl (f m) ++ drop (b_end (length (fl x)) hi) (fl x).
Proof. exact (update_with_split_content S valid fl x lo hi f). Qed.
Print Assumptions C39_content.

(** the provided slice with any bounds, and the provided split *)
Theorem C39_slice (T U : Type) (S : sliceable T) (valid : T -> Prop) (fl : T -> list U) x lo hi :
  SliceLaw S valid fl -> valid x -> b_start lo <= b_end (length (fl x)) hi <= length (fl x) ->
  exists y, slice_bounds S x lo hi = Ok y /\ valid y /\ fl y = drop (b_start lo) (take (b_end (length (fl x)) hi) (fl x)).
Proof. exact (slice_bounds_ok S valid fl x lo hi). Qed.
Print Assumptions C39_slice.

Theorem C39_default_split (T U : Type) (S : sliceable T) (valid : T -> Prop) (fl : T -> list U) x p :
  SliceLaw S valid fl -> valid x -> p <= sl_len S x ->
  exists l r, default_split (sl_len S) (sl_slice S) (sl_slice_ S) x p = Ok (l, r) /\ valid l /\ valid r /\
    fl l = take p (fl x) /\ fl r = drop p (fl x).
Proof. exact (default_split_ok S valid fl x p). Qed.
Print Assumptions C39_default_split.

(** the same with the bounds spelled out: [lo_ok lo i] and [hi_ok n hi i] say when a Rust range contains
    the position [i] of a value of length [n]; [Pick P l k]: [k] are the units of [l] at the positions
    satisfying [P] *)
Theorem C39_bounds n lo hi i : (b_start lo <= i <-> match lo with Incl a => a <= i | Excl a => a < i | Unb => True end) /\
  (i < b_end n hi <-> match hi with Incl b => i <= b | Excl b => i < b | Unb => i < n end).
Proof. exact (bounds_mean n lo hi i). Qed.
Print Assumptions C39_bounds.

Theorem C39_slice_picks (T U : Type) (S : sliceable T) (valid : T -> Prop) (fl : T -> list U) x lo hi : SliceLaw S valid fl -> valid x ->
  (exists i, lo_ok lo i /\ hi_ok (length (fl x)) hi i) -> (forall i, lo_ok lo i -> hi_ok (length (fl x)) hi i -> i < length (fl x)) ->
  exists y, slice_bounds S x lo hi = Ok y /\ valid y /\ Pick (fun i => lo_ok lo i /\ hi_ok (length (fl x)) hi i) (fl x) (fl y).
Proof. exact (slice_picks S valid fl x lo hi). Qed.
Print Assumptions C39_slice_picks.

Theorem C39_update_picks (T U : Type) (S : sliceable T) (valid : T -> Prop) (fl : T -> list U) x lo hi f : SliceLaw S valid fl -> valid x ->
  (forall i, lo_ok lo i -> hi_ok (length (fl x)) hi i -> i < length (fl x)) ->
  (~ (exists i, lo_ok lo i /\ hi_ok (length (fl x)) hi i) -> update_with_split S x lo hi f = Ok (x, (None, None))) /\
  ((exists i, lo_ok lo i /\ hi_ok (length (fl x)) hi i) -> exists r m before after, update_with_split S x lo hi f = Ok r /\
    Pick (fun i => lo_ok lo i /\ hi_ok (length (fl x)) hi i) (fl x) (fl m) /\
    Pick (fun i => ~ lo_ok lo i) (fl x) before /\ Pick (fun i => ~ hi_ok (length (fl x)) hi i) (fl x) after /\
    concat (map fl (parts r)) = before ++ fl (f m) ++ after).
Proof. exact (update_with_split_picks S valid fl x lo hi f). Qed.
Print Assumptions C39_update_picks.

Theorem C39_pick_unique (U : Type) (P : nat -> Prop) (l k k' : list U) : Pick P l k -> Pick P l k' -> k = k'.
Proof. exact (pick_det P l k k'). Qed.
Print Assumptions C39_pick_unique.

(** the gap buffer and the element of the range-number map obey the law *)
Theorem C39_gap_buffer (CAP : nat) : SliceLaw (gb_sl CAP) (gwf CAP) to_vec.
Proof. exact (gb_sl_ok CAP). Qed.
Print Assumptions C39_gap_buffer.

Theorem C39_range_elem : SliceLaw re_sl (fun _ => True) re_fl.
Proof. exact re_sl_ok. Qed.
Print Assumptions C39_range_elem.

Example C39_example : exists g r, gwf 4 g /\ to_vec g = [1; 2; 3; 4] /\ b_start (Incl 1) < b_end 4 (Excl 3) <= 4 /\
  update_with_split (gb_sl 4) g (Incl 1) (Excl 3) (fun m => mkGB [9; 9; 9; 9] 1 3) = Ok r /\ map to_vec (parts r) = [[1]; [9]; [4]].
Proof. exact demo_uws. Qed.
