(** Rle.v — transcription of the provided methods of Sliceable, /repo/src/rle.rs:5-92, and their
    proofs. *)
From Verif Require Export RopeFl.

(** std::ops::Bound; the two bounds of an [impl RangeBounds<usize>] *)
Inductive bound : Type := Incl (x : nat) | Excl (x : nat) | Unb.
(** rle.rs:12-16 and 53-57 *)
Definition b_start (b : bound) : nat := match b with Incl x => x | Excl x => x + 1 | Unb => 0 end.
(** rle.rs:18-22 and 59-63 *)
Definition b_end (len : nat) (b : bound) : nat := match b with Incl x => x + 1 | Excl x => x | Unb => len end.

(** Sliceable — rle.rs:5-92: [_slice] is required, [slice_] and [split] may be overridden
    (the gap buffer overrides both).  [split] gives (self, right). *)
Record sliceable (T : Type) : Type := mkSl {
  sl_len : T -> nat;                          (* rle.rs:104 *)
  sl_slice : T -> nat -> nat -> res T;        (* rle.rs:7 *)
  sl_slice_ : T -> nat -> nat -> res T;       (* rle.rs:29-31 *)
  sl_split : T -> nat -> res (T * T);         (* rle.rs:34-38 *)
}.
Arguments sl_len {T} _ _.
Arguments sl_slice {T} _ _ _ _.
Arguments sl_slice_ {T} _ _ _ _.
Arguments sl_split {T} _ _ _.

Section sl.
Context {T : Type}.
(** slice — rle.rs:11-25 *)
Definition slice_bounds (S : sliceable T) (x : T) (lo hi : bound) : res T :=
  sl_slice S x (b_start lo) (b_end (sl_len S x) hi).
(** the provided slice_ and split — rle.rs:29-31, 34-38, for given len, _slice and slice_ *)
Definition default_slice_ (slice : T -> nat -> nat -> res T) : T -> nat -> nat -> res T := slice.
Definition default_split (len : T -> nat) (slice slice_ : T -> nat -> nat -> res T) (x : T) (pos : nat) : res (T * T) :=
  let? rt := slice x pos (len x) in
  let? self := slice_ x 0 pos in
  Ok (self, rt).
(** update_with_split — rle.rs:48-91; result: (self, (second, third)); the closure is total *)
Definition update_with_split (S : sliceable T) (x : T) (lo hi : bound) (f : T -> T) : res (T * (option T * option T)) :=
  let st := b_start lo in
  let en := b_end (sl_len S x) hi in
  if decide (en <= st) then Ok (x, (None, None))
  else
    match bool_decide (st = 0), bool_decide (en = sl_len S x) with
    | true, true => Ok (f x, (None, None))
    | true, false =>
        let? (x, rt) := sl_split S x en in
        Ok (f x, (Some rt, None))
    | false, true =>
        let? (x, rt) := sl_split S x st in
        Ok (x, (Some (f rt), None))
    | false, false =>
        let? (x, rt) := sl_split S x en in
        let? (x, middle) := sl_split S x st in
        Ok (x, (Some (f middle), Some rt))
    end.

(** ** what an implementation must satisfy: [fl] is the content of a value *)
Record SliceLaw {U : Type} (S : sliceable T) (valid : T -> Prop) (fl : T -> list U) : Prop := {
  sw_len : forall x, valid x -> length (fl x) = sl_len S x;
  sw_slice : forall x a b, valid x -> a <= b <= sl_len S x ->
    exists y, sl_slice S x a b = Ok y /\ valid y /\ fl y = drop a (take b (fl x));
  sw_slice_ : forall x a b, valid x -> a <= b <= sl_len S x ->
    exists y, sl_slice_ S x a b = Ok y /\ valid y /\ fl y = drop a (take b (fl x));
  sw_split : forall x p, valid x -> p <= sl_len S x ->
    exists l r, sl_split S x p = Ok (l, r) /\ valid l /\ valid r /\ fl l = take p (fl x) /\ fl r = drop p (fl x);
}.

(** the provided split has the right contents *)
Theorem default_split_ok {U} (S : sliceable T) valid (fl : T -> list U) x p : SliceLaw S valid fl -> valid x -> p <= sl_len S x ->
  exists l r, default_split (sl_len S) (sl_slice S) (sl_slice_ S) x p = Ok (l, r) /\ valid l /\ valid r /\ fl l = take p (fl x) /\ fl r = drop p (fl x).
Proof.
  intros W V Hp. destruct (sw_slice _ _ _ W x p (sl_len S x) V) as (r & Er & Vr & Fr); [lia|].
  destruct (sw_slice_ _ _ _ W x 0 p V) as (l & El & Vl & Fl); [lia|]. exists l, r. unfold default_split. rewrite Er. cbn [rbind]. rewrite El. cbn [rbind].
  split_and!; try done. rewrite Fr. rewrite take_ge; [done|]. rewrite (sw_len _ _ _ W x V). lia.
Qed.
Theorem slice_bounds_ok {U} (S : sliceable T) valid (fl : T -> list U) x lo hi : SliceLaw S valid fl -> valid x ->
  b_start lo <= b_end (length (fl x)) hi <= length (fl x) ->
  exists y, slice_bounds S x lo hi = Ok y /\ valid y /\ fl y = drop (b_start lo) (take (b_end (length (fl x)) hi) (fl x)).
Proof. intros W V. rewrite (sw_len _ _ _ W x V). intros H. by apply (sw_slice _ _ _ W). Qed.

(** update_with_split: the parts, in order *)
Definition parts (r : T * (option T * option T)) : list T := fst r :: option_list (fst (snd r)) ++ option_list (snd (snd r)).
(** ... are the content before the range, the result of the closure on a value [m] whose content
    is the range, and the content after the range; no part is empty *)
Theorem update_with_split_ok {U} (S : sliceable T) valid (fl : T -> list U) x lo hi f : SliceLaw S valid fl -> valid x ->
  let n := length (fl x) in let st := b_start lo in let en := b_end n hi in
  (en <= st -> update_with_split S x lo hi f = Ok (x, (None, None))) /\
  (st < en -> en <= n -> exists r m pre post, update_with_split S x lo hi f = Ok r /\
    parts r = pre ++ [f m] ++ post /\ valid m /\ fl m = drop st (take en (fl x)) /\
    Forall valid (pre ++ post) /\ concat (map fl pre) = take st (fl x) /\ concat (map fl post) = drop en (fl x) /\
    length pre = Nat.min st 1 /\ length post = Nat.min (n - en) 1).
Proof.
  intros W V n st en. pose proof (sw_len _ _ _ W x V) as Hl. unfold update_with_split. subst n. rewrite <- Hl. fold st. fold en.
  split; [intros H; by rewrite decide_True by done|]. intros Hlt Hen. rewrite decide_False by lia.
  destruct (decide (st = 0)) as [E0|N0]; destruct (decide (en = length (fl x))) as [E1|N1].
  - rewrite !bool_decide_eq_true_2 by done. eexists _, x, [], []. split; [done|]. split_and!; try done.
    + rewrite E0, drop_0, take_ge; [done|]. lia.
    + constructor.
    + by rewrite E0.
    + rewrite drop_ge; [done|]. lia.
    + by rewrite E0.
    + cbn. lia.
  - rewrite (bool_decide_eq_true_2 (st = 0)), (bool_decide_eq_false_2 (en = _)) by done.
    destruct (sw_split _ _ _ W x en V ltac:(lia)) as (l & r & -> & Vl & Vr & Fl & Fr). cbn [rbind]. eexists _, l, [], [r]. split; [done|].
    split_and!; try done; [by rewrite E0, drop_0|by constructor|by rewrite E0|cbn; by rewrite app_nil_r|by rewrite E0|cbn; lia].
  - rewrite (bool_decide_eq_false_2 (st = 0)), (bool_decide_eq_true_2 (en = _)) by done.
    destruct (sw_split _ _ _ W x st V) as (l & r & -> & Vl & Vr & Fl & Fr); [lia|]. cbn [rbind]. eexists _, r, [l], []. split; [done|].
    split_and!; try done.
    + rewrite Fr. rewrite take_ge; [done|]. lia.
    + by constructor.
    + cbn. by rewrite app_nil_r.
    + rewrite drop_ge; [done|]. lia.
    + cbn. lia.
    + cbn. lia.
  - rewrite !bool_decide_eq_false_2 by done.
    destruct (sw_split _ _ _ W x en V ltac:(lia)) as (l & r & -> & Vl & Vr & Fl & Fr). cbn [rbind].
    assert (sl_len S l = en) as Hll. { rewrite <- (sw_len _ _ _ W l Vl), Fl, take_length. lia. }
    destruct (sw_split _ _ _ W l st Vl) as (l1 & m & -> & Vl1 & Vm & Fl1 & Fm); [lia|]. cbn [rbind].
    eexists _, m, [l1], [r]. split; [done|]. split_and!; try done.
    + by rewrite Fm, Fl.
    + by repeat constructor.
    + cbn. rewrite app_nil_r, Fl1, Fl, take_take. f_equal. lia.
    + cbn. by rewrite app_nil_r.
    + cbn. lia.
    + cbn. lia.
Qed.
Corollary update_with_split_content {U} (S : sliceable T) valid (fl : T -> list U) x lo hi f : SliceLaw S valid fl -> valid x ->
  b_start lo < b_end (length (fl x)) hi <= length (fl x) ->
  exists r m, update_with_split S x lo hi f = Ok r /\ fl m = drop (b_start lo) (take (b_end (length (fl x)) hi) (fl x)) /\
    concat (map fl (parts r)) = take (b_start lo) (fl x) ++ fl (f m) ++ drop (b_end (length (fl x)) hi) (fl x).
Proof.
  intros W V [H1 H2]. destruct (update_with_split_ok S valid fl x lo hi f W V) as [_ G]. destruct (G H1 H2) as (r & m & pre & post & E & P & _ & Fm & _ & F1 & F2 & _).
  exists r, m. split; [done|]. split; [done|]. rewrite P, !map_app, !concat_app, F1, F2. cbn. by rewrite app_nil_r.
Qed.
End sl.

(** ** the implementations in the repository *)
(** GapBuffer — gap_buffer.rs:169-216 *)
Definition gb_sl (CAP : nat) : sliceable gbuf := mkSl gbuf gb_len (gb_slice CAP) gb_slice_ (gb_split CAP).
Lemma take_drop_slice {A} (xs : list A) a b : a <= b -> take (b - a) (drop a xs) = drop a (take b xs).
Proof. intros H. rewrite take_drop_commute. f_equal. f_equal. lia. Qed.
Lemma gb_sl_ok (CAP : nat) : SliceLaw (gb_sl CAP) (gwf CAP) to_vec.
Proof.
  constructor; cbn.
  - intros x W. by apply to_vec_length with CAP.
  - intros x a b W [H1 H2]. destruct (gb_slice_ok CAP x a b W H1 H2) as (g & E & Wg & Vg). exists g. rewrite Vg. by rewrite take_drop_slice.
  - intros x a b W [H1 H2]. destruct (gb_slice_in_ok CAP x a b W H1 H2) as (g & E & Wg & Vg). exists g. rewrite Vg. by rewrite take_drop_slice.
  - intros x p W Hp. exact (gb_split_ok CAP x p W Hp).
Qed.
(** Elem of the range-number map — tests/range_num_map/mod.rs:133-157 (split is the provided
    one); its content is [len] copies of its value.  [Range::len] saturates. *)
Definition re_slice (e : rnm_elem) (a b : nat) : res rnm_elem := Ok (mkRE (re_value e) (b - a)).
Definition re_sl : sliceable rnm_elem := mkSl rnm_elem re_len re_slice re_slice (default_split re_len re_slice re_slice).
Definition re_fl (e : rnm_elem) : list (option Z) := repeat (re_value e) (re_len e).
Lemma re_slice_fl e a b : a <= b <= re_len e -> re_fl (mkRE (re_value e) (b - a)) = drop a (take b (re_fl e)).
Proof.
  intros H. unfold re_fl. cbn. replace (re_len e) with (a + ((b - a) + (re_len e - b))) by lia. rewrite !repeat_app.
  rewrite (app_assoc (repeat _ a)). rewrite take_app_alt by (rewrite app_length, !repeat_length; lia). rewrite drop_app_alt by (by rewrite repeat_length). done.
Qed.
Lemma re_sl_ok : SliceLaw re_sl (fun _ => True) re_fl.
Proof.
  constructor; cbn.
  - intros x _. apply repeat_length.
  - intros x a b _ H. eexists. split; [done|]. split; [done|]. by apply re_slice_fl.
  - intros x a b _ H. eexists. split; [done|]. split; [done|]. by apply re_slice_fl.
  - intros x p _ Hp. eexists _, _. split; [done|]. split; [done|]. split; [done|]. split.
    + rewrite re_slice_fl by lia. done.
    + rewrite re_slice_fl by lia. f_equal. apply take_ge. unfold re_fl. by rewrite repeat_length.
Qed.
(** the split of the range map's trait is the provided split *)
Lemma re_split_same e p : @e_split RNMTrait e p = sl_split re_sl e p.
Proof. cbn. unfold default_split, re_slice. cbn. by rewrite Nat.sub_0_r. Qed.

(** ** the bounds, said without [b_start] and [b_end]: [lo] and [hi] admit position [i] of a value of
    length [n] (std::ops::RangeBounds::contains, and the value ends at [n]) *)
Definition lo_ok (lo : bound) (i : nat) : Prop := match lo with Incl a => a <= i | Excl a => a < i | Unb => True end.
Definition hi_ok (n : nat) (hi : bound) (i : nat) : Prop := match hi with Incl b => i <= b | Excl b => i < b | Unb => i < n end.
Lemma bounds_mean n lo hi i : (b_start lo <= i <-> lo_ok lo i) /\ (i < b_end n hi <-> hi_ok n hi i).
Proof. destruct lo, hi; cbn; lia. Qed.
Lemma bounds_fit n lo hi i : lo_ok lo i -> hi_ok n hi i -> (forall i, lo_ok lo i -> hi_ok n hi i -> i < n) -> b_start lo < b_end n hi <= n.
Proof.
  intros H1 H2 Hall. apply (bounds_mean n lo hi i) in H1. apply (bounds_mean n lo hi i) in H2. split; [lia|].
  assert (b_end n hi - 1 < n); [|lia]. apply Hall; apply (bounds_mean n lo hi); lia.
Qed.
(** the units of [l] whose position satisfies [P], in order *)
Inductive Pick {U : Type} : (nat -> Prop) -> list U -> list U -> Prop :=
| pick_nil (P : nat -> Prop) : Pick P [] []
| pick_in (P : nat -> Prop) u l k : P 0 -> Pick (fun i => P (S i)) l k -> Pick P (u :: l) (u :: k)
| pick_out (P : nat -> Prop) u l k : ~ P 0 -> Pick (fun i => P (S i)) l k -> Pick P (u :: l) k.
Lemma pick_seg {U} (l : list U) : forall (P : nat -> Prop) a b, (forall i, P i <-> a <= i < b) -> Pick P l (drop a (take b l)).
Proof.
  induction l as [|u l IH]; intros P a b H. { rewrite take_nil, drop_nil. constructor. }
  destruct (decide (a <= 0 < b)) as [Hp|Hp].
  - destruct b as [|b]; [lia|]. assert (a = 0) as -> by lia. cbn [take drop]. apply pick_in; [by apply H|].
    apply (IH _ 0 b). intros i. rewrite H. lia.
  - assert (Pick (fun i => P (S i)) l (drop (a - 1) (take (b - 1) l))) as Hk by (apply IH; intros i; rewrite H; lia).
    assert (drop a (take b (u :: l)) = drop (a - 1) (take (b - 1) l)) as ->.
    { destruct b as [|b]; [change (take (0 - 1) l) with (@nil U); change (take 0 (u :: l)) with (@nil U); by rewrite !drop_nil|]. destruct a as [|a]; [lia|]. cbn. by rewrite !Nat.sub_0_r. }
    apply pick_out; [by rewrite H|done].
Qed.
Lemma pick_det {U} (P : nat -> Prop) (l k k' : list U) : Pick P l k -> Pick P l k' -> k = k'.
Proof. intros H. revert k'. induction H as [|? ? ? ? ? ? IH|? ? ? ? ? ? IH]; intros k' H'; inversion H'; subst; try done; [f_equal|]; by apply IH. Qed.
Theorem slice_picks {T U : Type} (S : sliceable T) (valid : T -> Prop) (fl : T -> list U) x lo hi : SliceLaw S valid fl -> valid x ->
  (exists i, lo_ok lo i /\ hi_ok (length (fl x)) hi i) -> (forall i, lo_ok lo i -> hi_ok (length (fl x)) hi i -> i < length (fl x)) ->
  exists y, slice_bounds S x lo hi = Ok y /\ valid y /\ Pick (fun i => lo_ok lo i /\ hi_ok (length (fl x)) hi i) (fl x) (fl y).
Proof.
  intros HS V (i & Hi1 & Hi2) Hall. set (n := length (fl x)) in *.
  pose proof (bounds_fit n lo hi i Hi1 Hi2 Hall) as Hb.
  destruct (slice_bounds_ok S valid fl x lo hi HS V ltac:(fold n; lia)) as (y & E & Vy & Hy). exists y. split; [done|]. split; [done|]. rewrite Hy.
  apply pick_seg. intros j. pose proof (bounds_mean n lo hi j). fold n. tauto.
Qed.
Theorem update_with_split_picks {T U : Type} (S : sliceable T) (valid : T -> Prop) (fl : T -> list U) x lo hi f : SliceLaw S valid fl -> valid x ->
  (forall i, lo_ok lo i -> hi_ok (length (fl x)) hi i -> i < length (fl x)) ->
  (~ (exists i, lo_ok lo i /\ hi_ok (length (fl x)) hi i) -> update_with_split S x lo hi f = Ok (x, (None, None))) /\
  ((exists i, lo_ok lo i /\ hi_ok (length (fl x)) hi i) -> exists r m before after, update_with_split S x lo hi f = Ok r /\
    Pick (fun i => lo_ok lo i /\ hi_ok (length (fl x)) hi i) (fl x) (fl m) /\
    Pick (fun i => ~ lo_ok lo i) (fl x) before /\ Pick (fun i => ~ hi_ok (length (fl x)) hi i) (fl x) after /\
    concat (map fl (parts r)) = before ++ fl (f m) ++ after).
Proof.
  intros HS V Hall. set (n := length (fl x)) in *. split.
  - intros Hn. apply (update_with_split_ok S valid fl x lo hi f HS V). fold n. destruct (decide (b_end n hi <= b_start lo)) as [|Hlt]; [done|].
    exfalso. apply Hn. exists (b_start lo). pose proof (bounds_mean n lo hi (b_start lo)) as [H1 H2]. split; [apply H1|apply H2]; lia.
  - intros (i & Hi1 & Hi2).
    pose proof (bounds_fit n lo hi i Hi1 Hi2 Hall) as Hb.
    destruct (update_with_split_content S valid fl x lo hi f HS V ltac:(fold n; lia)) as (r & m & E & Hm & Hc). fold n in Hm, Hc.
    exists r, m, (take (b_start lo) (fl x)), (drop (b_end n hi) (fl x)). split; [done|]. split_and!.
    + rewrite Hm. apply pick_seg. intros j. pose proof (bounds_mean n lo hi j). tauto.
    + change (take (b_start lo) (fl x)) with (drop 0 (take (b_start lo) (fl x))). apply pick_seg. intros j. pose proof (bounds_mean n lo hi j) as [B3 _]. rewrite <- B3. lia.
    + assert (take n (fl x) = fl x) as Ht by (unfold n; apply firstn_all).
      rewrite <- Ht at 2.
      enough (forall P : nat -> Prop, (forall j, P j <-> b_end n hi <= j) -> Pick P (fl x) (drop (b_end n hi) (fl x))) as H.
      { rewrite Ht. apply H. intros j. pose proof (bounds_mean n lo hi j) as [_ B4]. rewrite <- B4. lia. }
      clear. intros P. generalize (b_end n hi) as k. revert P. induction (fl x) as [|u l IH]; intros P k H; [rewrite drop_nil; constructor|].
      destruct k as [|k]; [apply pick_in; [apply H; lia|]|apply pick_out; [rewrite H; lia|]].
      * apply (IH _ 0). intros j. rewrite H. lia.
      * cbn. apply IH. intros j. rewrite H. lia.
    + done.
Qed.

Lemma demo_uws : exists g r, gwf 4 g /\ to_vec g = [1; 2; 3; 4] /\ b_start (Incl 1) < b_end 4 (Excl 3) <= 4 /\
  update_with_split (gb_sl 4) g (Incl 1) (Excl 3) (fun m => mkGB [9; 9; 9; 9] 1 3) = Ok r /\ map to_vec (parts r) = [[1]; [9]; [4]].
Proof. exists (mkGB [1; 2; 3; 4] 4 0). eexists. split; [done|]. split; [done|]. split; [cbn; lia|]. split; [by vm_compute|by vm_compute]. Qed.
