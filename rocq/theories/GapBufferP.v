(** GapBufferP.v — the gap buffer refines a bounded byte list. *)
From Verif Require Import GapBuffer.

Section gb.
Context (CAP : nat).

(** well-formed buffer: the array has the fixed length and the gap lies inside it *)
Definition gwf (g : gbuf) : Prop :=
  length (gb_buf g) = CAP /\ gb_start g + gb_gap g <= CAP.

Lemma to_vec_length g : gwf g -> length (to_vec g) = gb_len g.
Proof.
  intros [H1 H2]. unfold to_vec, gb_left, gb_right, gb_len.
  rewrite app_length, take_length, drop_length. lia.
Qed.
Lemma gb_len_le g : gwf g -> gb_len g <= CAP.
Proof. intros [H1 H2]. unfold gb_len. lia. Qed.
Lemma gb_len_gap g : gwf g -> gb_len g + gb_gap g = CAP.
Proof. intros [H1 H2]. unfold gb_len. lia. Qed.
Lemma gb_new_wf : gwf (gb_new CAP).
Proof. split; cbn; [apply repeat_length|lia]. Qed.
Lemma gb_new_vec : to_vec (gb_new CAP) = [].
Proof.
  unfold to_vec, gb_left, gb_right, gb_new; cbn [gb_buf gb_start gb_gap].
  rewrite take_0, drop_ge; [done|]. rewrite repeat_length. lia.
Qed.
Lemma gb_new_len : gb_len (gb_new CAP) = 0.
Proof. unfold gb_len, gb_new; cbn. rewrite repeat_length. lia. Qed.

Lemma copy_within_ok l a b d :
  a <= b -> b <= length l -> d + (b - a) <= length l ->
  copy_within l a b d = Ok (take d l ++ take (b - a) (drop a l) ++ drop (d + (b - a)) l).
Proof. intros. unfold copy_within. by rewrite decide_True by lia. Qed.

Lemma shift_at_ok g i :
  gwf g -> i <= gb_len g ->
  exists g', shift_at g i = Ok g' /\ gwf g' /\ to_vec g' = to_vec g
             /\ gb_start g' = i /\ gb_gap g' = gb_gap g.
Proof.
  intros [H1 H2] Hi. unfold gb_len in Hi. unfold shift_at, gb_len.
  rewrite decide_False by lia.
  destruct g as [buf gs gl]; cbn [gb_buf gb_start gb_gap] in *.
  destruct (Nat.compare_spec i gs) as [E|E|E].
  - eexists; split; [done|]. repeat split; cbn; auto; lia.
  - rewrite copy_within_ok by lia. cbn [rbind].
    eexists; split; [done|]. cbn [gb_buf gb_start gb_gap].
    repeat split; cbn [gb_buf gb_start gb_gap]; try lia.
    + rewrite !app_length, !take_length, !drop_length. lia.
    + unfold to_vec, gb_left, gb_right; cbn [gb_buf gb_start gb_gap].
      replace (gs - (gs - i)) with i by lia.
      replace (gs + gl - (gs - i)) with (i + gl) by lia.
      rewrite take_app_le by (rewrite take_length; lia).
      rewrite take_take, Nat.min_l by lia.
      rewrite drop_app_ge by (rewrite take_length; lia).
      rewrite take_length, Nat.min_l by lia.
      rewrite Nat.sub_diag, drop_0.
      replace (i + gl + (gs - i)) with (gs + gl) by lia.
      rewrite app_assoc. f_equal.
      rewrite take_drop_commute. replace (i + (gs - i)) with gs by lia.
      rewrite <- (take_drop i (take gs buf)) at 2.
      rewrite take_take, Nat.min_l by lia. done.
  - replace (Nat.min (length buf) (gs + gl + (i - gs))) with (i + gl) by lia.
    rewrite copy_within_ok by lia. cbn [rbind].
    eexists; split; [done|]. cbn [gb_buf gb_start gb_gap].
    repeat split; cbn [gb_buf gb_start gb_gap]; try lia.
    + rewrite !app_length, !take_length, !drop_length. lia.
    + unfold to_vec, gb_left, gb_right; cbn [gb_buf gb_start gb_gap].
      replace (gs + (i - gs)) with i by lia.
      replace (i + gl - (gs + gl)) with (i - gs) by lia.
      replace (gs + (i - gs)) with i by lia.
      rewrite (take_app_ge _ _ i) by (rewrite take_length; lia).
      rewrite take_length, Nat.min_l by lia.
      rewrite take_app_le by (rewrite take_length, drop_length; lia).
      rewrite take_take, Nat.min_id.
      rewrite drop_app_ge by (rewrite take_length; lia).
      rewrite take_length, Nat.min_l by lia.
      rewrite drop_app_ge by (rewrite take_length, drop_length; lia).
      rewrite take_length, drop_length.
      rewrite drop_drop.
      rewrite <- app_assoc. f_equal.
      rewrite <- (take_drop (i - gs) (drop (gs + gl) buf)) at 2. f_equal.
      rewrite drop_drop. f_equal. lia.
Qed.
Lemma shift_at_panic g i : gb_len g < i -> shift_at g i = Panic.
Proof. intros. unfold shift_at. by rewrite decide_True. Qed.

Lemma vec_at_start g : gwf g -> gb_left g = take (gb_start g) (to_vec g)
   /\ gb_right g = drop (gb_start g) (to_vec g).
Proof.
  intros [H1 H2]. unfold to_vec, gb_left, gb_right.
  rewrite take_app_le, drop_app_ge by (rewrite take_length; lia).
  rewrite take_take, Nat.min_id, take_length, Nat.min_l, Nat.sub_diag by lia. done.
Qed.

Lemma copy_from_slice_ok l a x :
  a + length x <= length l -> copy_from_slice l a x = Ok (take a l ++ x ++ drop (a + length x) l).
Proof. intros. unfold copy_from_slice. by rewrite decide_True. Qed.

Lemma insert_at_gap buf gs gl x :
  length buf = CAP -> gs + gl <= CAP -> length x <= gl ->
  exists b, copy_from_slice buf gs x = Ok b /\
    gwf (mkGB b (gs + length x) (gl - length x)) /\
    to_vec (mkGB b (gs + length x) (gl - length x))
    = gb_left (mkGB buf gs gl) ++ x ++ gb_right (mkGB buf gs gl).
Proof.
  intros H1 H2 H3. rewrite copy_from_slice_ok by lia. eexists; split; [done|].
  split; [split; cbn [gb_buf gb_start gb_gap]|].
  - rewrite !app_length, take_length, drop_length. lia.
  - lia.
  - unfold to_vec, gb_left, gb_right; cbn [gb_buf gb_start gb_gap].
    rewrite app_assoc.
    rewrite take_app_le by (rewrite app_length, take_length; lia).
    rewrite take_ge by (rewrite app_length, take_length; lia).
    rewrite drop_app_ge by (rewrite app_length, take_length; lia).
    rewrite app_length, take_length, drop_drop, <- app_assoc.
    do 2 f_equal. f_equal. lia.
Qed.

(** insert_bytes = splice, rejects exactly on overflow *)
Lemma insert_bytes_ok g i x :
  gwf g -> i <= gb_len g -> gb_len g + length x <= CAP ->
  exists g', insert_bytes g i x = Ok (Some g') /\ gwf g'
     /\ to_vec g' = take i (to_vec g) ++ x ++ drop i (to_vec g).
Proof.
  intros W Hi Hx. pose proof (gb_len_gap g W) as HG.
  unfold insert_bytes. rewrite decide_False by lia.
  destruct (shift_at_ok g i W Hi) as (g1 & E & W1 & V & S1 & G1).
  rewrite E; cbn [rbind]. destruct g1 as [buf gs gl]; cbn [gb_buf gb_start gb_gap] in *. subst gs gl.
  pose proof (vec_at_start _ W1) as [L R]. destruct W1 as [W1 W2]; cbn [gb_buf gb_start gb_gap] in *.
  destruct (insert_at_gap buf i (gb_gap g) x) as (b & Eb & Wb & Vb); [lia|lia|lia|].
  rewrite Eb; cbn [rbind]. eexists; split; [done|]. split; [done|].
  rewrite Vb, L, R, V. done.
Qed.
Lemma insert_bytes_err g i x :
  gwf g -> CAP < gb_len g + length x -> insert_bytes g i x = Ok None.
Proof.
  intros W H. pose proof (gb_len_gap g W). unfold insert_bytes. by rewrite decide_True by lia.
Qed.
Lemma insert_bytes_panic g i x :
  gwf g -> gb_len g + length x <= CAP -> gb_len g < i -> insert_bytes g i x = Panic.
Proof.
  intros W H Hi. pose proof (gb_len_gap g W). unfold insert_bytes.
  rewrite decide_False by lia. by rewrite shift_at_panic.
Qed.
Lemma push_bytes_ok g x :
  gwf g -> gb_len g + length x <= CAP ->
  exists g', push_bytes g x = Ok (Some g') /\ gwf g' /\ to_vec g' = to_vec g ++ x.
Proof.
  intros W Hx. destruct (insert_bytes_ok g (gb_len g) x W) as (g' & E & W' & V); [lia|done|].
  exists g'. split; [done|]. split; [done|]. rewrite V, <- (to_vec_length g W).
  by rewrite firstn_all, drop_all, app_nil_r.
Qed.

Lemma insert_bytes_pair_ok g i x y :
  gwf g -> i <= gb_len g -> gb_len g + length x + length y <= CAP ->
  exists g', insert_bytes_pair g i x y = Ok (Some g') /\ gwf g'
     /\ to_vec g' = take i (to_vec g) ++ x ++ y ++ drop i (to_vec g).
Proof.
  intros W Hi Hx. pose proof (gb_len_gap g W) as HG.
  unfold insert_bytes_pair. rewrite decide_False by lia.
  destruct (shift_at_ok g i W Hi) as (g1 & E & W1 & V & S1 & G1).
  rewrite E; cbn [rbind]. destruct g1 as [buf gs gl]; cbn [gb_buf gb_start gb_gap] in *. subst gs gl.
  pose proof (vec_at_start _ W1) as [L R]. destruct W1 as [W1 W2]; cbn [gb_buf gb_start gb_gap] in *.
  destruct (insert_at_gap buf i (gb_gap g) x) as (b & Eb & Wb & Vb); [lia|lia|lia|].
  rewrite Eb; cbn [rbind].
  pose proof (vec_at_start _ Wb) as [L2 R2].
  destruct Wb as [Wb1 Wb2]; cbn [gb_buf gb_start gb_gap] in *.
  destruct (insert_at_gap b (i + length x) (gb_gap g - length x) y) as (b2 & Eb2 & Wb' & Vb');
    [lia|lia|lia|].
  rewrite Eb2; cbn [rbind]. eexists; split; [done|].
  replace (i + (length x + length y)) with (i + length x + length y) by lia.
  replace (gb_gap g - (length x + length y)) with (gb_gap g - length x - length y) by lia.
  split; [done|].
  rewrite Vb', L2, R2, Vb, L, R, V.
  assert (length (take i (to_vec g)) = i) by (rewrite take_length, to_vec_length by done; lia).
  rewrite take_app_ge, drop_app_ge by lia.
  replace (i + length x - length (take i (to_vec g))) with (length x) by lia.
  rewrite take_app, drop_app. by rewrite <- !app_assoc.
Qed.
Lemma insert_bytes_pair_err g i x y :
  gwf g -> CAP < gb_len g + length x + length y -> insert_bytes_pair g i x y = Ok None.
Proof.
  intros W H. pose proof (gb_len_gap g W). unfold insert_bytes_pair. by rewrite decide_True by lia.
Qed.

(** delete with clamping *)
Lemma gb_delete_ok g st en :
  gwf g ->
  exists g', gb_delete g st en = Ok g' /\ gwf g'
    /\ to_vec g' = take (Nat.min st en) (to_vec g) ++ drop en (to_vec g).
Proof.
  intros W. unfold gb_delete. pose proof (to_vec_length g W) as HL.
  case_decide as E.
  - exists g. split; [done|]. split; [done|].
    destruct (decide (en <= gb_len g)).
    +
      replace (Nat.min st en) with en by lia. by rewrite take_drop.
    + rewrite (take_ge (to_vec g)), (drop_ge (to_vec g)) by lia. by rewrite app_nil_r.
  - set (en' := Nat.min en (gb_len g)) in *. set (st' := Nat.min (Nat.min st (gb_len g)) en') in *.
    assert (He : en' = Nat.min en (gb_len g)) by done.
    assert (Hs : st' = Nat.min (Nat.min st (gb_len g)) en') by done.
    clearbody en' st'.
    destruct (shift_at_ok g en' W) as (g1 & E1 & W1 & V & S1 & G1); [lia|].
    rewrite E1; cbn [rbind]. eexists; split; [done|].
    pose proof (vec_at_start _ W1) as [L R]. rewrite V, S1 in L, R.
    destruct W1 as [W1 W2]. split.
    + split; cbn [gb_buf gb_start gb_gap]; lia.
    + unfold to_vec, gb_left, gb_right in *; cbn [gb_buf gb_start gb_gap].
      replace (st' + (gb_gap g1 + (en' - st'))) with (gb_start g1 + gb_gap g1) by lia.
      rewrite R. f_equal.
      * rewrite S1 in L.
        replace (take st' (gb_buf g1)) with (take st' (take en' (gb_buf g1)))
          by (rewrite take_take; f_equal; lia).
        rewrite L, take_take.
        destruct (decide (Nat.min st en <= gb_len g)).
        -- f_equal. lia.
        -- rewrite !take_ge by lia. done.
      * destruct (decide (en <= gb_len g)); [f_equal; lia|].
        rewrite !drop_ge by lia. done.
Qed.

(** split = (take, drop); panics exactly beyond the end *)
Lemma gb_split_ok g pos :
  gwf g -> pos <= gb_len g ->
  exists l r, gb_split CAP g pos = Ok (l, r) /\ gwf l /\ gwf r
    /\ to_vec l = take pos (to_vec g) /\ to_vec r = drop pos (to_vec g).
Proof.
  intros W Hp. unfold gb_split.
  destruct (shift_at_ok g pos W Hp) as (g1 & E1 & W1 & V & S1 & G1).
  rewrite E1; cbn [rbind]. pose proof (vec_at_start _ W1) as [L R]. rewrite V, S1 in L, R.
  destruct (push_bytes_ok (gb_new CAP) (gb_right g1)) as (r & Er & Wr & Vr).
  - apply gb_new_wf.
  - rewrite gb_new_len. rewrite R, drop_length, to_vec_length by done.
    pose proof (gb_len_le g W). lia.
  - rewrite Er; cbn [rbind ropt]. eexists _, r. split; [done|].
    destruct W1 as [W1 W2]. split; [|split; [done|split]].
    + split; cbn [gb_buf gb_start gb_gap]; [done|]. unfold gb_capacity.
      pose proof (gb_len_le g W). lia.
    + unfold to_vec, gb_left, gb_right in *; cbn [gb_buf gb_start gb_gap]. unfold gb_capacity.
      rewrite L. rewrite (drop_ge (gb_buf g1)), app_nil_r; [done|]. pose proof (gb_len_le g W). lia.
    + rewrite Vr, gb_new_vec, R. done.
Qed.
Lemma gb_split_panic g pos : gb_len g < pos -> gb_split CAP g pos = Panic.
Proof. intros. unfold gb_split. by rewrite shift_at_panic. Qed.

Lemma pair_len g : gwf g -> length (gb_left g) + length (gb_right g) = gb_len g.
Proof. intros W. rewrite <- (to_vec_length g W). unfold to_vec. by rewrite app_length. Qed.

Lemma gb_merge_right_ok g r :
  gwf g -> gwf r -> gb_can_merge CAP g r = true ->
  exists g', gb_merge_right g r = Ok g' /\ gwf g' /\ to_vec g' = to_vec g ++ to_vec r.
Proof.
  intros W Wr H. apply bool_decide_eq_true in H. pose proof (pair_len r Wr).
  unfold gb_merge_right.
  destruct (insert_bytes_pair_ok g (gb_len g) (gb_left r) (gb_right r)) as (g' & E & W' & V);
    [done|lia|lia|].
  rewrite E; cbn. exists g'. split; [done|]. split; [done|].
  rewrite V, <- (to_vec_length g W), firstn_all, drop_all, app_nil_r. done.
Qed.
Lemma gb_merge_left_ok g l :
  gwf g -> gwf l -> gb_can_merge CAP l g = true ->
  exists g', gb_merge_left g l = Ok g' /\ gwf g' /\ to_vec g' = to_vec l ++ to_vec g.
Proof.
  intros W Wr H. apply bool_decide_eq_true in H. pose proof (pair_len l Wr).
  unfold gb_merge_left.
  destruct (insert_bytes_pair_ok g 0 (gb_left l) (gb_right l)) as (g' & E & W' & V);
    [done|lia|lia|].
  rewrite E; cbn. exists g'. split; [done|]. split; [done|].
  rewrite V, take_0, drop_0. unfold to_vec at 2. by rewrite <- app_assoc.
Qed.
Lemma gb_try_insert_ok g pos e :
  gwf g -> gwf e -> pos <= gb_len g -> gb_len g + gb_len e <= CAP ->
  exists g', gb_try_insert CAP g pos e = Ok (inl g') /\ gwf g'
    /\ to_vec g' = take pos (to_vec g) ++ to_vec e ++ drop pos (to_vec g).
Proof.
  intros W We Hp H. pose proof (pair_len e We). unfold gb_try_insert.
  rewrite decide_False by lia.
  destruct (insert_bytes_pair_ok g pos (gb_left e) (gb_right e)) as (g' & E & W' & V);
    [done|lia|lia|].
  rewrite E; cbn. exists g'. split; [done|]. split; [done|]. rewrite V. unfold to_vec at 4.
  by rewrite <- !app_assoc.
Qed.
Lemma gb_try_insert_err g pos e :
  CAP < gb_len g + gb_len e -> gb_try_insert CAP g pos e = Ok (inr e).
Proof. intros. unfold gb_try_insert. by rewrite decide_True. Qed.
Lemma gb_can_remove_spec g : gwf g -> gb_can_remove g = true <-> to_vec g = [].
Proof.
  intros W. unfold gb_can_remove. rewrite bool_decide_eq_true, <- (to_vec_length g W).
  split; [apply nil_length_inv|by intros ->].
Qed.

Lemma gb_slice_ok g st en :
  gwf g -> st <= en -> en <= gb_len g ->
  exists g', gb_slice CAP g st en = Ok g' /\ gwf g' /\ to_vec g' = take (en - st) (drop st (to_vec g)).
Proof.
  intros W H1 H2. unfold gb_slice. pose proof (pair_len g W) as HP.
  set (L := gb_left g) in *. set (R := gb_right g) in *.
  assert (HV : to_vec g = L ++ R) by done. clearbody L R.
  pose proof (gb_len_le g W) as HC.
  assert (exists g1, (if decide (st < length L) then
      let? x := vslice L st (Nat.min en (length L)) in
      let? o := push_bytes (gb_new CAP) x in ropt o else Ok (gb_new CAP)) = Ok g1
      /\ gwf g1 /\ to_vec g1 = take (Nat.min en (length L) - st) (drop st L)) as (g1 & E1 & W1 & V1).
  { case_decide.
    - unfold vslice. rewrite decide_True by lia. cbn [rbind].
      destruct (push_bytes_ok (gb_new CAP) (take (Nat.min en (length L) - st) (drop st L)))
        as (r & Er & Wr & Vr); [apply gb_new_wf| |].
      + rewrite gb_new_len, take_length, drop_length. lia.
      + rewrite Er; cbn. exists r. rewrite Vr, gb_new_vec. done.
    - exists (gb_new CAP). split; [done|]. split; [apply gb_new_wf|].
      rewrite gb_new_vec, drop_ge by lia. by rewrite take_nil. }
  rewrite E1; cbn [rbind]. clear E1. rewrite HV.
  assert (HL : length (take (en - st) (drop st (L ++ R))) = en - st).
  { rewrite <- HV, take_length, drop_length, (to_vec_length g W). lia. }
  enough (exists g', (if decide (length L < en) then let? x := vslice R (st - length L) (en - length L) in let? o := push_bytes g1 x in ropt o else Ok g1) = Ok g' /\
    gwf g' /\ to_vec g' = take (en - st) (drop st (L ++ R))) as (g' & -> & W' & V').
  { cbn [rbind]. rewrite bool_decide_true by (rewrite <- (to_vec_length g' W'), V'; split; [done|exact HL]). exists g'. done. }
  destruct (decide (length L < en)).
  - unfold vslice. rewrite decide_True by lia. cbn [rbind].
    assert (HG1 : gb_len g1 = length L - st).
    { rewrite <- (to_vec_length g1 W1), V1, take_length, drop_length. lia. }
    destruct (push_bytes_ok g1 (take (en - length L - (st - length L)) (drop (st - length L) R)))
      as (r & Er & Wr & Vr); [done| |].
    + rewrite take_length, drop_length. lia.
    + rewrite Er; cbn. exists r. split; [done|]. split; [done|]. rewrite Vr, V1.
      rewrite (skipn_app st L R), firstn_app, drop_length.
      rewrite (take_ge (drop st L)) by (rewrite drop_length; lia).
      rewrite (take_ge (drop st L)) by (rewrite drop_length; lia).
      do 2 f_equal. lia.
  - exists g1. split; [done|]. split; [done|]. rewrite V1, Nat.min_l by lia.
    rewrite skipn_app, firstn_app, drop_length.
    replace (en - st - (length L - st)) with 0 by lia. rewrite take_0, app_nil_r. done.
Qed.
Lemma gb_slice_in_ok g st en :
  gwf g -> st <= en -> en <= gb_len g ->
  exists g', gb_slice_ g st en = Ok g' /\ gwf g' /\ to_vec g' = take (en - st) (drop st (to_vec g)).
Proof.
  intros W H1 H2. unfold gb_slice_. pose proof (to_vec_length g W) as HL.
  destruct (gb_delete_ok g en (gb_len g) W) as (g1 & E1 & W1 & V1). rewrite E1; cbn [rbind].
  destruct (gb_delete_ok g1 0 st W1) as (g2 & E2 & W2 & V2). rewrite E2. cbn [rbind].
  assert (V : to_vec g2 = take (en - st) (drop st (to_vec g))).
  2: { rewrite bool_decide_true; [by exists g2|]. rewrite <- (to_vec_length g2 W2), V, take_length, drop_length. lia. }
  rewrite V2, V1, Nat.min_l by lia.
  rewrite (drop_ge (to_vec g)) by lia. rewrite app_nil_r, take_0, Nat.min_l by lia.
  cbn [app]. rewrite skipn_firstn_comm. done.
Qed.

(** from_str: lossless chunks *)
Lemma from_str_f_ok : 0 < CAP -> forall f s, length s <= f ->
  exists gs, from_str_f CAP f s = Ok gs /\ Forall gwf gs /\ concat (map to_vec gs) = s
    /\ Forall (fun g => 1 <= gb_len g) gs
    /\ forall gs' g, gs = gs' ++ [g] -> Forall (fun x => gb_len x = CAP) gs'.
Proof.
  intros HC f. induction f as [|f IH]; intros s Hs.
  - destruct s; [|cbn in Hs; lia]. exists []. repeat split; try constructor. intros gs' g E. by destruct gs'.
  - destruct s as [|b s'].
    + exists []. repeat split; try constructor. intros gs' g E. by destruct gs'.
    + set (s := b :: s') in *. cbn [from_str_f]. change (b :: s') with s.
      destruct (push_bytes_ok (gb_new CAP) (take CAP s)) as (g & Eg & Wg & Vg);
        [apply gb_new_wf|rewrite gb_new_len, take_length; lia|].
      cbn [from_str_f]. unfold s at 1. cbv beta iota. fold s. rewrite Eg; cbn [rbind ropt].
      destruct (IH (drop CAP s)) as (gs & E & W & C & N & F).
      { rewrite drop_length. lia. }
      rewrite E; cbn [rbind]. exists (g :: gs).
      rewrite gb_new_vec in Vg. cbn [app] in Vg.
      assert (HLg : gb_len g = Nat.min CAP (length s)).
      { by rewrite <- (to_vec_length g Wg), Vg, take_length. }
      assert (0 < length s) by (cbn; lia).
      split; [done|]. split; [by constructor|]. split; [|split].
      * cbn [map concat]. rewrite C, Vg, take_drop. done.
      * constructor; [lia|done].
      * intros gs' g' Eq. destruct gs' as [|a gs'']; [constructor|].
        injection Eq as <- Eq. constructor; [|by eapply F].
        destruct gs as [|g2 gs2]; [by destruct gs''|].
        assert (0 < length (drop CAP s)).
        { rewrite <- C. cbn. rewrite app_length. inversion N; subst.
          inversion W; subst. rewrite to_vec_length by done. lia. }
        rewrite drop_length in *. lia.
Qed.
Lemma from_str_ok s : 0 < CAP ->
  exists gs, from_str CAP s = Ok gs /\ Forall gwf gs /\ concat (map to_vec gs) = s
    /\ Forall (fun g => 1 <= gb_len g) gs
    /\ forall gs' g, gs = gs' ++ [g] -> Forall (fun x => gb_len x = CAP) gs'.
Proof. intros. by apply from_str_f_ok. Qed.

(** ** The same facts phrased over the content only (used by PropGap.v) *)
Lemma p_insert_bytes g i x :
  gwf g -> i <= length (to_vec g) -> length (to_vec g) + length x <= CAP ->
  exists g', insert_bytes g i x = Ok (Some g') /\ gwf g'
     /\ to_vec g' = take i (to_vec g) ++ x ++ drop i (to_vec g).
Proof. intros W. rewrite to_vec_length by done. by apply insert_bytes_ok. Qed.
Lemma p_insert_bytes_err g i x :
  gwf g -> CAP < length (to_vec g) + length x -> insert_bytes g i x = Ok None.
Proof. intros W. rewrite to_vec_length by done. by apply insert_bytes_err. Qed.
Lemma p_push_bytes g x :
  gwf g -> length (to_vec g) + length x <= CAP ->
  exists g', push_bytes g x = Ok (Some g') /\ gwf g' /\ to_vec g' = to_vec g ++ x.
Proof. intros W. rewrite to_vec_length by done. by apply push_bytes_ok. Qed.
Lemma p_insert_bytes_pair g i x y :
  gwf g -> i <= length (to_vec g) -> length (to_vec g) + length x + length y <= CAP ->
  exists g', insert_bytes_pair g i x y = Ok (Some g') /\ gwf g'
     /\ to_vec g' = take i (to_vec g) ++ x ++ y ++ drop i (to_vec g).
Proof. intros W. rewrite to_vec_length by done. by apply insert_bytes_pair_ok. Qed.
Lemma p_insert_bytes_pair_err g i x y :
  gwf g -> CAP < length (to_vec g) + length x + length y -> insert_bytes_pair g i x y = Ok None.
Proof. intros W. rewrite to_vec_length by done. by apply insert_bytes_pair_err. Qed.
Lemma p_split g pos :
  gwf g -> pos <= length (to_vec g) ->
  exists l r, gb_split CAP g pos = Ok (l, r) /\ gwf l /\ gwf r
    /\ to_vec l = take pos (to_vec g) /\ to_vec r = drop pos (to_vec g).
Proof. intros W. rewrite to_vec_length by done. by apply gb_split_ok. Qed.
Lemma p_slice g st en :
  gwf g -> st <= en -> en <= length (to_vec g) ->
  (exists g', gb_slice CAP g st en = Ok g' /\ gwf g' /\ to_vec g' = take (en - st) (drop st (to_vec g)))
  /\ (exists g', gb_slice_ g st en = Ok g' /\ gwf g' /\ to_vec g' = take (en - st) (drop st (to_vec g))).
Proof.
  intros W. rewrite to_vec_length by done. intros. split; [by apply gb_slice_ok|by apply gb_slice_in_ok].
Qed.
Lemma p_merge l r :
  gwf l -> gwf r ->
  (gb_can_merge CAP l r = true <-> length (to_vec l ++ to_vec r) <= CAP) /\
  (gb_can_merge CAP l r = true ->
    (exists g', gb_merge_right l r = Ok g' /\ gwf g' /\ to_vec g' = to_vec l ++ to_vec r) /\
    (exists g', gb_merge_left r l = Ok g' /\ gwf g' /\ to_vec g' = to_vec l ++ to_vec r)).
Proof.
  intros Wl Wr. split; [|intros C; split; [by apply gb_merge_right_ok|by apply gb_merge_left_ok]].
  rewrite app_length, !to_vec_length by done. unfold gb_can_merge.
  by rewrite bool_decide_eq_true.
Qed.
Lemma p_try_insert g e pos :
  gwf g -> gwf e -> pos <= length (to_vec g) ->
  (length (to_vec g) + length (to_vec e) <= CAP ->
     exists g', gb_try_insert CAP g pos e = Ok (inl g') /\ gwf g'
       /\ to_vec g' = take pos (to_vec g) ++ to_vec e ++ drop pos (to_vec g)) /\
  (CAP < length (to_vec g) + length (to_vec e) -> gb_try_insert CAP g pos e = Ok (inr e)).
Proof.
  intros Wl Wr. rewrite !to_vec_length by done. intros. split; intros.
  - by apply gb_try_insert_ok.
  - by apply gb_try_insert_err.
Qed.
Lemma p_len g :
  gwf g -> gb_len g = length (to_vec g) /\ gb_len g <= CAP /\ (gb_can_remove g = true <-> to_vec g = []).
Proof.
  intros W. split; [by rewrite to_vec_length|]. split; [by apply gb_len_le|by apply gb_can_remove_spec].
Qed.
Lemma p_from_str s :
  0 < CAP ->
  exists gs, from_str CAP s = Ok gs /\ Forall gwf gs /\ concat (map to_vec gs) = s
    /\ Forall (fun g => 1 <= length (to_vec g) <= CAP) gs
    /\ forall gs' g, gs = gs' ++ [g] -> Forall (fun x => length (to_vec x) = CAP) gs'.
Proof.
  intros HC. destruct (from_str_ok s HC) as (gs & E & W & Ec & L & F).
  exists gs. split; [done|]. split; [done|]. split; [done|]. split.
  - rewrite Forall_forall in *. intros g Hg. rewrite to_vec_length by auto. split; [auto|]. apply gb_len_le; auto.
  - intros gs' g ->. specialize (F gs' g eq_refl). apply Forall_app in W as [W _].
    rewrite Forall_forall in *. intros x Hx. rewrite to_vec_length by auto. auto.
Qed.
End gb.
