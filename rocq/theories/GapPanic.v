(** GapPanic.v — the gap buffer outside its range; push. *)
From Verif Require Export GapBuffer GapBufferP.

Section gb.
Context (CAP : nat).
Notation gwf := (gwf CAP).

Lemma shift_at_panic g i : gb_len g < i -> shift_at g i = Panic.
Proof. intros H. unfold shift_at. by rewrite decide_True by lia. Qed.
Theorem p_insert_panic g i x : gwf g -> length (to_vec g) < i -> length (to_vec g) + length x <= CAP -> insert_bytes g i x = Panic.
Proof.
  intros W Hi Hx. rewrite (to_vec_length CAP) in * by done. pose proof (gb_len_gap CAP g W).
  unfold insert_bytes. rewrite decide_False by lia. by rewrite shift_at_panic.
Qed.
Theorem p_insert_pair_panic g i x y : gwf g -> length (to_vec g) < i -> length (to_vec g) + length x + length y <= CAP ->
  insert_bytes_pair g i x y = Panic.
Proof.
  intros W Hi Hx. rewrite (to_vec_length CAP) in * by done. pose proof (gb_len_gap CAP g W).
  unfold insert_bytes_pair. rewrite decide_False by lia. by rewrite shift_at_panic.
Qed.
Theorem p_split_panic g pos : gwf g -> length (to_vec g) < pos -> gb_split CAP g pos = Panic.
Proof. intros W Hp. rewrite (to_vec_length CAP) in * by done. unfold gb_split. by rewrite shift_at_panic. Qed.
Theorem p_try_insert_panic g e pos : gwf g -> gwf e -> length (to_vec g) < pos -> length (to_vec g) + length (to_vec e) <= CAP ->
  gb_try_insert CAP g pos e = Panic.
Proof.
  intros W We Hp Hl. unfold gb_try_insert. rewrite decide_False by (rewrite <- !(to_vec_length CAP) by done; lia).
  rewrite p_insert_pair_panic; [done..|]. unfold to_vec at 2 in Hl. rewrite app_length in Hl. lia.
Qed.

(** push_bytes into a buffer: what can come out *)
Lemma push_bytes_res g x : gwf g -> (let? o := push_bytes g x in ropt o) = Panic \/
  exists g', (let? o := push_bytes g x in ropt o) = Ok g' /\ gwf g' /\ gb_len g' = gb_len g + length x.
Proof.
  intros W. destruct (decide (gb_len g + length x <= CAP)) as [H|H].
  - right. destruct (push_bytes_ok CAP g x W H) as (g' & E & W' & V). exists g'. rewrite E. split; [done|]. split; [done|].
    rewrite <- !(to_vec_length CAP) by done. by rewrite V, app_length.
  - left. unfold push_bytes, insert_bytes. rewrite decide_True; [done|]. pose proof (gb_len_gap CAP g W). lia.
Qed.
Theorem p_slice_panic g st en : gwf g -> en < st \/ length (to_vec g) < en -> gb_slice CAP g st en = Panic.
Proof.
  intros W Hr. rewrite (to_vec_length CAP) in Hr by done. unfold gb_slice. pose proof (pair_len CAP g W) as HP.
  set (L := gb_left g) in *. set (R := gb_right g) in *. clearbody L R.
  assert (forall A r (k : A -> res gbuf), r = Panic \/ (exists a, r = Ok a /\ k a = Panic) -> rbind r k = Panic) as HB.
  { intros A r k [->|(a & -> & ?)]; done. }
  apply HB.
  assert ((if decide (st < length L) then let? x := vslice L st (Nat.min en (length L)) in let? o := push_bytes (gb_new CAP) x in ropt o else Ok (gb_new CAP)) = Panic \/
    exists g1, (if decide (st < length L) then let? x := vslice L st (Nat.min en (length L)) in let? o := push_bytes (gb_new CAP) x in ropt o else Ok (gb_new CAP)) = Ok g1 /\
      gwf g1) as [E|(g1 & E & W1)]; [|by left|].
  { case_decide.
    - unfold vslice. case_decide; [|by left]. cbn [rbind]. destruct (push_bytes_res (gb_new CAP) (take (Nat.min en (length L) - st) (drop st L)) (gb_new_wf CAP)) as [E|(g1 & E & W1 & _)].
      + left. by rewrite E.
      + right. exists g1. by rewrite E.
    - right. exists (gb_new CAP). split; [done|]. apply gb_new_wf. }
  right. exists g1. split; [done|]. clear E. apply HB. destruct (decide (length L < en)) as [He|He].
  - left. unfold vslice. rewrite decide_False; [done|]. lia.
  - right. exists g1. split; [done|]. rewrite bool_decide_false; [done|]. lia.
Qed.
(** the in-place version accepts the empty range past the end *)
Theorem p_slice_in_panic g st en : gwf g -> (en < st \/ (st < en /\ length (to_vec g) < en) -> gb_slice_ g st en = Panic) /\
  (length (to_vec g) < en -> exists g', gb_slice_ g en en = Ok g' /\ gwf g' /\ to_vec g' = []).
Proof.
  intros W. unfold gb_slice_. rewrite (to_vec_length CAP) by done.
  destruct (gb_delete_ok CAP g en (gb_len g) W) as (g1 & E1 & W1 & V1). rewrite E1. cbn [rbind].
  assert (HL1 : length (to_vec g1) = Nat.min en (gb_len g)).
  { rewrite V1, app_length, take_length, drop_length, (to_vec_length CAP) by done. lia. }
  split.
  - intros Hr. destruct (gb_delete_ok CAP g1 0 st W1) as (g2 & E2 & W2 & V2). rewrite E2. cbn [rbind].
    rewrite bool_decide_false; [done|]. intros [H1 H2]. destruct Hr as [Hr|Hr]; [lia|].
    rewrite <- (to_vec_length CAP) in H2 by done. rewrite V2 in H2. cbn [Nat.min take app] in H2.
    rewrite app_length, drop_length, take_length in H2. lia.
  - intros Hr. destruct (gb_delete_ok CAP g1 0 en W1) as (g2 & E2 & W2 & V2). rewrite E2. cbn [rbind].
    rewrite Nat.min_0_l, take_0, drop_ge in V2 by lia. cbn [app] in V2.
    rewrite bool_decide_true by (rewrite <- (to_vec_length CAP) by done; rewrite V2; cbn; lia). exists g2. done.
Qed.
(** merging or inserting more than fits *)
Theorem p_merge_panic l r : gwf l -> gwf r -> CAP < length (to_vec l ++ to_vec r) -> gb_merge_right l r = Panic /\ gb_merge_left r l = Panic.
Proof.
  intros Wl Wr H. rewrite app_length in H.
  assert (forall g i h, gwf g -> CAP < length (to_vec g) + length (to_vec h) -> insert_bytes_pair g i (gb_left h) (gb_right h) = Ok None) as HE.
  { intros g i h W Hl. apply (p_insert_bytes_pair_err CAP); [done|]. unfold to_vec at 2 in Hl. rewrite app_length in Hl. lia. }
  unfold gb_merge_right, gb_merge_left. rewrite HE by done. rewrite HE by (done || lia). done.
Qed.

(** push writes at the gap *)
Theorem p_push g v : gwf g ->
  (length (to_vec g) = CAP -> gb_push g v = Ok None) /\
  (length (to_vec g) < CAP -> exists g', gb_push g v = Ok (Some g') /\ gwf g' /\ gb_start g' = S (gb_start g) /\
    to_vec g' = take (gb_start g) (to_vec g) ++ v :: drop (gb_start g) (to_vec g)).
Proof.
  intros W. rewrite (to_vec_length CAP) by done. pose proof (gb_len_gap CAP g W) as HG. unfold gb_push. split; intros Hl.
  - by rewrite decide_True by lia.
  - rewrite decide_False by lia. destruct W as [H1 H2]. destruct g as [buf gs gl]. cbn [gb_buf gb_start gb_gap] in *.
    unfold vec_set. rewrite decide_True by lia. cbn [rbind]. eexists. split; [done|]. cbn [gb_start]. split; [split; cbn [gb_buf gb_start gb_gap]; [by rewrite insert_length|lia]|].
    split; [done|]. unfold to_vec, gb_left, gb_right. cbn [gb_buf gb_start gb_gap].
    rewrite take_app_le, drop_app_ge by (rewrite take_length; lia). rewrite take_take, Nat.min_id, take_length, Nat.min_l by lia.
    rewrite Nat.sub_diag, drop_0. rewrite (take_S_r _ _ v) by (by apply list_lookup_insert; lia).
    rewrite take_insert by lia. rewrite drop_insert_gt by lia. rewrite <- app_assoc. cbn [app]. do 3 f_equal. lia.
Qed.
Theorem p_push_at_end g v : gwf g -> gb_right g = [] -> length (to_vec g) < CAP ->
  exists g', gb_push g v = Ok (Some g') /\ gwf g' /\ gb_right g' = [] /\ to_vec g' = to_vec g ++ [v].
Proof.
  intros W Hr Hl. destruct (proj2 (p_push g v W) Hl) as (g' & E & W' & Hs & V). exists g'. split; [done|]. split; [done|].
  assert (gb_start g = length (to_vec g)) as Hst.
  { unfold to_vec. rewrite Hr, app_nil_r. unfold gb_left. rewrite take_length. destruct W. lia. }
  rewrite Hst, take_ge, drop_ge in V by lia. split; [|done]. apply nil_length_inv. pose proof (f_equal length V) as HL. rewrite app_length in HL. cbn in HL.
  unfold to_vec at 1 in HL. rewrite app_length in HL. unfold gb_left in HL. rewrite take_length in HL. destruct W'. lia.
Qed.
End gb.
(** after an insertion in front, push does not append *)
Theorem push_not_append CAP : 3 <= CAP -> exists g1 g2 g3, push_bytes (gb_new CAP) [1] = Ok (Some g1) /\ insert_bytes g1 0 [2] = Ok (Some g2) /\
  to_vec g2 = [2; 1] /\ gb_push g2 3 = Ok (Some g3) /\ to_vec g3 = [2; 3; 1].
Proof.
  intros HC. destruct (p_push_bytes CAP (gb_new CAP) [1] (gb_new_wf CAP)) as (g1 & E1 & W1 & V1); [rewrite gb_new_vec; cbn; lia|].
  rewrite gb_new_vec in V1. cbn in V1.
  destruct (p_insert_bytes CAP g1 0 [2] W1) as (g2 & E2 & W2 & V2); [lia|rewrite V1; cbn; lia|]. rewrite V1 in V2. cbn in V2.
  destruct (proj2 (p_push CAP g2 3 W2)) as (g3 & E3 & W3 & Hs & V3); [rewrite V2; cbn; lia|].
  exists g1, g2, g3. split; [done|]. split; [done|]. split; [done|]. split; [done|]. rewrite V3, V2.
  assert (gb_start g2 = 1) as ->; [|done].
  unfold insert_bytes in E2. case_decide; [done|]. destruct (shift_at_ok CAP g1 0 W1) as (h & Eh & _ & _ & Hst & _); [lia|]. rewrite Eh in E2. cbn [rbind] in E2.
  destruct (copy_from_slice _ _ _); [|done..]. cbn [rbind] in E2. injection E2 as <-. cbn. by rewrite Hst.
Qed.
Lemma panics_example : exists g, gwf 4 g /\ to_vec g = [7; 8] /\ insert_bytes g 3 [1] = Panic /\ gb_slice 4 g 1 3 = Panic /\
  gb_slice_ g 2 1 = Panic /\ gb_split 4 g 3 = Panic /\ gb_right g = [] /\ (let? o := gb_push g 9 in Ok (to_vec <$> o)) = Ok (Some [7; 8; 9]).
Proof. exists (mkGB [7; 8; 0; 0] 2 2). split; [by split; cbn; lia|]. done. Qed.
