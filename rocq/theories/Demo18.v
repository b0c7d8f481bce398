(** Demo18.v — a panicking closure and a leaked drain on concrete trees. *)
From Verif Require Export Unwind Demo2 Demo.

(** the third call panics after writing the byte 7 *)
Definition du (s : nat) (e : Elem RT) : (nat * Elem RT * option (Diff RT)) + Elem RT :=
  if decide (s = 2) then inr (gbs [7] : Elem RT) else inl (dfu s e).
Lemma du_sound : unw_sound RL du.
Proof.
  intros s e V. unfold du. case_decide.
  - destruct (gbs_valid [7]) as [W _]; [cbn; lia|]. exact W.
  - cbn [dfu]. destruct (gbs_valid [9]) as [W _]; [cbn; lia|]. exact W.
Qed.
Lemma demo_fits : exists (t : btree RT) (xs : list (nat * Elem RT)) (ea eb : Elem RT), Tree RL t xs /\ Fits t (mkCur 3 1) (mkCur 9 2) /\
  (3, ea) ∈ xs /\ 1 < @rle_len RT ea /\ (9, eb) ∈ xs /\ 2 < @rle_len RT eb /\ cur_le xs (mkCur 3 1) (mkCur 9 2) /\
  (forall X, xs = X ++ [(3, ea)] -> 1 = @rle_len RT ea -> 1 = 0) /\ unw_sound RL du.
Proof.
  destruct demo_range as (t & xs & ea & eb & T & (d & ys & Hd & Hle) & Ha & La & Hb & Lb & Hc & Hl). exists t, xs, ea, eb.
  split; [exact T|]. split.
  { destruct (cuts_shallow RL t xs (mkCur 3 1) (mkCur 9 2) ea eb T Ha (Nat.lt_le_incl _ _ La) Hb (Nat.lt_le_incl _ _ Lb) Hc) as (t2 & E2 & S2).
    exists t2. split; [exact E2|]. apply S2. exists d, ys. split; [exact Hd|lia]. }
  split; [exact Ha|]. split; [exact La|]. split; [exact Hb|]. split; [exact Lb|]. split; [exact Hc|]. split; [|exact du_sound].
  intros X _ E. rewrite <- E in La. destruct (Nat.lt_irrefl _ La).
Qed.
Lemma demo_unwind : exists t t', push_all (B := RT) bt_new dgb = Ok t /\ update_u (fun l => l) t (mkCur 3 1) (mkCur 9 2) du 0 = Ok (inr t') /\
  contents t' = Ok (take 3 dseq ++ [[20]; [9]; [9]; [7]] ++ take 3 (drop 6 dseq) ++ [[50; 51]; [52]] ++ drop 10 dseq) /\
  root_cache t = 49%Z /\ root_cache t' = 49%Z /\ check t' = Panic.
Proof.
  destruct (push_all_ok RL dgb bt_new [] (Tree_new RL) (MD_new false) dgb_valid) as (t & ys & E & _ & _). exists t.
  assert (H : (let? t := push_all (B := RT) bt_new dgb in let? r := update_u (fun l => l) t (mkCur 3 1) (mkCur 9 2) du 0 in
    match r with inr t' => Ok (contents t', root_cache t, root_cache t', check t') | inl _ => Panic end) =
    Ok (Ok (take 3 dseq ++ [[20]; [9]; [9]; [7]] ++ take 3 (drop 6 dseq) ++ [[50; 51]; [52]] ++ drop 10 dseq), 49%Z, 49%Z, Panic)) by (vm_compute; reflexivity).
  rewrite E in H |- *. cbn [rbind] in H. destruct (update_u _ _ _ _ _ _) as [[r|t']| |]; [discriminate H| |discriminate H|discriminate H].
  cbn [rbind] in H. apply Ok_inj, pair_inj in H as [H H4]. apply pair_inj in H as [H H3]. apply pair_inj in H as [H1 H2].
  exists t'. split; [reflexivity|]. split; [reflexivity|]. split; [exact H1|]. split; [exact H2|]. split; [exact H3|exact H4].
Qed.
Lemma demo_leak : exists t es t', @from_iter RT (map gbs [[0]; [1]; [2]; [3]; [4]]) = Ok t /\ drain_leak t (qr0 1 0) (qr0 3 0) 1 = Ok (es, t') /\
  map to_vec es = [[1]] /\ @BTree.iter RT t' = Panic /\ root_cache t' = 5%Z /\ check t' = Ok tt.
Proof.
  assert (H : (let? t := @from_iter RT (map gbs [[0]; [1]; [2]; [3]; [4]]) in let? (es, t') := drain_leak t (qr0 1 0) (qr0 3 0) 1 in
    Ok (map to_vec es, @BTree.iter RT t', root_cache t', check t')) = Ok ([[1]], Panic, 5%Z, Ok tt)) by (vm_compute; reflexivity).
  destruct (@from_iter RT _) as [t| |]; [|discriminate H|discriminate H]. cbn [rbind] in H.
  exists t. destruct (drain_leak t _ _ _) as [[l t']| |]; [|discriminate H|discriminate H]. cbn [rbind] in H.
  apply Ok_inj, pair_inj in H as [H H4]. apply pair_inj in H as [H H3]. apply pair_inj in H as [H1 H2].
  exists l, t'. split; [reflexivity|]. split; [reflexivity|]. split; [exact H1|]. split; [exact H2|]. split; [exact H3|exact H4].
Qed.
