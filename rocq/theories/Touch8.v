(** Touch8.v — how many arena entries the insertion of a text of any length into a rope writes. *)
From Verif Require Export Touch5 Touch7 Touch9.
From Verif Require Import RopeP Many Pos Thick.

Section rope.
Context (CAP : nat) (HC : 0 < CAP).
Notation RT := (RopeTrait CAP).
Notation RL := (RopeLaw CAP).
Implicit Types (r : rope CAP) (s str : list nat).

Lemma from_str_f_len f : forall s gs, from_str_f CAP f s = Ok gs -> length gs * CAP < length s + CAP.
Proof.
  induction f as [|f IH]; intros [|b s] gs E; cbn [from_str_f] in E; try done; [by injection E as <-; cbn; lia..|].
  rs E. injection E as <-. pose proof (IH _ _ Ey1) as H. rewrite drop_length in H. change (length (y0 :: y1)) with (S (length y1)). cbn [length] in *.
  destruct (decide (CAP <= S (length s))); [lia|]. replace (S (length s) - CAP) with 0 in H by lia.
  assert (length y1 = 0) as -> by nia. lia.
Qed.
Lemma from_str_len s gs : from_str CAP s = Ok gs -> length gs <= length s / CAP + 1 /\ length gs <= length s.
Proof.
  intros E. apply from_str_f_len in E. destruct (length gs) as [|n]; [lia|]. assert (CAP * n <= length s) by lia. split.
  - assert (n <= length s / CAP) by (apply Nat.div_le_lower_bound; lia). lia.
  - cbn in E. nia.
Qed.
Lemma rope_push_all_to k gs : 1 <= k -> forall (t : btree RT) xs t', Tree RL t xs -> Forall (evalid RL) gs -> MDw true t ->
  length xs + length gs <= 5 ^ k -> Rope.push_all CAP t gs = Ok t' -> Touched (length gs * (29 * k + 6)) t t'.
Proof.
  intros Hk t xs t' T V M Hl E. eapply (push_all_to RL k gs Hk t xs t' T V M Hl). revert E. clear. revert t.
  induction gs as [|g gs IH]; intros t E; cbn [Rope.push_all foldl] in *; [done|]. cbn [rbind].
  match type of E with rbind ?m _ = _ => destruct m as [[c t1]| |]; cbn [rbind] in *; [|done..] end. by apply IH.
Qed.
Theorem rope_insert_any_to r str i s k r' : RopeOf CAP r str -> 1 <= k -> length str + 2 * length s < 5 ^ k -> i <= length str ->
  rope_insert CAP r i s = Ok r' -> Touched ((length s / CAP + 2) * (57 * k + 41) + 31 * k + 9) (rp_tree CAP r) (rp_tree CAP r').
Proof.
  intros HR Hk Hl Hi E. unfold rope_insert in E. case_decide; [done|].
  destruct (chunks_ok CAP HC s) as (gs & Egs & Vgs & _). rewrite Egs in E. destruct (from_str_len s gs Egs) as [N1 N2].
  change (@length (Elem RT) gs <= length s / CAP + 1) in N1. change (@length (Elem RT) gs <= length s) in N2. remember (@length (Elem RT) gs) as n eqn:En.
  set (q := length s / CAP) in *. clearbody q.
  pose proof (Nat.mul_le_mono_r _ _ (57 * k + 41) N1) as N3.
  rewrite (rope_empty_ok CAP HC r str HR) in E. case_bool_decide as D.
  - cbn [rbind] in E. destruct HR as (xs & T & Ex & Hn & _ & M).
    assert (@length (nat * Elem RT) xs <= length str) as Hx by (rewrite <- Ex, (rft_len CAP _ _ T); apply (nz_length CAP HC xs Hn)).
    destruct (Rope.push_all _ _ _) as [t1| |] eqn:Ep; cbn [rbind] in E; [|done..]. injection E as <-. cbn [rp_tree].
    eapply to_le; [eapply (rope_push_all_to k); try done; rewrite <- En; lia|]. rewrite <- En.
    assert (n * (29 * k + 6) <= n * (57 * k + 41)) by (apply Nat.mul_le_mono_l; lia). lia.
  - destruct (rope_ins_cursor CAP r i s) as [[dn r1]| |] eqn:E1; cbn [rbind] in E; [|done..].
    pose proof (rope_ins_cursor_to CAP HC r str i s k dn r1 HR Hk ltac:(lia) Hi E1) as T1.
    destruct (rope_ins_cursor_ok CAP HC r str i s HR Hi) as (dn' & r1' & E1' & HR1). rewrite E1 in E1'. injection E1' as <- <-.
    destruct dn; [injection E as <-; eapply to_le; [exact T1|lia]|].
    destruct HR1 as (xs & T & Ex & Hn & _ & Md).
    assert (Hlen : length str = tlen xs) by (rewrite <- Ex; by apply (rft_len CAP (rp_tree CAP r1))).
    pose proof (nz_length CAP HC xs Hn) as Hx.
    assert (Hne : xs <> []) by (intros ->; by subst str).
    destruct (t_len_query RL rope_get_len (rp_tree CAP r1) xs i (rope_LenCache CAP) T Hne) as (X & l & e & Y & fs & Exs & HX & HY & EQ & Hpl). subst xs.
    change (RopeFinder CAP) with (@LengthFinder RT rope_get_len) in E. rewrite EQ in E. cbn [rbind qr_cursor cu_offset cu_leaf fmap option_fmap option_map] in E.
    assert (Hoff : i - tlen X <= @rle_len RT e).
    { rewrite Hlen, tlen_app, tlen_cons in Hi. destruct (decide (tlen X + @rle_len RT e <= i)) as [Hle|]; [|lia]. rewrite (HY Hle), tlen_nil in Hi. lia. }
    match type of E with rbind ?m _ = _ => destruct m as [cur| |]; cbn [rbind] in E; [|done..] end.
    match type of E with rbind ?m _ = _ => destruct m as [t2| |] eqn:Em; cbn [rbind] in E; [|done..] end. injection E as <-. cbn [rp_tree].
    assert (T2 : Touched (S n * (57 * k + 41)) (rp_tree CAP r1) t2).
    { rewrite En. eapply (insert_many_to RL (RopeF CAP) _ X l e Y (i - tlen X) gs k); try done. rewrite <- En. lia. }
    eapply to_le; [eapply Touch.to_trans; [exact T1|exact T2]|]. lia.
Qed.
End rope.

(** thirteen bytes (four buffers) in the middle of sixty, and two buffers at an offset inside a leaf *)
Lemma touch_bulk : exists (r r1 : rope 4) (t' : btree (RopeTrait 4)), RopeOf 4 r (seq 0 60) /\ rope_insert 4 r 30 (seq 100 13) = Ok r1 /\ RopeOf 4 r1 (seq 0 30 ++ seq 100 13 ++ seq 30 30) /\
  60 + 2 * 13 < 5 ^ 3 /\ insert_many_by_cursor (rp_tree 4 r) (Some (mkCur 5 1)) [gbs [1; 2; 3; 4]; gbs [5; 6; 7]] = Ok t' /\ length (elems (rp_tree 4 r)) = 15 /\ length (elems t') = 18.
Proof.
  destruct (rope_insert_ok 4 ltac:(lia) (rope_new 4) [] 0 (seq 0 60) (rope_new_ok 4)) as (r & E & HR); [cbn; lia|].
  change (ins 0 (seq 0 60) []) with (seq 0 60) in HR.
  destruct (rope_insert_ok 4 ltac:(lia) r (seq 0 60) 30 (seq 100 13) HR) as (r1 & E1 & HR1); [cbn; lia|].
  change (ins 30 (seq 100 13) (seq 0 60)) with (seq 0 30 ++ seq 100 13 ++ seq 30 30) in HR1.
  assert (H : (let? r := rope_insert 4 (rope_new 4) 0 (seq 0 60) in
    match insert_many_by_cursor (rp_tree 4 r) (Some (mkCur 5 1)) [gbs [1; 2; 3; 4]; gbs [5; 6; 7]] with
    | Ok t' => Ok (length (elems (rp_tree 4 r)), length (elems t')) | _ => Panic end) = Ok (15, 18)) by (vm_compute; reflexivity).
  rewrite E in H. cbn [rbind] in H. destruct (insert_many_by_cursor _ _ _) as [t'| |] eqn:Em; [|done..]. apply Ok_inj, pair_inj in H as [H1 H2].
  exists r, r1, t'. split; [exact HR|]. split; [exact E1|]. split; [exact HR1|]. split; [cbn; lia|]. split; [done|]. split; [exact H1|exact H2].
Qed.
(** the minimal filling, and an update of a range that cuts two leaves *)
Lemma touch_range : exists (t : btree RT) xs, Tree RL t xs /\ MDw true t /\ length xs = 15 /\ 15 + 2 <= 5 ^ 2 /\ isok (update (fun l => l) t (mkCur 3 1) (mkCur 9 2) dfu 0) = true.
Proof.
  destruct (rope_insert_ok 4 ltac:(lia) (rope_new 4) [] 0 (seq 0 60) (rope_new_ok 4)) as (r & E & HR); [cbn; lia|].
  destruct HR as (xs & T & _ & _ & _ & M). exists (rp_tree 4 r), xs. split; [exact T|]. split; [exact M|].
  assert (H : (let? r := rope_insert 4 (rope_new 4) 0 (seq 0 60) in
    Ok (length (elems (rp_tree 4 r)), isok (update (B := RT) (fun l => l) (rp_tree 4 r) (mkCur 3 1) (mkCur 9 2) dfu 0))) = Ok (15, true)) by (vm_compute; reflexivity).
  rewrite E in H. cbn [rbind] in H. apply Ok_inj, pair_inj in H as [H1 H2]. rewrite (Tree_elems _ _ _ T) in H1.
  split; [exact H1|]. split; [cbn; lia|exact H2].
Qed.
