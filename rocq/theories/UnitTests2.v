(** UnitTests2.v — the unit tests of rope.rs that reach into the tree or call clear. *)
From Verif Require Export UnitTests FromIter.

Section tests.
Context (CAP : nat).
(** test_clear — rope.rs:396-406, for any two strings *)
Definition ut_clear (s s2 : list nat) : res unit :=
  let? r := rope_insert CAP (rope_new CAP) 0 s in
  let? _ := rassert (bool_decide (rope_len CAP r = length s)) in
  let r := rope_clear CAP r in
  let? _ := rassert (bool_decide (rope_len CAP r = 0)) in
  let? x := rope_to_string CAP r in
  let? _ := rassert (bool_decide (x = [])) in
  let? r := rope_insert CAP r 0 s2 in
  let? x := rope_to_string CAP r in
  rassert (bool_decide (x = s2)).
(** from_str — rope.rs:3392-3399: one round of the loop *)
Definition ut_from_str (s : list nat) : res unit :=
  let? gs := from_str CAP s in
  match gs with g :: _ => rassert (bool_decide (length s = gb_len g)) | [] => Panic end.
(** from_iter — rope.rs:3401-3420, for any list of strings [v] *)
Fixpoint all_chunks (v : list (list nat)) : res (list gbuf) :=
  match v with [] => Ok [] | s :: v => let? gs := from_str CAP s in let? r := all_chunks v in Ok (gs ++ r) end.
Definition ut_from_iter (v : list (list nat)) : res unit :=
  let? gs := all_chunks v in
  let? t := @from_iter (RopeTrait CAP) gs in
  let r := mkRope CAP t None in
  let? x := rope_to_string CAP r in
  let? _ := rassert (bool_decide (x = concat v)) in
  let? _ := rassert (bool_decide (rope_len CAP r = length (concat v))) in
  check t.
(** drain — rope.rs:3422-3436, for any list of strings [v]; the while loop runs on fuel [f] *)
Fixpoint insert_front (v : list (list nat)) (r : rope CAP) : res (rope CAP) :=
  match v with [] => Ok r | s :: v => let? r := rope_insert CAP r 0 s in insert_front v r end.
Fixpoint drain_loop (f : nat) (r : rope CAP) : res unit :=
  match f with
  | 0 => OutOfFuel
  | S f =>
      if rope_is_empty CAP r then Ok tt else
      let? o := first_leaf (rp_tree CAP r) in
      let? l := ropt o in
      let? lf := @get_lf (RopeTrait CAP) (rp_tree CAP r) l in
      let? e := gb_slice_ (l_elem lf) 1 1 in
      let? (_, _, t) := @update_leaf (RopeTrait CAP) (rp_tree CAP r) l (fun _ => (e, (true, None, None))) in
      drain_loop f (mkRope CAP t (rp_cursor CAP r))
  end.
Definition ut_drain (f : nat) (v : list (list nat)) : res unit := let? r := insert_front v (rope_new CAP) in drain_loop f r.

Context (HC : 0 < CAP).
Lemma insert_new_cursor s r : rope_insert CAP (rope_new CAP) 0 s = Ok r -> rp_cursor CAP r = None.
Proof.
  unfold rope_insert. rewrite decide_False by (cbn; lia). change (rope_is_empty CAP (rope_new CAP)) with true. cbv iota.
  destruct (from_str CAP s) as [gs| |]; [|done..]. cbn [rbind]. destruct (Rope.push_all _ _ gs) as [t| |]; [|done..]. cbn [rbind]. by injection 1 as <-.
Qed.
Theorem ut_clear_pass s s2 : Forall (fun b => b < 128) s2 -> length s2 <= 5 ^ 9 -> ut_clear s s2 = Ok tt.
Proof using HC.
  intros Ha Hl. unfold ut_clear. pose proof (rope_new_ok CAP) as H0.
  destruct (rope_insert_ok CAP HC _ [] 0 s H0 ltac:(done)) as (r & E & HR). rewrite E. cbn [rbind]. unfold RopeP.ins in HR. cbn [take drop app] in HR. rewrite app_nil_r in HR.
  rewrite (rope_len_ok CAP HC r s HR), bool_decide_eq_true_2 by done. cbn [rassert rbind].
  assert (rope_clear CAP r = rope_new CAP) as ->. { unfold rope_clear. rewrite (insert_new_cursor s r E). done. }
  change (rope_len CAP (rope_new CAP)) with 0. rewrite bool_decide_eq_true_2 by done. cbn [rassert rbind].
  unfold rope_to_string. rewrite (rope_to_bytes_short CAP HC _ [] H0) by (cbn [length]; lia). cbn [rbind utf8_ok]. rewrite bool_decide_eq_true_2 by done. cbn [rassert rbind].
  destruct (rope_insert_ok CAP HC _ [] 0 s2 H0 ltac:(done)) as (r2 & E2 & HR2). rewrite E2. cbn [rbind]. unfold RopeP.ins in HR2. cbn [take drop app] in HR2. rewrite app_nil_r in HR2.
  rewrite (rope_to_bytes_short CAP HC r2 s2 HR2 Hl). cbn [rbind]. rewrite (ascii_utf8 s2 Ha). cbn [rbind]. by rewrite bool_decide_eq_true_2.
Qed.
Theorem ut_from_str_pass s : 0 < length s <= CAP -> ut_from_str s = Ok tt.
Proof using HC.
  intros Hs. unfold ut_from_str. destruct (p_from_str CAP s HC) as (gs & -> & W & C & L & F). cbn [rbind].
  destruct gs as [|g gs]; [subst s; cbn in Hs; lia|]. rewrite bool_decide_eq_true_2; [done|].
  destruct (decide (gs = [])) as [->|Hne].
  - cbn in C. rewrite app_nil_r in C. subst s. inversion W; subst. by apply (to_vec_length CAP).
  - exfalso. destruct (exists_last Hne) as (gs' & x & ->). specialize (F (g :: gs') x eq_refl). inversion F as [|? ? Fg _]; subst.
    rewrite app_comm_cons in L. apply Forall_app in L as [_ Lx]. inversion Lx as [|? ? Lx1 _]; subst.
    rewrite map_cons, map_app in Hs. cbn [concat map] in Hs. rewrite concat_app, !app_length in Hs. cbn [concat map] in Hs. rewrite app_nil_r in Hs. lia.
Qed.
Lemma all_chunks_ok v : exists gs, all_chunks v = Ok gs /\ Forall (gwf CAP) gs /\ concat (map to_vec gs) = concat v /\ Forall (fun g => 1 <= length (to_vec g)) gs.
Proof using HC.
  induction v as [|s v (gs & E & W & C & L)]; [by exists []|]. cbn [all_chunks]. destruct (p_from_str CAP s HC) as (g0 & -> & W0 & C0 & L0 & _).
  cbn [rbind]. rewrite E. cbn [rbind]. exists (g0 ++ gs). split; [done|]. split; [by apply Forall_app|]. split.
  - rewrite map_app, concat_app, C0, C. done.
  - apply Forall_app. split; [|done]. eapply Forall_impl; [exact L0|]. cbn. lia.
Qed.
Lemma chunks_count (gs : list gbuf) : Forall (fun g => 1 <= length (to_vec g)) gs -> length gs <= length (concat (map to_vec gs)).
Proof. induction 1 as [|g gs Hg _ IH]; [done|]. cbn [map concat length]. rewrite app_length. lia. Qed.
Lemma ft_elems (xs : list (nat * Elem (RopeTrait CAP))) : ft (RopeLaw CAP) (RopeF CAP) xs = concat (map to_vec (xs.*2)).
Proof. induction xs as [|[l e] xs IH]; [done|]. rewrite ft_cons, IH. done. Qed.
Theorem ut_from_iter_pass v : Forall (Forall (fun b => b < 128)) v -> length (concat v) <= 10 ^ 9 -> ut_from_iter v = Ok tt.
Proof using HC.
  intros Ha Hl. unfold ut_from_iter. destruct (all_chunks_ok v) as (gs & -> & W & C & L). cbn [rbind].
  destruct (t_from_iter (RopeLaw CAP) gs W) as (t & xs & -> & T & E2 & Sh). cbn [rbind].
  pose proof (chunks_count gs L) as Hc. rewrite C in Hc. assert (Shallow t 9) as S9 by (apply (Sh 8); etrans; [exact Hc|exact Hl]).
  unfold rope_to_string. rewrite (rope_to_bytes_tree CAP HC (mkRope CAP t None) xs T S9). cbn [rbind].
  assert (ft (RopeLaw CAP) (RopeF CAP) xs = concat v) as Ef by (rewrite ft_elems, E2; exact C). rewrite Ef.
  rewrite (ascii_utf8 (concat v)). 2:{ clear -Ha. induction Ha as [|s v Hs _ IH]; [constructor|]. cbn. by apply Forall_app. }
  cbn [rbind]. rewrite bool_decide_eq_true_2 by done. cbn [rassert rbind]. unfold rope_len. cbn [rp_tree]. rewrite (rope_root CAP HC t xs T).
  rewrite <-(rft_len CAP t xs T), Nat2Z.id. rewrite bool_decide_eq_true_2 by (f_equal; exact Ef). cbn [rassert rbind].
  apply (t_check (RopeLaw CAP) t xs T S9). by right.
Qed.
Lemma insert_front_ok v : forall r s, RopeOf CAP r s -> exists r', insert_front v r = Ok r' /\ RopeOf CAP r' (concat (rev v) ++ s).
Proof using HC.
  induction v as [|x v IH]; intros r s HR; [by exists r|]. cbn [insert_front].
  destruct (rope_insert_ok CAP HC r s 0 x HR ltac:(lia)) as (r1 & -> & HR1). cbn [rbind]. destruct (IH r1 _ HR1) as (r2 & -> & HR2).
  exists r2. split; [done|]. cbn [rev]. rewrite concat_app, <-app_assoc. cbn [concat]. rewrite app_nil_r. exact HR2.
Qed.
Lemma drain_loop_ok xs : forall f r, length xs < f -> Tree (RopeLaw CAP) (rp_tree CAP r) xs -> NZ xs -> drain_loop f r = Ok tt.
Proof using HC.
  induction xs as [|[l e] Y IH]; intros f r Hf T Hn; (destruct f as [|f]; [cbn in Hf; lia|]); cbn [drain_loop]; unfold rope_is_empty; rewrite (rope_root CAP HC _ _ T).
  - done.
  - pose proof (Hn l e ltac:(left)) as He. rewrite tlen_cons. destruct (Z.eqb_spec (Z.of_nat (rle_len e + tlen Y)) 0); [lia|].
    rewrite (t_first (RopeLaw CAP) _ _ T). cbn [rbind head fmap option_fmap option_map fst ropt].
    destruct (tree_get_lf (RopeLaw CAP) _ _ l e T ltac:(left)) as (p & ->). cbn [rbind l_elem].
    pose proof (rv CAP _ _ l e T ltac:(left)) as We. pose proof (to_vec_length CAP e We) as Hlen.
    destruct (p_slice CAP e 1 1 We ltac:(lia)) as (_ & g & -> & Wg & Hg). { rewrite Hlen. cbn in He. lia. }
    rewrite Nat.sub_diag in Hg. cbn [take] in Hg. cbn [rbind].
    assert (gb_can_remove g = true) as Hr by (by apply (GapBufferP.p_len CAP g Wg)).
    destruct (t_update_leaf (RopeLaw CAP) (rp_tree CAP r) [] l e Y (fun _ => (g, (true, None, None))) g true None None T eq_refl Wg) as (alive & sl & R & t' & -> & T' & Hu & _);
      [done|done|done|]. cbn [rbind].
    assert (@ul_parts (RopeTrait CAP) g None None = []) as Ep.
    { unfold ul_parts. cbn [olist app]. rewrite filter_cons_False; [done|]. cbn. rewrite Hr. done. }
    rewrite Ep in Hu. inversion Hu; subst. apply IH; [exact (proj2 (Nat.succ_lt_mono _ _) Hf)|exact T'|]. intros l' e' Hin. apply (Hn l' e'). by right.
Qed.
(** [f]: one round per leaf and one more *)
Theorem ut_drain_pass f v : length (concat v) < f -> ut_drain f v = Ok tt.
Proof using HC.
  intros Hf. unfold ut_drain. destruct (insert_front_ok v _ [] (rope_new_ok CAP)) as (r & -> & HR). cbn [rbind]. destruct HR as (xs & T & E & Hn & _).
  apply (drain_loop_ok xs); [|done|done]. pose proof (nz_length CAP HC xs Hn) as H1. rewrite <-(rft_len CAP _ _ T), E, app_nil_r in H1.
  eapply Nat.le_lt_trans; [exact H1|]. eapply Nat.le_lt_trans; [|exact Hf]. clear. induction v as [|x v IH]; [done|]. cbn [rev]. rewrite concat_app, app_length. cbn [concat]. rewrite app_nil_r, app_length. lia.
Qed.
End tests.
