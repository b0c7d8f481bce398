(** Touch5.v — how many arena entries the insertion of a short text into a rope writes. *)
From Verif Require Export Touch4 Touch6 Demo29.
From Verif Require Import RopeP.

Section rope.
Context (CAP : nat) (HC : 0 < CAP).
Notation RT := (RopeTrait CAP).
Notation RL := (RopeLaw CAP).
Implicit Types (r : rope CAP) (s str : list nat).

Lemma rope_d r str k : RopeOf CAP r str -> 1 <= k -> length str <= 5 ^ k ->
  exists d xs, Tree RL (rp_tree CAP r) xs /\ InOrder (rp_tree CAP r) (root (rp_tree CAP r)) d xs /\ d <= k.
Proof.
  intros (xs & T & Ex & Hn & _ & M) Hk Hl. assert (@length (nat * Elem RT) xs <= 5 ^ k) as Hx.
  { rewrite <- Ex, (rft_len CAP _ _ T) in Hl. pose proof (nz_length CAP HC xs Hn). lia. }
  destruct (thick_d RL _ _ _ T M Hk Hx) as (d & Hd & Hdk). by exists d, xs.
Qed.
Lemma rope_ins_cursor_to r str i s k dn r1 : RopeOf CAP r str -> 1 <= k -> length str <= 5 ^ k -> i <= length str ->
  rope_ins_cursor CAP r i s = Ok (dn, r1) -> Touched (31 * k + 9) (rp_tree CAP r) (rp_tree CAP r1).
Proof.
  intros HR Hk Hl Hi E. destruct (rope_d r str k HR Hk Hl) as (d & xs & T & Hd & Hdk). destruct HR as (xs' & T' & Ex & Hn & Hcur & Md).
  assert (xs' = xs) as ->. { destruct T' as [d' I']. exact (proj1 (io_det (rp_tree CAP r)) _ _ _ (in_order _ _ _ _ I') _ _ Hd). }
  assert (Id : r1 = r -> Touched (31 * k + 9) (rp_tree CAP r) (rp_tree CAP r1)) by (intros ->; eapply to_le; [apply to_refl0|lia]).
  unfold rope_ins_cursor in E. destruct (rp_cursor CAP r) as [[pos leaf]|] eqn:Ec; [|injection E as <- <-; by apply Id].
  destruct (decide (pos <= i)) as [Hp|Hp]; [|injection E as <- <-; by apply Id].
  destruct (Hcur pos leaf eq_refl) as (X & e & Y & -> & HX).
  destruct (tree_get_lf RL _ _ leaf e T) as [q Hg]; [clear; set_solver|]. change (@get_lf RT) with (@get_lf (RopeTrait CAP)) in E. rewrite Hg in E. cbn [rbind l_elem] in E.
  case_decide as D; [|injection E as <- <-; by apply Id].
  pose proof (tree_ve RL _ _ _ _ _ T) as Ve.
  destruct (ins_closure_ok CAP HC e (i - pos) s Ve) as (e' & rg & success & Ecl & Ve' & Vr & Hv); [cbn; lia|]. rewrite Ecl in E. cbn [rbind] in E.
  destruct (update_leaf _ _ _) as [[[valid sl] t1]| |] eqn:Eu; cbn [rbind] in E; [|done..]. injection E as <- <-. cbn [rp_tree].
  eapply to_le; [eapply (t_update_leaf_to RL _ d X leaf e Y _ e' true rg None); try done|lia].
Qed.
Lemma from_str_short s gs : length s <= CAP -> from_str CAP s = Ok gs -> length gs <= 1.
Proof.
  unfold from_str. destruct s as [|b s]; [intros _ E; cbn in E; injection E as <-; cbn; lia|]. intros Hl. cbn [length from_str_f]. rewrite (drop_ge (b :: s)) by done. intros E. rs E.
  assert (y1 = []) as ->. { destruct (length s); cbn in Ey1; congruence. } injection E as <-. cbn. lia.
Qed.
Lemma insert_one_to t d xs cur e t' : Tree RL t xs -> InOrder t (root t) d xs -> insert_one t cur e = Ok t' -> Touched (57 * d + 41) t t'.
Proof.
  intros T Hd E. destruct cur as [c|]; cbn [insert_one] in E.
  - destruct (insert_by_path _ _ _) as [[[a b] t1]| |] eqn:E1; cbn [rbind] in E; [|done..]. injection E as <-. by eapply (t_insert_by_path_to RL).
  - destruct (push _ _) as [[a t1]| |] eqn:E1; cbn [rbind] in E; [|done..]. injection E as <-. eapply to_le; [by eapply (t_push_to RL)|lia].
Qed.
Theorem rope_insert_to r str i s k r' : RopeOf CAP r str -> 1 <= k -> length str <= 5 ^ k -> i <= length str -> length s <= CAP ->
  rope_insert CAP r i s = Ok r' -> Touched (88 * k + 50) (rp_tree CAP r) (rp_tree CAP r').
Proof.
  intros HR Hk Hl Hi Hs E. unfold rope_insert in E. case_decide; [done|]. destruct (rope_is_empty CAP r).
  - destruct (from_str CAP s) as [gs| |] eqn:Eg; cbn [rbind] in E; [|done..]. apply from_str_short in Eg; [|done].
    destruct (rope_d r str k HR Hk Hl) as (d & xs & T & Hd & Hdk).
    destruct gs as [|g [|g2 gs]]; [| |cbn in Eg; lia]; cbn [Rope.push_all rbind] in E.
    + injection E as <-. eapply to_le; [apply to_refl0|lia].
    + destruct (@push RT _ _) as [[c t1]| |] eqn:Ep; cbn [rbind] in E; [|done..]. injection E as <-. eapply to_le; [by eapply (t_push_to RL)|lia].
  - destruct (rope_ins_cursor CAP r i s) as [[dn r1]| |] eqn:E1; cbn [rbind] in E; [|done..].
    pose proof (rope_ins_cursor_to r str i s k dn r1 HR Hk Hl Hi E1) as T1.
    destruct (rope_ins_cursor_ok CAP HC r str i s HR Hi) as (dn' & r1' & E1' & HR1). rewrite E1 in E1'. injection E1' as <- <-.
    destruct dn; [injection E as <-; eapply to_le; [exact T1|lia]|].
    destruct (rope_d r1 str k HR1 Hk Hl) as (d & xs & T & Hd & Hdk).
    destruct (query_with_finder_return _ _ _) as [[q f]| |]; cbn [rbind] in E; [|done..].
    match type of E with rbind ?m _ = _ => destruct m as [cur| |]; cbn [rbind] in E; [|done..] end.
    destruct (from_str CAP s) as [gs| |] eqn:Eg; cbn [rbind] in E; [|done..]. apply from_str_short in Eg; [|done].
    destruct (insert_many_by_cursor _ _ _) as [t2| |] eqn:Em; cbn [rbind] in E; [|done..]. injection E as <-. cbn [rp_tree].
    assert (T2 : Touched (57 * k + 41) (rp_tree CAP r1) t2); [|eapply to_le; [eapply Touch.to_trans; [exact T1|exact T2]|lia]].
    destruct gs as [|g [|g2 gs]]; [| |cbn in Eg; lia]; cbn [insert_many_by_cursor] in Em.
    + injection Em as <-. eapply to_le; [apply to_refl0|lia].
    + eapply to_le; [by eapply insert_one_to|lia].
Qed.
Theorem rope_delete_to r str st en k r' : RopeOf CAP r str -> 1 <= k -> length str <= 5 ^ k -> en <= S st ->
  rope_delete_range CAP r st en = Ok r' -> Touched (31 * k + 16) (rp_tree CAP r) (rp_tree CAP r').
Proof.
  intros HR Hk Hl Hen E. destruct (rope_d r str k HR Hk Hl) as (d & xs & T & Hd & Hdk). destruct HR as (xs' & T' & Ex & Hn & Hcur & Md).
  assert (xs' = xs) as ->. { destruct T' as [d' I']. exact (proj1 (io_det (rp_tree CAP r)) _ _ _ (in_order _ _ _ _ I') _ _ Hd). }
  assert (Id : r' = r -> Touched (31 * k + 16) (rp_tree CAP r) (rp_tree CAP r')) by (intros ->; eapply to_le; [apply to_refl0|lia]).
  unfold rope_delete_range in E. destruct (rope_is_empty CAP r); [injection E as <-; by apply Id|].
  assert (Hen' : Nat.min en (rope_len CAP r) <= S (Nat.min st (Nat.min en (rope_len CAP r)))) by lia.
  set (en1 := Nat.min en (rope_len CAP r)) in *. set (st1 := Nat.min st en1) in *.
  assert (Hse : st1 <= en1) by lia. clearbody st1 en1. clear Hen st en.
  case_decide as D; [injection E as <-; by apply Id|]. match type of E with rbind ?m _ = _ => destruct m as [o| |] eqn:Eo; cbn [rbind] in E; [|done..] end.
  destruct o as [r1|].
  - injection E as <-. destruct (rp_cursor CAP r) as [[pos leaf]|] eqn:Ec; [|done]. case_decide as D1; [|done].
    destruct (Hcur pos leaf eq_refl) as (X & e & Y & -> & HX).
    destruct (tree_get_lf RL _ _ leaf e T) as [q Hg]; [clear; set_solver|]. change (@get_lf RT) with (@get_lf (RopeTrait CAP)) in Eo. rewrite Hg in Eo. cbn [rbind l_elem] in Eo.
    case_decide as D2; [|done]. pose proof (tree_ve RL _ _ _ _ _ T) as Ve.
    destruct (gb_delete_ok CAP e (st1 - pos) (en1 - pos) Ve) as (g & Eg & Wg & Vg). rewrite Eg in Eo. cbn [rbind] in Eo.
    destruct (update_leaf _ _ _) as [[[valid sl] t1]| |] eqn:Eu; cbn [rbind] in Eo; [|done..]. injection Eo as <-. cbn [rp_tree].
    eapply to_le; [eapply (t_update_leaf_to RL _ d X leaf e Y _ g true None None); try done|lia].
  - clear Eo. rewrite decide_True in E by lia. match type of E with rbind ?m _ = _ => destruct m as [[[l off] g]| |]; cbn [rbind] in E; [|done..] end.
    destruct (update_leaf_by_search _ _ _ _) as [[[c sl] t1]| |] eqn:Eu; cbn [rbind] in E; [|done..].
    assert (Touched (31 * k + 16) (rp_tree CAP r) t1) as T1. { eapply to_le; [by eapply (t_ulbs_to RL)|lia]. }
    destruct c as [c|]; [|by injection E as <-]. rs E. by injection E as <-.
Qed.
End rope.

Section upd.
Context {B : BTreeTrait} (L : Lawful B).
Lemma log_ulbs (Q : Query B) (t : btree B) xs k (q : QArg Q) f x t' : Tree L t xs -> MDw true t -> 1 <= k -> length xs <= 5 ^ k ->
  update_leaf_by_search Q t q f = Ok (x, t') -> Touched (31 * k + 16) t t'.
Proof. intros T M Hk Hl E. destruct (thick_d L _ _ _ T M Hk Hl) as (d & Hd & Hdk). eapply to_le; [by eapply (t_ulbs_to L)|lia]. Qed.
Lemma log_update_leaf (t : btree B) k X l e Y f e1 (upd : bool) n1 n2 r t' : Tree L t (X ++ (l, e) :: Y) -> MDw true t -> 1 <= k -> length (X ++ (l, e) :: Y) <= 5 ^ k ->
  f e = (e1, (upd, n1, n2)) -> evalid L e1 -> (forall x, n1 = Some x -> evalid L x) -> (forall x, n2 = Some x -> evalid L x) ->
  (upd = false -> get_elem_cache (default e1 (head (ul_parts e1 n1 n2))) = get_elem_cache e) ->
  update_leaf t l f = Ok (r, t') -> Touched (31 * k + 9) t t'.
Proof.
  intros T M Hk Hl Hf V1 V2 V3 Hu E. destruct (thick_d L _ _ _ T M Hk Hl) as (d & Hd & Hdk). eapply to_le; [by eapply (t_update_leaf_to L)|lia].
Qed.
End upd.

(** the sixth leaf of fourteen is replaced by three pieces (in a tree of depth two) *)
Lemma touch_upd : exists (t : btree RT) (X : list (nat * Elem RT)) (e : Elem RT) (Y : list (nat * Elem RT)) r t', Tree RL t (X ++ (5, e) :: Y) /\ length X = 5 /\ length Y = 8 /\
  evalid RL (gbs [1; 2]) /\ update_leaf t 5 (fun _ => (gbs [1; 2], (true, Some (gbs [3]), Some (gbs [4])))) = Ok (r, t').
Proof.
  destruct demo_tree as (t & E & T & _ & _ & _ & Hx).
  assert (@length (nat * Elem RT) (elems t) = 14) as Hl by (apply (f_equal length) in Hx; rewrite map_length in Hx; exact Hx).
  destruct (lookup_lt_is_Some_2 (elems t) 5) as [[l e] E5]; [rewrite Hl; lia|].
  assert (((fun x : nat * Elem RT => (fst x, to_vec (snd x))) <$> (elems t !! 5)) = Some (5, [30; 31; 32])) as H5
    by (rewrite <- list_lookup_fmap; exact (f_equal (fun l => l !! 5) Hx)).
  rewrite E5 in H5. injection H5 as -> He.
  assert (H : (let? t := Demo.push_all (B := RT) bt_new dgb in
    Ok (isok (update_leaf t 5 (fun _ : Elem RT => (gbs [1; 2] : Elem RT, (true, Some (gbs [3] : Elem RT), Some (gbs [4] : Elem RT))))))) = Ok true) by (vm_compute; reflexivity).
  rewrite E in H. cbn [rbind] in H. apply Ok_inj in H.
  destruct (update_leaf t 5 _) as [[r t']| |] eqn:Eu in H; [|done..].
  exists t, (take 5 (elems t)), e, (drop 6 (elems t)), r, t'.
  split. { pose proof (take_drop_middle _ _ _ E5) as Em. rewrite <- Em in T at 1. exact T. }
  split; [rewrite take_length, Hl; done|]. split; [rewrite drop_length, Hl; done|]. split; [apply gbs_valid; cbn; lia|exact Eu].
Qed.
(** sixty bytes in buffers of four; a byte that fits in the buffer of the cursor, and text in the middle that splits a leaf *)
Lemma touch_rope : exists r r1 r2, RopeOf 4 r (seq 0 60) /\ rope_insert 4 r 30 [7; 8; 9] = Ok r1 /\ RopeOf 4 r1 (seq 0 30 ++ [7; 8; 9] ++ seq 30 30) /\
  rope_insert 4 r1 31 [5] = Ok r2 /\ length (seq 0 60) <= 5 ^ 3 /\ isok (rope_delete_range 4 r 17 18) = true /\ isok (rope_delete_range 4 r1 31 32) = true.
Proof.
  destruct (rope_insert_ok 4 ltac:(lia) (rope_new 4) [] 0 (seq 0 60) (rope_new_ok 4)) as (r & E & HR); [cbn; lia|].
  change (ins 0 (seq 0 60) []) with (seq 0 60) in HR.
  destruct (rope_insert_ok 4 ltac:(lia) r (seq 0 60) 30 [7; 8; 9] HR) as (r1 & E1 & HR1); [cbn; lia|].
  change (ins 30 [7; 8; 9] (seq 0 60)) with (seq 0 30 ++ [7; 8; 9] ++ seq 30 30) in HR1.
  destruct (rope_insert_ok 4 ltac:(lia) r1 _ 31 [5] HR1) as (r2 & E2 & HR2); [cbn; lia|].
  exists r, r1, r2. split; [exact HR|]. split; [exact E1|]. split; [exact HR1|]. split; [exact E2|]. split; [cbn; lia|].
  assert (H : (let? r := rope_insert 4 (rope_new 4) 0 (seq 0 60) in let? r1 := rope_insert 4 r 30 [7; 8; 9] in
    Ok (isok (rope_delete_range 4 r 17 18), isok (rope_delete_range 4 r1 31 32))) = Ok (true, true)) by (vm_compute; reflexivity).
  rewrite E in H. cbn [rbind] in H. rewrite E1 in H. cbn [rbind] in H. apply Ok_inj, pair_inj in H as [H1 H2]. by split.
Qed.
