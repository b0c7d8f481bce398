(** Touch12.v — how many arena entries a deletion inside one buffer of a rope writes. *)
From Verif Require Export Touch5.
From Verif Require Import RopeP.

Section rope.
Context (CAP : nat) (HC : 0 < CAP).
Notation RT := (RopeTrait CAP).
Notation RL := (RopeLaw CAP).
Implicit Types (r : rope CAP) (s str : list nat).

(** a position in the buffer [e], or behind the last buffer, is found in [e] *)
Lemma rope_query_in (t : btree RT) (X : list (nat * Elem RT)) l (e : Elem RT) Y p : Tree RL t (X ++ (l, e) :: Y) -> tlen X <= p ->
  p < tlen X + @rle_len RT e \/ Y = [] -> exists o b, query (@LengthFinder RT rope_get_len) t p = Ok (Some (mkQR (mkCur l o) b)).
Proof.
  intros T Hp Hor. destruct (decide (p < tlen X + @rle_len RT e)) as [Hlt|Hge].
  - exists (p - tlen X), true. pose proof (t_len_query_in RL rope_get_len t X l e Y (p - tlen X) (rope_LenCache CAP) T ltac:(lia)) as Q. by replace (tlen X + (p - tlen X)) with p in Q by lia.
  - destruct Hor as [Hx|Hx]; [lia|]; subst Y. destruct (t_len_query RL rope_get_len t _ p (rope_LenCache CAP) T ltac:(by destruct X)) as (X' & l' & e' & Y' & fs & Ex & H1 & H2 & EQ & _).
    assert (Y' = []) as ->. { apply H2. apply (f_equal tlen) in Ex. rewrite !tlen_app, !tlen_cons, tlen_nil in Ex. lia. }
    apply app_inj_tail in Ex as [<- [= <- <-]]. unfold query. rewrite EQ. cbn [rbind]. eauto.
Qed.
Lemma rope_del_in_to r str st en k r' (X : list (nat * Elem RT)) l (e : Elem RT) Y : RopeOf CAP r str -> 1 <= k -> length str <= 5 ^ k ->
  Tree RL (rp_tree CAP r) (X ++ (l, e) :: Y) -> tlen X <= st -> en < tlen X + @rle_len RT e \/ Y = [] ->
  rope_delete_range CAP r st en = Ok r' -> Touched (31 * k + 16) (rp_tree CAP r) (rp_tree CAP r').
Proof.
  intros HR Hk Hl T0 Hst Hen E. destruct (decide (en <= S st)) as [Hs|Hs]; [by eapply (rope_delete_to CAP HC)|].
  destruct (rope_d CAP HC r str k HR Hk Hl) as (d & xs & T & Hd & Hdk). pose proof HR as (xs' & T' & Ex & Hn & Hcur & Md).
  assert (xs' = xs) as ->. { destruct T' as [d' I']. exact (proj1 (io_det (rp_tree CAP r)) _ _ _ (in_order _ _ _ _ I') _ _ Hd). }
  assert (xs = X ++ (l, e) :: Y) as ->. { destruct T0 as [d' I']. symmetry. exact (proj1 (io_det (rp_tree CAP r)) _ _ _ (in_order _ _ _ _ I') _ _ Hd). }
  assert (Hlen : length str = tlen (X ++ (l, e) :: Y)) by (rewrite <- Ex; by apply (rft_len CAP _ _ T)). rewrite tlen_app, tlen_cons in Hlen.
  destruct (decide (Nat.min en (length str) <= S (Nat.min st (Nat.min en (length str))))) as [Hs2|Hs2].
  { assert (E' : rope_delete_range CAP r st (Nat.min en (length str)) = Ok r').
    { unfold rope_delete_range in E |- *. rewrite (rope_len_ok CAP HC r str HR) in E |- *. cbv zeta in E |- *. by rewrite <- Nat.min_assoc, Nat.min_id. }
    eapply (rope_delete_to CAP HC); [exact HR|done|done| |exact E']. lia. }
  unfold rope_delete_range in E. destruct (rope_is_empty CAP r); [injection E as <-; eapply to_le; [apply to_refl0|lia]|].
  rewrite (rope_len_ok CAP HC r str HR) in E. cbv zeta in E.
  assert (Hen1 : Nat.min en (length str) < tlen X + @rle_len RT e \/ Y = []) by (destruct Hen; [left; lia|by right]).
  assert (Hst1 : Nat.min st (Nat.min en (length str)) = st) by lia. rewrite Hst1 in E, Hs2. assert (Hle : Nat.min en (length str) <= length str) by lia.
  set (en1 := Nat.min en (length str)) in *. clearbody en1. clear Hen Hs Hst1 en.
  rewrite decide_False in E by lia. match type of E with rbind ?m _ = _ => destruct m as [o| |] eqn:Eo; cbn [rbind] in E; [|done..] end.
  destruct o as [r1|].
  - injection E as <-. destruct (rp_cursor CAP r) as [[pos leaf]|] eqn:Ec; [|done]. case_decide as D1; [|done].
    destruct (Hcur pos leaf eq_refl) as (X1 & e1 & Y1 & Ex1 & HX). pose proof T as T1. pose proof Hd as Hd1. rewrite Ex1 in T1, Hd1.
    destruct (tree_get_lf RL _ _ leaf e1 T1) as [q Hg]; [clear; set_solver|]. change (@get_lf RT) with (@get_lf (RopeTrait CAP)) in Eo. rewrite Hg in Eo. cbn [rbind l_elem] in Eo.
    case_decide as D2; [|done]. pose proof (tree_ve RL _ _ _ _ _ T1) as Ve.
    destruct (gb_delete_ok CAP e1 (st - pos) (en1 - pos) Ve) as (g & Eg & Wg & Vg). rewrite Eg in Eo. cbn [rbind] in Eo.
    destruct (update_leaf _ _ _) as [[[valid sl] t1]| |] eqn:Eu; cbn [rbind] in Eo; [|done..]. injection Eo as <-. cbn [rp_tree].
    eapply to_le; [eapply (t_update_leaf_to RL _ d X1 leaf e1 Y1 _ g true None None); try done|lia].
  - clear Eo. rewrite decide_False in E by lia. change (RopeFinder CAP) with (@LengthFinder RT rope_get_len) in E.
    destruct (rope_query_in (rp_tree CAP r) X l e Y st T Hst) as (o1 & b1 & Q1). { destruct Hen1; [left; lia|by right]. }
    destruct (rope_query_in (rp_tree CAP r) X l e Y en1 T ltac:(lia) Hen1) as (o2 & b2 & Q2).
    rewrite Q1 in E. cbn [rbind] in E. rewrite Q2 in E. cbn [rbind qr_cursor cu_leaf cu_offset] in E. rewrite decide_True in E by done.
    destruct (tree_get_lf RL _ _ l e T) as [q Hg]; [clear; set_solver|]. change (@get_lf RT) with (@get_lf (RopeTrait CAP)) in E. rewrite Hg in E. cbn [rbind l_elem] in E.
    case_decide as D3.
    + destruct (remove_leaf _ _) as [[oe t1]| |] eqn:Er; cbn [rbind] in E; [|done..]. injection E as <-. cbn [rp_tree].
      eapply to_le; [by eapply (t_remove_to RL)|lia].
    + match type of E with rbind ?m _ = _ => destruct m as [g| |]; cbn [rbind] in E; [|done..] end.
      match type of E with rbind ?m _ = _ => destruct m as [t1| |] eqn:Er; cbn [rbind] in E; [|done..] end. injection E as <-. cbn [rp_tree].
      destruct (lev_tree RL _ _ _ T Hd) as (H & lv & HL & HH).
      assert (HL' : Lev (@set_lf RT (rp_tree CAP r) l (@with_elem RT (@mkLeaf RT e q) g)) H lv) by (by apply (lev_same (rp_tree CAP r))).
      destruct (ruc_st H lv _ _ _ _ _ Er HL') as [T1 _].
      eapply to_le; [eapply Touch.to_trans; [apply to_set_lf|exact T1]|lia].
Qed.
(** the range lies inside the buffer [e] (the last one: to its end), which starts after the text of the buffers [X] *)
Theorem rope_delete_in_to r str st en k r' (X : list (nat * Elem RT)) l (e : Elem RT) Y : RopeOf CAP r str -> 1 <= k -> length str <= 5 ^ k ->
  Tree RL (rp_tree CAP r) (X ++ (l, e) :: Y) ->
  length (concat (map (fun x => to_vec (snd x)) X)) <= st -> en < length (concat (map (fun x => to_vec (snd x)) X)) + length (to_vec e) \/ Y = [] ->
  rope_delete_range CAP r st en = Ok r' -> Touched (31 * k + 16) (rp_tree CAP r) (rp_tree CAP r').
Proof.
  intros HR Hk Hl T. change (concat (map (fun x => to_vec (snd x)) X)) with (Many.ft RL (RopeF CAP) X).
  rewrite (ft_len RL (RopeF CAP)) by (intros l0 e0 Hin; eapply (tree_vX RL _ _ _ _ _ T); exact Hin).
  rewrite (to_vec_length CAP e (tree_ve RL _ _ _ _ _ T)). intros H1 H2. by eapply rope_del_in_to.
Qed.
End rope.

(** two bytes inside the fifth buffer of sixty bytes in buffers of four *)
Lemma touch_rope_in : exists (r : rope 4) (X : list (nat * Elem (RopeTrait 4))) l (e : Elem (RopeTrait 4)) Y, RopeOf 4 r (seq 0 60) /\ length (seq 0 60) <= 5 ^ 3 /\
  Tree (RopeLaw 4) (rp_tree 4 r) (X ++ (l, e) :: Y) /\ length (concat (map (fun x => to_vec (snd x)) X)) = 16 /\ to_vec e = [16; 17; 18; 19] /\
  isok (rope_delete_range 4 r 17 19) = true.
Proof.
  destruct (rope_insert_ok 4 ltac:(lia) (rope_new 4) [] 0 (seq 0 60) (rope_new_ok 4)) as (r & E & HR); [cbn; lia|].
  change (ins 0 (seq 0 60) []) with (seq 0 60) in HR. pose proof HR as (xs & T & _).
  assert (H : (let? r := rope_insert 4 (rope_new 4) 0 (seq 0 60) in
    Ok (isok (rope_delete_range 4 r 17 19), map (fun x => to_vec (snd x)) (take 5 (elems (rp_tree 4 r))))) =
    Ok (true, [seq 0 4; seq 4 4; seq 8 4; seq 12 4; seq 16 4])) by (vm_compute; reflexivity).
  rewrite E in H. cbn [rbind] in H. apply Ok_inj, pair_inj in H as [H1 H2]. rewrite (Tree_elems (RopeLaw 4) _ _ T) in H2.
  destruct xs as [|x0 [|x1 [|x2 [|x3 [|[l e] Y]]]]]; [discriminate H2..|].
  exists r, [x0; x1; x2; x3], l, e, Y. split; [exact HR|]. split; [apply Nat.leb_le; by vm_compute|]. split; [exact T|].
  cbn [take map snd] in H2. injection H2 as E0 E1 E2 E3 E4. split; [|by split].
  cbn [map concat]. by rewrite E0, E1, E2, E3.
Qed.
(** everything from the second byte of the last buffer on *)
Lemma touch_rope_last : exists (r : rope 4) (X : list (nat * Elem (RopeTrait 4))) l (e : Elem (RopeTrait 4)), RopeOf 4 r (seq 0 60) /\
  Tree (RopeLaw 4) (rp_tree 4 r) (X ++ [(l, e)]) /\ length (concat (map (fun x => to_vec (snd x)) X)) = 56 /\ to_vec e = [56; 57; 58; 59] /\
  isok (rope_delete_range 4 r 57 70) = true.
Proof.
  destruct (rope_insert_ok 4 ltac:(lia) (rope_new 4) [] 0 (seq 0 60) (rope_new_ok 4)) as (r & E & HR); [cbn; lia|].
  change (ins 0 (seq 0 60) []) with (seq 0 60) in HR. pose proof HR as (xs & T & Ex & _).
  assert (H : (let? r := rope_insert 4 (rope_new 4) 0 (seq 0 60) in
    Ok (isok (rope_delete_range 4 r 57 70), map (fun x => to_vec (snd x)) (rev (elems (rp_tree 4 r))))) =
    Ok (true, rev (map (fun i => seq (4 * i) 4) (seq 0 15)))) by (vm_compute; reflexivity).
  rewrite E in H. cbn [rbind] in H. apply Ok_inj, pair_inj in H as [H1 H2]. rewrite (Tree_elems (RopeLaw 4) _ _ T) in H2.
  destruct (rev xs) as [|[l e] X] eqn:Er; [discriminate H2|]. apply (f_equal (@rev _)) in Er. rewrite rev_involutive in Er. cbn [rev] in Er. subst xs.
  exists r, (rev X), l, e. split; [exact HR|]. split; [exact T|]. cbn [map snd] in H2. pose proof (f_equal head H2) as E4. pose proof (f_equal (@tail _) H2) as E5. cbn [head tail] in E4, E5. injection E4 as E4. split; [|by split].
  etrans; [exact (f_equal (fun z => length (concat z)) (map_rev (fun x : nat * gbuf => to_vec (snd x)) X))|]. etrans; [exact (f_equal (fun z => length (concat (rev z))) E5)|]. reflexivity.
Qed.
