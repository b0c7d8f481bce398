(** Demo5.v — a concrete history meets the hypotheses of PropHist.v's theorems. *)
From Verif Require Export Demo4 Hist.

Notation HO := (op RT nat).
Definition gwfb (g : gbuf) : bool := (length (gb_buf g) =? 4) && (gb_start g + gb_gap g <=? 4).
Lemma gwfb_ok g : gwfb g = true -> gwf 4 g.
Proof. unfold gwfb, gwf. intros [H1 H2]%andb_true_iff. apply Nat.eqb_eq in H1. apply Nat.leb_le in H2. done. Qed.
Definition posof (t : btree RT) (l : nat) : option (nat * (nat * Elem RT)) := list_find (fun x => fst x = l) (elems t).
Definition range_b (t : btree RT) (a b : cursor) : bool :=
  match depth t, posof t (cu_leaf a), posof t (cu_leaf b) with
  | Ok d, Some (i, (_, ea)), Some (j, (_, eb)) => (d <=? 7) && (cu_offset a <=? gb_len ea) && (cu_offset b <=? gb_len eb) && (i <? j)
  | _, _, _ => false
  end.
Definition okb (t : btree RT) (o : HO) : bool :=
  match o with
  | OPush x => gwfb x
  | OPrepend x => gwfb x && negb (bool_decide (length (elems t) = 0))
  | OInsert c x => gwfb x && match posof t (cu_leaf c) with Some (_, (_, e)) => cu_offset c <=? gb_len e | None => false end
  | ORemove _ => true
  | OUpdate a b _ _ _ => range_b t a b
  | ODrain a b k => range_b t a b && forallb (fun x : nat * Elem RT => negb (gb_len (snd x) =? 0)) (elems t)
  | _ => false
  end.
Definition upd_ok (o : HO) : Prop := match o with OUpdate _ _ ord fu _ => (forall w, ord w ≡ₚ w) /\ upd_sound RL fu | _ => True end.
Lemma posof_ok t xs l i l' e : Tree RL t xs -> posof t l = Some (i, (l', e)) -> l' = l /\ xs !! i = Some (l, e).
Proof.
  intros T H. unfold posof in H. rewrite (Tree_elems RL t xs T) in H. apply list_find_Some in H as (H1 & H2 & _). cbn in H2. subst. done.
Qed.
Lemma range_b_ok t xs a b : Tree RL t xs -> range_b t a b = true -> valid_range RL t xs a b /\ 
  exists i j ea eb, i < j /\ xs !! i = Some (cu_leaf a, ea) /\ xs !! j = Some (cu_leaf b, eb).
Proof.
  intros T H. unfold range_b in H. destruct (depth t) as [d| |] eqn:Ed; [|done|done].
  destruct (posof t (cu_leaf a)) as [[i [la ea]]|] eqn:Ea; [|done]. destruct (posof t (cu_leaf b)) as [[j [lb eb]]|] eqn:Eb; [|done].
  apply andb_true_iff in H as [H Hij]. apply andb_true_iff in H as [H Hb]. apply andb_true_iff in H as [Hd Ha].
  apply Nat.ltb_lt in Hij. apply Nat.leb_le in Hd, Ha, Hb.
  destruct (posof_ok _ _ _ _ _ _ T Ea) as [-> Hi]. destruct (posof_ok _ _ _ _ _ _ T Eb) as [-> Hj].
  assert (Sh : Shallow t 7). { apply (shallow_depth RL t d 7 xs T); [by intros ->|done|lia]. }
  assert (H1 : (cu_leaf a, ea) ∈ xs) by (by eapply elem_of_list_lookup_2).
  assert (H2 : (cu_leaf b, eb) ∈ xs) by (by eapply elem_of_list_lookup_2).
  assert (H3 : cur_le xs a b).
  { right. exists (take (S i) xs), (drop (S i) xs). split; [by rewrite take_drop|]. split.
    - apply elem_of_list_fmap. exists (cu_leaf a, ea). split; [done|]. apply (elem_of_list_lookup_2 _ i). rewrite lookup_take by lia. done.
    - apply elem_of_list_fmap. exists (cu_leaf b, eb). split; [done|]. apply (elem_of_list_lookup_2 _ (j - S i)). rewrite lookup_drop. rewrite <- Hj. f_equal. lia. }
  split; [|by exists i, j, ea, eb]. split; [done|]. split; [|by exists ea, eb].
  destruct (cuts_shallow RL t xs a b ea eb T H1 Ha H2 Hb H3) as (t2 & E & S2). exists t2. split; [done|]. exact (S2 _ Sh).
Qed.
Lemma okb_ok t xs o : Tree RL t xs -> upd_ok o -> okb t o = true -> okx RL t xs o.
Proof.
  intros T Hu H. destruct o as [x|x|c x|c|l f|a b ord fu s|a b k|Q q f]; cbn [okb okx upd_ok] in *; try done.
  - by apply gwfb_ok.
  - apply andb_true_iff in H as [H1 H2]. split; [by apply gwfb_ok|]. rewrite (Tree_elems RL t xs T) in H2. intros ->. by cbn in H2.
  - apply andb_true_iff in H as [H1 H2]. split; [by apply gwfb_ok|]. destruct (posof t (cu_leaf c)) as [[i [l e]]|] eqn:E; [|done].
    destruct (posof_ok _ _ _ _ _ _ T E) as [-> Hi]. exists e. apply Nat.leb_le in H2. split; [by eapply elem_of_list_lookup_2|]. split; [done|]. by left.
  - split; [by apply (range_b_ok t xs a b T H)|exact Hu].
  - apply andb_true_iff in H as [H1 H2]. destruct (range_b_ok t xs a b T H1) as [Hv (i & j & ea & eb & Hij & Hi & Hj)]. split; [done|]. split.
    + intros l e Hin. rewrite (Tree_elems RL t xs T) in H2. rewrite forallb_forall in H2.
      specialize (H2 (l, e) (proj1 (elem_of_list_In _ _) Hin)). cbn in H2. apply negb_true_iff, Nat.eqb_neq in H2. done.
    + intros X e -> _. pose proof (tree_nodup RL _ _ T) as Hnd. assert (Hx : (X ++ [(cu_leaf a, e)]) !! length X = Some (cu_leaf a, e)) by (by apply list_lookup_middle).
      assert (i = length X) as ->. { eapply (NoDup_lookup _ _ _ (cu_leaf a) Hnd); rewrite list_lookup_fmap; [by rewrite Hi|by rewrite Hx]. }
      apply lookup_lt_Some in Hj. rewrite app_length in Hj. cbn in Hj.
      apply (Nat.lt_irrefl j). eapply Nat.lt_le_trans; [exact Hj|]. rewrite Nat.add_1_r. exact Hij.
Qed.
Fixpoint hist_b (t : btree RT) (os : list HO) : bool :=
  match os with [] => true | o :: os' => okb t o && match run_op t o with Ok t' => hist_b t' os' | _ => false end end.
Lemma hist_b_ok os : forall t xs, Tree RL t xs -> Forall upd_ok os -> hist_b t os = true -> valid_ops RL t os.
Proof.
  induction os as [|o os IH]; intros t xs T HF H; [done|]. cbn [hist_b valid_ops] in *. apply Forall_cons in HF as [Hu HF]. apply andb_true_iff in H as [H1 H2].
  pose proof (okb_ok t xs o T Hu H1) as Ho. split; [exists xs; split; [by apply (Tree_content RL)|done]|].
  intros t' E. rewrite E in H2. destruct (step_ok RL t xs o T ltac:(by left) Ho) as (t1 & x1 & E1 & T1 & _). rewrite E in E1. injection E1 as <-.
  by eapply IH.
Qed.
(** fourteen pushes, a prepend, insertions into leaf 5, removals, an update and a drain of several leaves *)
Definition demo_hist : list HO :=
  map (fun g => OPush (g : Elem RT)) dgb ++
  [OPrepend (gbs [1; 2; 3; 4] : Elem RT); OInsert (mkCur 5 1) (gbs [8; 8; 8] : Elem RT); ORemove (mkCur 3 0); ORemove (mkCur 3 0);
   OUpdate (mkCur 1 1) (mkCur 4 2) (fun w => w) dfu 0; ODrain (mkCur 6 1) (mkCur 11 2) 1; OInsert (mkCur 13 3) (gbs [9; 9] : Elem RT)].
Lemma demo_hist_ok : valid_ops RL bt_new demo_hist.
Proof.
  apply (hist_b_ok _ _ [] (Tree_new RL)); [|by vm_compute]. unfold demo_hist. apply Forall_app. split.
  - apply Forall_forall. intros o Ho. apply elem_of_list_fmap in Ho as (g & -> & _). done.
  - repeat (apply Forall_cons; split; [first [exact I | split; [done | exact dfu_sound]]|]). by apply Forall_nil.
Qed.
Lemma demo_hist_run : valid_ops RL bt_new demo_hist /\ exists t : btree RT, run_ops demo_hist bt_new = Ok t /\ Shallow t 9 /\
  map fst (elems t) = [14; 0; 1; 18; 2; 4; 17; 5; 16; 15; 6; 19; 12; 13; 21] /\ get_elem t 3 = None.
Proof.
  split; [exact demo_hist_ok|].
  assert (H : (let? t := run_ops demo_hist bt_new in let? d := depth t in Ok (d <=? 9, map fst (elems t), bool_decide (get_elem t 3 = None))) =
    Ok (true, [14; 0; 1; 18; 2; 4; 17; 5; 16; 15; 6; 19; 12; 13; 21], true)) by (by vm_compute).
  destruct (reach_ok RL demo_hist demo_hist_ok) as (t & xs & E & T & _). exists t. split; [exact E|]. rewrite E in H. clear E. cbn [rbind] in H.
  destruct (depth t) as [d| |] eqn:Ed; cbn [rbind] in H; [|discriminate H|discriminate H]. injection H as H1 H2 H3. apply Nat.leb_le in H1.
  split; [|split; [exact H2|apply bool_decide_eq_true in H3; exact H3]].
  apply (shallow_depth RL t d 9 xs T); [|done|lia]. rewrite (Tree_elems RL t xs T) in H2. intros ->. done.
Qed.
(** leaf 3 is live after thirteen pushes, dead after the removal, and leaf 5 is not touched by the removal of leaf 3 *)
Lemma demo_hist_dead : exists os1 os2 os3 (t1 t2 t3 : btree RT) e, demo_hist = os1 ++ os2 ++ os3 /\ run_ops os1 bt_new = Ok t1 /\ get_elem t1 3 = Some e /\
  run_ops os2 t1 = Ok t2 /\ get_elem t2 3 = None /\ run_ops os3 t2 = Ok t3 /\ length os3 = 4.
Proof.
  pose proof demo_hist_ok as Hv.
  assert (Es : demo_hist = take 16 demo_hist ++ take 1 (drop 16 demo_hist) ++ drop 17 demo_hist) by reflexivity.
  rewrite Es in Hv.
  destruct (history_ok RL (take 16 demo_hist) bt_new [] (Tree_new RL)) as (t1 & x1 & E1 & T1 & M1 & _); [by left| |].
  { destruct (history_ok RL _ bt_new [] (Tree_new RL) ltac:(by left) Hv) as (t & xs & E & _). rewrite run_ops_app in E.
    destruct (run_ops (take 16 demo_hist) bt_new) as [t1| |] eqn:E1; cbn [rbind] in E; [|discriminate E|discriminate E]. by apply (valid_app RL _ _ _ t1 Hv). }
  destruct (valid_app RL _ _ _ t1 Hv E1) as [_ V2].
  destruct (history_ok RL _ t1 x1 T1 M1 V2) as (t3 & x3 & E3 & _). rewrite run_ops_app in E3.
  destruct (run_ops (take 1 (drop 16 demo_hist)) t1) as [t2| |] eqn:E2; cbn [rbind] in E3; [|discriminate E3|discriminate E3].
  assert (H : (let? t1 := run_ops (take 16 demo_hist) bt_new in let? t2 := run_ops (take 1 (drop 16 demo_hist)) t1 in
     Ok (bool_decide (is_Some (get_elem t1 3)), bool_decide (get_elem t2 3 = None))) = Ok (true, true)) by (by vm_compute).
  rewrite E1 in H. cbn [rbind] in H. rewrite E2 in H. cbn [rbind] in H. injection H as H1 H2. apply bool_decide_eq_true in H1 as [e H1]. apply bool_decide_eq_true in H2.
  exists (take 16 demo_hist), (take 1 (drop 16 demo_hist)), (drop 17 demo_hist), t1, t2, t3, e. repeat split; first [exact Es|exact E1|exact H1|exact E2|exact H2|exact E3|reflexivity].
Qed.
Lemma demo_hist_stable : exists (os : list HO) (t : btree RT) xs e, valid_ops RL bt_new (os ++ [ORemove (mkCur 3 0)]) /\ run_ops os bt_new = Ok t /\
  Content t xs /\ get_elem t 5 = Some e /\ ~ touches t xs (ORemove (mkCur 3 0) : HO) 5.
Proof.
  pose proof demo_hist_ok as Hv.
  assert (Es : demo_hist = take 16 demo_hist ++ [ORemove (mkCur 3 0)] ++ drop 17 demo_hist) by reflexivity.
  rewrite Es in Hv. rewrite app_assoc in Hv.
  destruct (history_ok RL _ bt_new [] (Tree_new RL) ltac:(by left) Hv) as (t & xs & E & _). rewrite run_ops_app in E.
  destruct (run_ops (take 16 demo_hist ++ [ORemove (mkCur 3 0)]) bt_new) as [t2| |] eqn:E2; cbn [rbind] in E; [|discriminate E|discriminate E].
  destruct (valid_app RL _ _ _ t2 Hv E2) as [V _]. rewrite run_ops_app in E2.
  destruct (run_ops (take 16 demo_hist) bt_new) as [t1| |] eqn:E1; cbn [rbind] in E2; [|discriminate E2|discriminate E2].
  destruct (valid_app RL _ _ _ t1 V E1) as [V1 _].
  destruct (history_ok RL _ bt_new [] (Tree_new RL) ltac:(by left) V1) as (t1' & x1 & E1' & T1 & _). rewrite E1 in E1'. injection E1' as <-.
  assert (H : (let? t1 := run_ops (take 16 demo_hist) bt_new in Ok (bool_decide (is_Some (get_elem t1 5)))) = Ok true) by (by vm_compute).
  rewrite E1 in H. cbn [rbind] in H. injection H as H. apply bool_decide_eq_true in H as [e H].
  exists (take 16 demo_hist), t1, x1, e. split; [exact V|]. split; [exact E1|]. split; [exact (Tree_content RL _ _ T1)|]. split; [exact H|]. intros Ht. discriminate Ht.
Qed.
