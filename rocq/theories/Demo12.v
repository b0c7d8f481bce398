(** Demo12.v — a history of all kinds of operations meets the hypotheses of PropHist2.v. *)
From Verif Require Export Demo5 Demo8 Hist2 RopeFl.

Notation HO2 := (op2 RT nat).
Definition at_b (t : btree RT) (l off : nat) : bool := match posof t l with Some (_, (_, e)) => off <=? gb_len e | None => false end.
Definition okb2 (t : btree RT) (o : HO2) : bool :=
  match o with
  | QBase o => okb t o
  | QMany c data => forallb gwfb data && at_b t (cu_leaf c) (cu_offset c)
  | QRanges A fu ord ord2 args => negb (bool_decide (length (elems t) = 0)) &&
      forallb (fun x : nat * (nat * nat * A) => (fst (fst (snd x)) <? snd (fst (snd x))) && at_b t (fst x) (snd (fst (snd x)))) args
  | QWrite l e u od => gwfb e && at_b t l 0 && match od with Some _ => false | None => true end
  | QFiltered _ _ _ => negb (bool_decide (length (elems t) = 0))
  | QClear => true
  | QCollect es => forallb gwfb es
  end.
(** the part about closures *)
Definition side (o : HO2) : Prop :=
  match o with
  | QBase o => upd_ok o
  | QRanges A fu ord ord2 args => (forall e a, evalid RL e -> evalid RL (fu e a)) /\ (forall w, ord w ≡ₚ w) /\ (forall w, ord2 w ≡ₚ w)
  | QFiltered nc dr g => nc = (fun c => c) /\ UcfLaw RL nc dr g
  | _ => True
  end.
Lemma forallb_gwf (data : list (Elem RT)) : forallb gwfb data = true -> Forall (evalid RL) data.
Proof. intros H. apply Forall_forall. intros e He. apply gwfb_ok. rewrite forallb_forall in H. apply H. by apply elem_of_list_In. Qed.
Lemma at_b_ok t xs l off : Tree RL t xs -> at_b t l off = true -> exists e, (l, e) ∈ xs /\ off <= @rle_len RT e.
Proof.
  intros T H. unfold at_b in H. destruct (posof t l) as [[i [l' e]]|] eqn:E; [|done]. destruct (posof_ok _ _ _ _ _ _ T E) as [-> Hi].
  exists e. apply Nat.leb_le in H. split; [by eapply elem_of_list_lookup_2|exact H].
Qed.
Lemma okb2_ok t xs o : Tree RL t xs -> side o -> okb2 t o = true -> okx2 RL t xs o.
Proof.
  intros T Hs H. destruct o as [o|c data|A fu ord ord2 args|l e' u od|nc dr g| |es]; cbn [okb2 okx2 side] in *.
  - by apply okb_ok.
  - apply andb_true_iff in H as [H1 H2]. split; [done|]. split; [by apply forallb_gwf|]. by apply (at_b_ok t).
  - destruct Hs as (Hf & Ho1 & Ho2). apply andb_true_iff in H as [H1 H2]. split_and!; try done.
    + rewrite (Tree_elems RL t xs T) in H1. intros ->. by cbn in H1.
    + intros l [[a b] y] Hin. rewrite forallb_forall in H2. specialize (H2 _ (proj1 (elem_of_list_In _ _) Hin)). cbn in H2. apply andb_true_iff in H2 as [H2 H3].
      apply Nat.ltb_lt in H2. destruct (at_b_ok t xs l b T H3) as (e & He & Hb). exists e. cbn. done.
  - apply andb_true_iff in H as [H H3]. apply andb_true_iff in H as [H1 H2]. destruct od; [done|]. split; [done|]. split; [done|]. split; [by apply gwfb_ok|].
    destruct (at_b_ok t xs l 0 T H2) as (e & He & _). exists e. split; [done|]. intros d [=].
  - destruct Hs as [-> HU]. split; [done|]. split; [done|]. symmetry. apply (ul_agg _ _ _ _ HU).
    + rewrite (Tree_elems RL t xs T) in H. intros ->. by cbn in H.
    + intros [l e] Hin. by apply (tree_valid RL t xs l e T).
  - done.
  - split; [done|]. by apply forallb_gwf.
Qed.
Fixpoint hist_b2 (t : btree RT) (os : list HO2) : bool :=
  match os with [] => true | o :: os' => okb2 t o && match run_op2 t o with Ok t' => hist_b2 t' os' | _ => false end end.
Lemma hist_b2_ok os : forall t xs, Tree RL t xs -> Forall side os -> hist_b2 t os = true -> valid_ops2 RL t os.
Proof.
  induction os as [|o os IH]; intros t xs T HF H; [done|]. cbn [hist_b2 valid_ops2] in *. apply Forall_cons in HF as [Hu HF]. apply andb_true_iff in H as [H1 H2].
  pose proof (okb2_ok t xs o T Hu H1) as Ho. split; [exists xs; split; [by apply (Tree_content RL)|done]|].
  intros t' E. rewrite E in H2. destruct (step2_ok RL (RopeF 4) t xs o T ltac:(by left) Ho) as (t1 & x1 & E1 & T1 & _). rewrite E in E1. injection E1 as <-.
  by eapply IH.
Qed.
(** a push; the tree replaced by fourteen collected chunks; bulk insertion in leaf 5; overlapping range
    updates; writes; a removal; a filtered update; an update of several leaves; a bulk insertion *)
Definition dh_a : list HO2 := [QBase (OPush (gbs [1; 2] : Elem RT)); QCollect (dgb : list (Elem RT))].
Definition dh_b : list HO2 :=
  [QMany (mkCur 5 1) [gbs [1; 2; 3; 4] : Elem RT; gbs [5; 6; 7; 8]; gbs [9]];
   QRanges nat gb_add (@rev _) (@rev _) [(2, (1, 3, 1)); (7, (0, 3, 5)); (2, (2, 4, 2))];
   QWrite 9 (gbs [7; 7] : Elem RT) true None; QWrite 10 (gbs [6] : Elem RT) false None].
Definition dh_c : list HO2 := [QBase (ORemove (mkCur 3 0))].
Definition dh_d : list HO2 := [QFiltered (fun c => c) u_dr u_g; QBase (OUpdate (mkCur 1 1) (mkCur 4 2) (fun w => w) dfu 0); QMany (mkCur 9 2) [gbs [1; 1; 1; 1] : Elem RT; gbs [2; 2; 2; 2]]].
Definition dh_all : list HO2 := dh_a ++ dh_b ++ dh_c ++ dh_d.
Lemma dh_side : Forall side dh_all.
Proof.
  unfold dh_all, dh_a, dh_b, dh_c, dh_d. cbn [app].
  repeat (apply Forall_cons; split; [|]); try apply Forall_nil; cbn [side upd_ok]; try done.
  - split; [intros; by apply gb_add_valid|]. split; intros w; symmetry; apply Permutation_rev.
  - split; [done|exact u_law].
  - split; [done|exact dfu_sound].
Qed.
Lemma dh_valid : valid_ops2 RL bt_new dh_all.
Proof. apply (hist_b2_ok _ _ [] (Tree_new RL) dh_side). by vm_compute. Qed.
Definition dh_out : list (nat * list nat) :=
  [(0, [110; 110; 110; 110]); (1, [110]); (18, [9]); (2, [9]); (4, [9]); (17, [130; 130]); (5, [30]); (16, [101; 102; 103; 104]);
   (15, [105; 106; 107; 108]); (14, [109; 131; 132]); (6, [140; 140; 140; 140]); (7, [640; 641; 642]); (8, [150; 150; 150; 150]); (9, [7; 7]);
   (20, [1; 1; 1; 1]); (19, [2; 2; 2; 2]); (10, [6]); (11, [160; 161; 162]); (12, [170; 170; 170; 170]); (13, [170; 171; 172])].
Lemma dh_run : valid_ops2 RL bt_new dh_all /\ exists t : btree RT, run_ops2 dh_all bt_new = Ok t /\ Shallow t 9 /\
  map (fun x => (fst x, to_vec (snd x))) (elems t) = dh_out /\ get_elem t 3 = None.
Proof.
  split; [exact dh_valid|].
  assert (H : (let? t := run_ops2 dh_all bt_new in let? d := depth t in Ok (d <=? 9, map (fun x => (fst x, to_vec (snd x))) (elems t), bool_decide (get_elem t 3 = None))) =
    Ok (true, dh_out, true)) by (by vm_compute).
  destruct (reach2_ok RL (RopeF 4) dh_all dh_valid) as (t & xs & E & T & _). exists t. split; [exact E|]. rewrite E in H. clear E. cbn [rbind] in H.
  destruct (depth t) as [d| |] eqn:Ed; cbn [rbind] in H; [|discriminate H|discriminate H]. injection H as H1 H2 H3. apply Nat.leb_le in H1.
  split; [|split; [exact H2|apply bool_decide_eq_true in H3; exact H3]].
  apply (shallow_depth RL t d 9 xs T); [|done|lia]. rewrite (Tree_elems RL t xs T) in H2. intros ->. discriminate H2.
Qed.
Lemma dh_dead : exists os1 os2 os3 (t1 t2 t3 : btree RT) e, dh_all = os1 ++ os2 ++ os3 /\ Forall (fun o => ~ resets o) (os2 ++ os3) /\
  run_ops2 os1 bt_new = Ok t1 /\ get_elem t1 3 = Some e /\
  run_ops2 os2 t1 = Ok t2 /\ get_elem t2 3 = None /\ run_ops2 os3 t2 = Ok t3 /\ length os3 = 3.
Proof.
  pose proof dh_valid as Hv. assert (Es : dh_all = (dh_a ++ dh_b) ++ dh_c ++ dh_d) by reflexivity. rewrite Es in Hv.
  destruct (reach2_ok RL (RopeF 4) _ Hv) as (t3 & x3 & E3 & _). rewrite run_ops2_app in E3.
  destruct (run_ops2 (dh_a ++ dh_b) bt_new) as [t1| |] eqn:E1; cbn [rbind] in E3; [|discriminate E3|discriminate E3]. rewrite run_ops2_app in E3.
  destruct (run_ops2 dh_c t1) as [t2| |] eqn:E2; cbn [rbind] in E3; [|discriminate E3|discriminate E3].
  assert (H : (let? t1 := run_ops2 (dh_a ++ dh_b) bt_new in let? t2 := run_ops2 dh_c t1 in
     Ok (bool_decide (is_Some (get_elem t1 3)), bool_decide (get_elem t2 3 = None))) = Ok (true, true)) by (by vm_compute).
  rewrite E1 in H. cbn [rbind] in H. rewrite E2 in H. cbn [rbind] in H. injection H as H1 H2. apply bool_decide_eq_true in H1 as [e H1]. apply bool_decide_eq_true in H2.
  exists (dh_a ++ dh_b), dh_c, dh_d, t1, t2, t3, e. split; [exact Es|]. split; [repeat (apply Forall_cons; split; [intros []|]); by apply Forall_nil|].
  repeat split; first [exact E1|exact H1|exact E2|exact H2|exact E3|reflexivity].
Qed.
(** the range updates (the fourth operation) leave leaf 9 alone *)
Lemma dh_stable : exists (os : list HO2) (o : HO2) (t : btree RT) xs e, valid_ops2 RL bt_new (os ++ [o]) /\ o = QRanges nat gb_add (@rev _) (@rev _) [(2, (1, 3, 1)); (7, (0, 3, 5)); (2, (2, 4, 2))] /\
  run_ops2 os bt_new = Ok t /\ Content t xs /\ get_elem t 9 = Some e /\ ~ touches2 t xs o 9.
Proof.
  pose proof dh_valid as Hv.
  set (o := QRanges nat gb_add (@rev _) (@rev _) [(2, (1, 3, 1)); (7, (0, 3, 5)); (2, (2, 4, 2))] : HO2).
  assert (Es : dh_all = (take 3 dh_all ++ [o]) ++ drop 4 dh_all) by reflexivity. rewrite Es in Hv.
  destruct (reach2_ok RL (RopeF 4) _ Hv) as (t3 & x3 & E3 & _). rewrite run_ops2_app in E3.
  destruct (run_ops2 (take 3 dh_all ++ [o]) bt_new) as [t2| |] eqn:E2; cbn [rbind] in E3; [|discriminate E3|discriminate E3].
  destruct (valid_app2 RL _ _ _ t2 Hv E2) as [V _]. rewrite run_ops2_app in E2.
  destruct (run_ops2 (take 3 dh_all) bt_new) as [t1| |] eqn:E1; cbn [rbind] in E2; [|discriminate E2|discriminate E2].
  destruct (valid_app2 RL _ _ _ t1 V E1) as [V1 _].
  destruct (reach2_ok RL (RopeF 4) _ V1) as (t1' & x1 & E1' & T1 & C1 & _). rewrite E1 in E1'. injection E1' as <-.
  assert (H : (let? t1 := run_ops2 (take 3 dh_all) bt_new in Ok (bool_decide (is_Some (get_elem t1 9)))) = Ok true) by (by vm_compute).
  rewrite E1 in H. cbn [rbind] in H. injection H as H. apply bool_decide_eq_true in H as [e H].
  exists (take 3 dh_all), o, t1, x1, e. split; [exact V|]. split; [reflexivity|]. split; [exact E1|]. split; [exact C1|]. split; [exact H|].
  intros Ht. cbn in Ht. by repeat (apply elem_of_cons in Ht as [Ht|Ht]; [discriminate Ht|]); apply elem_of_nil in Ht.
Qed.
