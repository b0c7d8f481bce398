(** Touch7.v — how many arena entries insertions of many elements write. *)
From Verif Require Export Touch4 Touch6 Demo29.
From Verif Require Import Many Pos Thick.

Section bulk.
Context {B : BTreeTrait} (L : Lawful B).
Notation btree := (btree B).
Notation Tree := (Tree L).
Implicit Types (t : btree) (xs X Y : list (nat * Elem B)).

(** the work for [n] elements when the depth stays below [k] *)
Notation W k n := (n * (57 * k + 41)).

Lemma len_insert t xs cur p x cur' sl t' : Tree t xs -> CurAt xs cur p -> evalid L x -> insert_by_path t cur x = Ok (cur', sl, t') ->
  exists xs', Tree t' xs' /\ (exists p', CurAt xs' cur' p') /\ length xs' <= length xs + 2.
Proof.
  intros T (X & e & Y & -> & Ho & ->) Vx E. destruct cur as [l off]. cbn [cu_leaf cu_offset] in *.
  destruct (t_insert L t X l e Y off x T Ho Vx) as (cur1 & sl1 & R & t1 & E1 & T' & HR & _). rewrite E in E1. injection E1 as -> -> ->.
  exists (X ++ R ++ Y). split; [done|]. pose proof (tree_ve L _ _ _ _ _ T) as Ve.
  inversion HR as [e' H1|e' H1 H2 H3 H4|e' H1 H2 H3 H4 H5|n H1 H2 H3 H4 H5|n H1 H2 H3 H4 H5|n n2 e1 e2 H1 H2 H3 H4 H5 H6]; subst; (split; [|rewrite !app_length; cbn; lia]).
  - assert (rle_len e' = rle_len e + rle_len x). { destruct (lw_try _ L e off x Ve Vx Ho) as [(e2 & E2 & _ & E3 & _)|E2]; congruence. }
    eexists. exists X, e', Y. cbn. split_and!; [done|lia|done].
  - eexists. exists X, e', Y. cbn. split_and!; [done|lia|done].
  - destruct (lw_mr _ L e x Ve Vx H4) as (c & Ec & _ & El & _). rewrite H5 in Ec. injection Ec as <-.
    eexists. exists X, e', Y. cbn. split_and!; [done|lia|done].
  - eexists. exists X, x, ((l, e) :: Y). cbn. split_and!; [done|lia|done].
  - eexists. exists (X ++ [(l, e)]), x, Y. cbn [cu_leaf cu_offset app]. rewrite <- (app_assoc X [(l, e)]). split_and!; [done|lia|done].
  - eexists. exists (X ++ [(l, e1)]), x, ((n2, e2) :: Y). cbn [cu_leaf cu_offset app]. rewrite <- (app_assoc X [(l, e1)]). split_and!; [done|lia|done].
Qed.
Lemma insert_rev_to k items : 1 <= k -> forall t xs cur p t', Tree t xs -> CurAt xs cur p -> Forall (evalid L) items -> MDw true t ->
  length xs + 2 * length items <= 5 ^ k -> insert_rev t cur items = Ok t' -> Touched (W k (length items)) t t'.
Proof.
  intros Hk. induction items as [|x items IH]; intros t xs cur p t' T HC V M Hl E; cbn [insert_rev] in E; [injection E as <-; apply to_refl0|].
  apply Forall_cons in V as [Vx V]. destruct (insert_by_path t cur x) as [[[cur' sl] t1]| |] eqn:E1; cbn [rbind] in E; [|done..].
  pose proof (log_insert_by_path L t xs k cur x _ t1 T M Hk ltac:(cbn [length] in Hl; lia) E1) as T1.
  destruct (len_insert t xs cur p x cur' sl t1 T HC Vx E1) as (xs1 & Tr & (p' & C1) & Hl1).
  pose proof (md_insert L t xs cur p x cur' sl t1 T HC Vx E1 M) as M1.
  eapply to_le; [eapply Touch.to_trans; [exact T1|eapply (IH t1 xs1 cur' p' t' Tr C1 V M1); [cbn [length] in Hl; lia|exact E]]|]. cbn [length]. lia.
Qed.
Lemma push_all_to k items : 1 <= k -> forall t xs t', Tree t xs -> Forall (evalid L) items -> MDw true t ->
  length xs + length items <= 5 ^ k -> foldl (fun r x => let? t := r in let? (_, t) := push t x in Ok t) (Ok t) items = Ok t' -> Touched (length items * (29 * k + 6)) t t'.
Proof.
  intros Hk. induction items as [|x items IH]; intros t xs t' T V M Hl E; cbn [foldl] in E; [injection E as <-; apply to_refl0|].
  apply Forall_cons in V as [Vx V]. cbn [rbind] in E. destruct (t_push L t xs x T Vx) as (c & t1 & E1 & HM & _ & Hr). rewrite E1 in E. cbn [rbind] in E.
  pose proof (log_push L t xs k x c t1 T M Hk ltac:(cbn [length] in Hl; lia) E1) as T1.
  assert (exists xs1, Tree t1 xs1 /\ length xs1 <= length xs + 1) as (xs1 & Tr & Hl1).
  { destruct Hr as [(X & l & e & e' & -> & _ & _ & Tr & _)|(n & _ & Tr & _)]; eexists; (split; [exact Tr|]); rewrite !app_length; cbn; lia. }
  eapply to_le; [eapply Touch.to_trans; [exact T1|eapply (IH t1 xs1 t' Tr V (HM _ M)); [cbn [length] in Hl; lia|exact E]]|]. cbn [length]. lia.
Qed.
Theorem insert_many_to {U} (F : Flatten L U) t X l e Y off data k t' : Tree t (X ++ (l, e) :: Y) -> off <= rle_len e -> Forall (evalid L) data -> MDw true t -> 1 <= k ->
  length (X ++ (l, e) :: Y) + 1 + 2 * length data <= 5 ^ k ->
  insert_many_by_cursor t (Some (mkCur l off)) data = Ok t' -> Touched (W k (S (length data))) t t'.
Proof.
  intros T Ho V M Hk Hl E. set (xs := X ++ (l, e) :: Y) in *.
  assert (One : forall x, 1 <= length data -> insert_one t (Some (mkCur l off)) x = Ok t' -> Touched (W k (S (length data))) t t').
  { intros x Hd E1. cbn [insert_one] in E1. destruct (insert_by_path t (mkCur l off) x) as [[[cur' sl] t1]| |] eqn:E2; cbn [rbind] in E1; [|done|done]. injection E1 as <-.
    eapply to_le; [eapply (log_insert_by_path L t xs k); try done; lia|]. lia. }
  destruct data as [|x0 [|y0 r0]]; [injection E as <-; eapply to_le; [apply to_refl0|lia]|apply (One x0); [cbn; lia|exact E]|].
  set (data := x0 :: y0 :: r0) in *.
  destruct (merge_adj_perm L F data V ltac:(done)) as (d & Ed & Vd & Hdn & _ & _ & Hdl).
  unfold insert_many_by_cursor in E. fold data in E. unfold data in E at 1. rewrite Ed in E. cbn [rbind] in E.
  destruct d as [|x [|y r]]; [done|apply (One x); [cbn; lia|exact E]|].
  rewrite (t_is_empty L t xs T) in E. cbn [rbind] in E.
  set (d := x :: y :: r) in *.
  destruct (t_cut L t xs l e off T) as (si & t1 & A & Z & Es & T1 & HCut & Hnp & _ & Ha & _); [unfold xs; rewrite elem_of_app; right; left|done|].
  pose proof (md_cut L t xs l e off si t1 T ltac:(unfold xs; rewrite elem_of_app; right; left) Ho Es M) as M1.
  assert (To1 : Touched (28 * k + 6) t t1).
  { destruct (thick_d L t xs k T M Hk ltac:(lia)) as (dd & Hd & Hdk). destruct (tree_ok_d L t dd xs T Hd) as (H & lv & O & -> & _); [by destruct X|].
    destruct (sl_to L t H lv _ _ _ O Es) as (_ & _ & _ & _ & To). eapply to_le; [exact To|lia]. }
  rewrite Es in E. cbn [rbind] in E. pose proof (tree_nodup L _ _ T) as Hnd.
  set (cur := default (mkCur l off) (si_new_pos si)) in *.
  assert (HAZ : length (A ++ Z) <= length xs + 1).
  { destruct (cut_cases _ _ _ _ _ _ _ _ Hnd HCut) as [(H0 & -> & ->)|[(H0 & H1 & -> & ->)|(H0 & ea & eb & n & H1 & H2 & Hn & -> & ->)]]; unfold xs; rewrite !app_length; cbn; lia. }
  assert (G : exists p, CurAt (A ++ Z) cur p).
  { destruct (cut_cases _ _ _ _ _ _ _ _ Hnd HCut) as [(H0 & -> & ->)|[(H0 & H1 & -> & ->)|(H0 & ea & eb & n & H1 & H2 & Hn & -> & ->)]]; unfold cur; rewrite Hnp.
    - cbn [default head fmap option_fmap option_map cu_leaf fst]. exists (tlen X), X, e, Y. cbn. split_and!; [done|lia|lia].
    - destruct Y as [|[l2 e2] Y]; cbn [default head fmap option_fmap option_map cu_leaf fst].
      + exists (tlen X + off), X, e, []. cbn. split_and!; [by rewrite app_nil_r|lia|lia].
      + exists (tlen (X ++ [(l, e)])), (X ++ [(l, e)]), e2, Y. cbn. split_and!; [done|lia|lia].
    - cbn [default head fmap option_fmap option_map cu_leaf fst]. exists (tlen (X ++ [(l, ea)])), (X ++ [(l, ea)]), eb, Y. cbn. split_and!; [done|lia|lia]. }
  destruct G as [p HC1].
  destruct (si_left si) as [l0|] eqn:Esl.
  - destruct (t_split_left L t X l e Y off si t1 l0 T Es Esl) as (X' & e0 & EX). fold xs in T1.
    assert (Hin0 : (l0, e0) ∈ A ++ Z).
    { destruct (cut_cases _ _ _ _ _ _ _ _ Hnd HCut) as [(H0 & -> & ->)|[(H0 & H1 & -> & ->)|(H0 & ea & eb & n & H1 & H2 & _ & -> & ->)]]; rewrite EX; clear; set_solver. }
    destruct (tree_get_lf L t1 (A ++ Z) l0 e0 T1 Hin0) as [q Hg]. rewrite Hg in E. cbn [rbind l_elem] in E. unfold with_elem in E. cbn [l_parent] in E.
    assert (V0 : evalid L e0) by (by eapply (tree_valid L _ _ l0 e0 T1)).
    destruct (absorb_ok L F d e0 V0 Vd) as (e1 & d1 & d2 & Eab & Edd & V1 & _ & Hle & _). rewrite Eab in E. cbn [rbind] in E.
    apply elem_of_list_split in Hin0 as (X1 & Y1 & EX1). rewrite EX1 in T1, HC1, HAZ.
    destruct (t_set_elem L t1 X1 l0 e0 Y1 e1 q T1 Hg V1) as (t2 & E2 & T2). rewrite E2 in E. cbn [rbind] in E.
    pose proof (md_set L _ _ _ _ _ _ _ _ T1 Hg V1 E2 M1) as M2.
    assert (To2 : Touched (k + 2) t1 t2).
    { destruct (thick_d L t1 _ k T1 M1 Hk) as (dd & Hd & Hdk); [cbn [length] in *; lia|]. destruct (lev_tree L _ _ _ T1 Hd) as (H & lv & HL & HH).
      assert (L1 : Lev (set_lf t1 l0 (mkLeaf e1 q)) H lv) by (by apply (lev_same t1)).
      destruct (ruc_st H lv _ _ _ _ _ E2 L1) as (To & _). eapply to_le; [eapply Touch.to_trans; [apply to_set_lf|exact To]|lia]. }
    assert (HC2 : exists p2, CurAt (X1 ++ (l0, e1) :: Y1) cur p2).
    { destruct HC1 as (P & ec & Q & EP & Hoc & _). apply app_eq_inv in EP as [(k' & K1 & K2)|(k' & K1 & K2)].
      - destruct k' as [|[l' e'] k']; cbn in K2; injection K2 as K2 K3 K4.
        + rewrite app_nil_r in K1. subst P ec Q. exists (tlen X1 + cu_offset cur), X1, e1, Y1. rewrite K2. split; [done|]. split; [lia|done].
        + subst X1 Q l' e'. exists (tlen P + cu_offset cur), P, ec, (k' ++ (l0, e1) :: Y1). rewrite <- app_assoc. done.
      - destruct k' as [|[l' e'] k']; cbn in K2; injection K2 as K2 K3 K4.
        + rewrite app_nil_r in K1. subst P ec Q. exists (tlen X1 + cu_offset cur), X1, e1, Y1. rewrite <- K2. split; [done|]. split; [lia|done].
        + subst P Y1 l' e'. exists (tlen (X1 ++ (l0, e1) :: k') + cu_offset cur), (X1 ++ (l0, e1) :: k'), ec, Q. rewrite <- app_assoc. done. }
    destruct HC2 as [p2 HC2].
    assert (Hd2 : length d2 <= length data). { apply (f_equal length) in Edd. rewrite app_length in Edd. lia. }
    assert (To3 : Touched (W k (length (rev d2))) t2 t').
    { eapply (insert_rev_to k); [done|exact T2|exact HC2| |done| |exact E].
      - rewrite Edd in Vd. apply Forall_app in Vd as [_ Vd]. by apply Forall_rev.
      - rewrite rev_length. rewrite app_length in *. cbn [length] in *. lia. }
    eapply to_le; [eapply Touch.to_trans; [eapply Touch.to_trans; [exact To1|exact To2]|exact To3]|]. rewrite rev_length.
    pose proof (Nat.mul_le_mono_r _ _ (57 * k + 41) Hd2). lia.
  - cbn [rbind] in E. assert (To3 : Touched (W k (length (rev d))) t1 t').
    { eapply (insert_rev_to k); [done|exact T1|exact HC1|by apply Forall_rev|done| |exact E]. rewrite rev_length. lia. }
    eapply to_le; [eapply Touch.to_trans; [exact To1|exact To3]|]. rewrite rev_length. pose proof (Nat.mul_le_mono_r _ _ (57 * k + 41) Hdl). lia.
Qed.
End bulk.
