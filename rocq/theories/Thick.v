(** * Every operation keeps the tree thick: below the left spine every inner node has five or more children *)
From stdpp Require Import gmap.
From Verif Require Import Base Trait BTree Law Struct Inv Rd Split Edit Repl Nav Insert Lack Remove Spec Ops Ops2 Query Upd UpdLeaf Many Pos.
Section thick.
Context {B : BTreeTrait} (L : Lawful B).
Notation btree := (btree B).
Notation Elem := (Elem B).
Notation OK := (OK L).
Notation Tree := (Tree L).
Implicit Types (t : btree) (i j m q k l : nat) (a b : aidx).

Lemma md_cut t xs l e off si t' : Tree t xs -> (l, e) ∈ xs -> off <= rle_len e -> split_leaf_if_needed t (mkCur l off) = Ok (si, t') -> MDw true t -> MDw true t'.
Proof.
  intros T (X & Y & ->)%elem_of_list_split Hoff E M. pose proof (tree_el L _ _ _ _ _ T) as He. destruct (Tree_OK L _ _ T) as (H & lv & O & Hc).
  destruct (at_leaf_ok t H lv l e (ok_wt _ _ _ _ O) (ok_lk _ _ _ _ O) He) as (p & A & c & Z & AL).
  destruct (decide (off = 0)) as [->|H0].
  { destruct (split_leaf_0 L t H lv l e p A c Z O AL) as [lft Hs]. rewrite E in Hs. by injection Hs as _ ->. }
  destruct (decide (off = rle_len e)) as [->|H1].
  { destruct (split_leaf_end_pos L t H lv l e p A c Z X Y O AL ltac:(lia) (eq_sym Hc)) as [lft Hs]. rewrite E in Hs. by injection Hs as _ ->. }
  destruct (split_leaf_mid L t H lv l e off O He ltac:(lia)) as (t0 & H' & lv' & p0 & A0 & c0 & Z0 & e1 & e2 & lft & t1 & G).
  cbn zeta in G. destruct G as (HH & O0 & Hc0 & El0 & Al0 & AL0 & Hlen0 & Hs & Hsp & V1 & V2 & Hl1 & Hl2 & Hsum & R0 & An1 & M0).
  rewrite E in Hs. injection Hs as _ ->. pose proof AL0 as (_ & _ & Hlv0 & He0 & _).
  apply (rp_MD L (ok_wt _ _ _ _ O0) (ok_lk _ _ _ _ O0) Hlv0 R0); [done|auto].
Qed.
Lemma md_set t X l e Y e' p t' : Tree t (X ++ (l, e) :: Y) -> get_lf t l = Ok (mkLeaf e p) -> evalid L e' ->
  recursive_update_cache (set_lf t l (mkLeaf e' p)) (ALeaf l) (USE_DIFF (b := B)) None = Ok t' -> MDw true t -> MDw true t'.
Proof.
  intros T Hg Ve E M. apply get_lf_inv in Hg as [He Hl]. cbn [l_elem l_parent] in He, Hl. destruct (Tree_OK L _ _ T) as (H & lv & O & Hc).
  destruct (at_leaf_ok t H lv l e (ok_wt _ _ _ _ O) (ok_lk _ _ _ _ O) He) as (p' & A & c & Z & AL).
  assert (p' = p) as -> by (destruct AL as (_ & _ & _ & _ & Hl' & _); congruence).
  destruct (set_leaf_ok L t H lv l e e' p A c Z true O AL Ve ltac:(done)) as (t1 & E1 & O1 & S1 & _). rewrite E in E1. injection E1 as <-.
  by apply (MD_SH _ t).
Qed.
Lemma md_insert t xs cur p x cur' sl t' : Tree t xs -> CurAt xs cur p -> evalid L x -> insert_by_path t cur x = Ok (cur', sl, t') -> MDw true t -> MDw true t'.
Proof.
  intros T (X & e & Y & -> & Ho & ->) Vx E M. destruct cur as [l off]. cbn [cu_leaf cu_offset] in *.
  destruct (t_insert L t X l e Y off x T Ho Vx) as (cur1 & sl1 & R & t1 & E1 & T' & HR & Ha & M'). rewrite E in E1. injection E1 as -> -> ->.
  apply M'; auto.
Qed.
Lemma md_insert_rev {U} (F : Flatten L U) items : forall t xs cur p t', Tree t xs -> CurAt xs cur p -> Forall (evalid L) items -> insert_rev t cur items = Ok t' ->
  MDw true t -> MDw true t'.
Proof.
  induction items as [|x items IH]; intros t xs cur p t' T HC V E M; cbn [insert_rev] in E; [by injection E as <-|].
  apply Forall_cons in V as [Vx V]. destruct (fs_insert L F t xs cur p x T HC Vx) as (cur' & sl & t1 & xs1 & E1 & T1 & _ & C1 & _). rewrite E1 in E. cbn [rbind] in E.
  eapply IH; [exact T1|exact C1|done|exact E|]. exact (md_insert t xs cur p x cur' sl t1 T HC Vx E1 M).
Qed.
Lemma md_insert_many {U} (F : Flatten L U) t X l e Y off data t' : Tree t (X ++ (l, e) :: Y) -> off <= rle_len e -> Forall (evalid L) data ->
  insert_many_by_cursor t (Some (mkCur l off)) data = Ok t' -> MDw true t -> MDw true t'.
Proof.
  intros T Ho V E M. set (xs := X ++ (l, e) :: Y) in *.
  assert (HC : CurAt xs (mkCur l off) (tlen X + off)) by (by exists X, e, Y).
  assert (One : forall x, evalid L x -> insert_one t (Some (mkCur l off)) x = Ok t' -> MDw true t').
  { intros x Vx E1. cbn [insert_one] in E1. destruct (insert_by_path t (mkCur l off) x) as [[[cur' sl] t1]| |] eqn:E2; cbn [rbind] in E1; [|done|done]. injection E1 as <-.
    exact (md_insert t xs _ _ x cur' sl t1 T HC Vx E2 M). }
  destruct data as [|x0 [|y0 r0]]; [by injection E as <-| |].
  { apply Forall_cons in V as [Vx _]. by apply (One x0). }
  set (data := x0 :: y0 :: r0) in *.
  destruct (merge_adj_perm L F data V ltac:(done)) as (d & Ed & Vd & Hdn & _).
  unfold insert_many_by_cursor in E. fold data in E. unfold data in E at 1. rewrite Ed in E. cbn [rbind] in E.
  destruct d as [|x [|y r]]; [done| |].
  { apply Forall_cons in Vd as [Vx _]. by apply (One x). }
  rewrite (t_is_empty L t xs T) in E. cbn [rbind] in E.
  set (d := x :: y :: r) in *.
  destruct (t_cut L t xs l e off T) as (si & t1 & A & Z & Es & T1 & HCut & Hnp & _ & Ha & _); [unfold xs; rewrite elem_of_app; right; left|done|].
  pose proof (md_cut t xs l e off si t1 T ltac:(unfold xs; rewrite elem_of_app; right; left) Ho Es M) as M1.
  rewrite Es in E. cbn [rbind] in E. pose proof (tree_nodup L _ _ T) as Hnd.
  set (cur := default (mkCur l off) (si_new_pos si)) in *.
  assert (G : exists p, CurAt (A ++ Z) cur p).
  { destruct (cut_cases _ _ _ _ _ _ _ _ Hnd HCut) as [(H0 & -> & ->)|[(H0 & H1 & -> & ->)|(H0 & ea & eb & n & H1 & H2 & Hn & -> & ->)]]; unfold cur; rewrite Hnp.
    - cbn [default head fmap option_fmap option_map cu_leaf fst]. exists (tlen X), X, e, Y. cbn. split_and!; [done|lia|lia].
    - destruct Y as [|[l2 e2] Y]; cbn [default head fmap option_fmap option_map cu_leaf fst].
      + exists (tlen X + off), X, e, []. cbn. split_and!; [by rewrite app_nil_r|lia|lia].
      + exists (tlen (X ++ [(l, e)])), (X ++ [(l, e)]), e2, Y. cbn. split_and!; [done|lia|lia].
    - cbn [default head fmap option_fmap option_map cu_leaf fst]. exists (tlen (X ++ [(l, ea)])), (X ++ [(l, ea)]), eb, Y. cbn. split_and!; [done|lia|lia]. }
  destruct G as [p HC1].
  destruct (si_left si) as [l0|] eqn:Esl.
  - destruct (t_split_left L t X l e Y off si t1 l0 T Es Esl) as (X' & e0 & EX). fold xs in T1.
    assert (Hin0 : (l0, e0) ∈ A ++ Z).
    { destruct (cut_cases _ _ _ _ _ _ _ _ Hnd HCut) as [(H0 & -> & ->)|[(H0 & H1 & -> & ->)|(H0 & ea & eb & n & H1 & H2 & _ & -> & ->)]]; rewrite EX; clear; set_solver. }
    destruct (tree_get_lf L t1 (A ++ Z) l0 e0 T1 Hin0) as [q Hg]. rewrite Hg in E. cbn [rbind l_elem] in E. unfold with_elem in E. cbn [l_parent] in E.
    assert (V0 : evalid L e0) by (by eapply (tree_valid L _ _ l0 e0 T1)).
    destruct (absorb_ok L F d e0 V0 Vd) as (e1 & d1 & d2 & Eab & Edd & V1 & _ & Hle & _). rewrite Eab in E. cbn [rbind] in E.
    apply elem_of_list_split in Hin0 as (X1 & Y1 & EX1). rewrite EX1 in T1, HC1.
    destruct (t_set_elem L t1 X1 l0 e0 Y1 e1 q T1 Hg V1) as (t2 & E2 & T2). rewrite E2 in E. cbn [rbind] in E.
    pose proof (md_set _ _ _ _ _ _ _ _ T1 Hg V1 E2 M1) as M2.
    assert (HC2 : exists p2, CurAt (X1 ++ (l0, e1) :: Y1) cur p2).
    { destruct HC1 as (P & ec & Q & EP & Hoc & _). apply app_eq_inv in EP as [(k & K1 & K2)|(k & K1 & K2)].
      - destruct k as [|[l' e'] k]; cbn in K2; injection K2 as K2 K3 K4.
        + rewrite app_nil_r in K1. subst P ec Q. exists (tlen X1 + cu_offset cur), X1, e1, Y1. rewrite K2. split; [done|]. split; [lia|done].
        + subst X1 Q l' e'. exists (tlen P + cu_offset cur), P, ec, (k ++ (l0, e1) :: Y1). rewrite <- app_assoc. done.
      - destruct k as [|[l' e'] k]; cbn in K2; injection K2 as K2 K3 K4.
        + rewrite app_nil_r in K1. subst P ec Q. exists (tlen X1 + cu_offset cur), X1, e1, Y1. rewrite <- K2. split; [done|]. split; [lia|done].
        + subst P Y1 l' e'. exists (tlen (X1 ++ (l0, e1) :: k) + cu_offset cur), (X1 ++ (l0, e1) :: k), ec, Q. rewrite <- app_assoc. done. }
    destruct HC2 as [p2 HC2]. eapply (md_insert_rev F); [exact T2|exact HC2| |exact E|done].
    rewrite Edd in Vd. apply Forall_app in Vd as [_ Vd]. by apply Forall_rev.
  - cbn [rbind] in E. eapply (md_insert_rev F); [exact T1|exact HC1| |exact E|done]. by apply Forall_rev.
Qed.
End thick.
