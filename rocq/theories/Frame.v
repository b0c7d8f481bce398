(** Frame.v — which leaves an operation leaves alone: bulk insertion, range updates, writes. *)
From Verif Require Export Hist Ranges Ucf Poke Pos FromIter.

(** ** handles across a call: those handed out before and not in [P] keep their element, dead ones
    stay dead, new leaves get new numbers *)
Definition Frame {B : BTreeTrait} (P : nat -> Prop) (t t' : btree B) : Prop :=
  anext (leaf_nodes t) <= anext (leaf_nodes t') /\
  (forall l, l < anext (leaf_nodes t) -> ~ P l -> get_elem t' l = get_elem t l) /\
  (forall l, l < anext (leaf_nodes t) -> get_elem t l = None -> get_elem t' l = None).

Section frame.
Context {B : BTreeTrait} (L : Lawful B).
Notation btree := (btree B).
Notation Elem := (Elem B).
Notation Tree := (Tree L).
Implicit Types (t : btree) (xs X Y A Z : list (nat * Elem)) (l : nat) (e : Elem) (P Q : nat -> Prop).

Lemma frame_refl P t : Frame P t t.
Proof. done. Qed.
Lemma frame_weak P Q t t' : (forall l, l < anext (leaf_nodes t) -> P l -> Q l) -> Frame P t t' -> Frame Q t t'.
Proof. intros H (A1 & A2 & A3). split; [done|]. split; [|done]. intros l Hl HQ. apply A2; [done|]. intros HP. by apply HQ, H. Qed.
Lemma frame_trans P Q t t1 t2 : Frame P t t1 -> Frame Q t1 t2 -> Frame (fun l => P l \/ Q l) t t2.
Proof.
  intros (A1 & A2 & A3) (B1 & B2 & B3). split; [lia|]. split.
  - intros l Hl Hn. rewrite B2, A2; [done|done|tauto|lia|tauto].
  - intros l Hl Hn. apply B3; [lia|]. by apply A3.
Qed.
Lemma frame_leaves t t' : leaf_nodes t' = leaf_nodes t -> Frame (fun _ => False) t t'.
Proof. intros E. unfold Frame, get_elem. by rewrite E. Qed.
Lemma frame_set_lf t l lf lf' : a_get (leaf_nodes t) l = Some lf -> Frame (eq l) t (set_lf t l lf').
Proof.
  intros Hl. split; [done|]. unfold get_elem. split; intros l' Hl' Hn; unfold set_lf, a_get, a_set in *; cbn.
  - by rewrite lookup_insert_ne.
  - destruct (decide (l = l')) as [->|Hne]; [by rewrite Hl in Hn|]. by rewrite lookup_insert_ne.
Qed.
(** from contents: new leaves are fresh, untouched ones remain *)
Lemma frame_tree P t t' xs xs' : Tree t xs -> Tree t' xs' -> newids t t' xs xs' ->
  (forall l e, (l, e) ∈ xs -> ~ P l -> (l, e) ∈ xs') -> Frame P t t'.
Proof.
  intros T T' [N1 N2] HF. split; [done|].
  assert (HD : forall l, l < anext (leaf_nodes t) -> get_elem t l = None -> get_elem t' l = None).
  { intros l Hl Hn. destruct (get_elem t' l) as [e'|] eqn:G; [|done]. exfalso. apply (t_get_elem L _ _ _ T') in G. apply in_fst in G.
    destruct (N2 l G) as [G2|G2]; [|lia]. apply elem_of_list_fmap in G2 as ([l' e2] & -> & G2). apply (t_get_elem L _ _ _ T) in G2. cbn [fst] in Hn. congruence. }
  split; [|done]. intros l Hl Hn. destruct (get_elem t l) as [e|] eqn:G; [|by apply HD].
  apply (t_get_elem L _ _ _ T'). apply HF; [|done]. by apply (t_get_elem L _ _ _ T).
Qed.
(** and back *)
Lemma frame_newids P t t' xs xs' : Tree t xs -> Tree t' xs' -> Frame P t t' -> newids t t' xs xs' /\
  (forall l e, (l, e) ∈ xs -> ~ P l -> (l, e) ∈ xs').
Proof.
  intros T T' (N1 & N2 & N3). split; [split; [done|]|].
  - intros l Hl. apply elem_of_list_fmap in Hl as ([l' e] & -> & Hl). cbn [fst]. pose proof (tree_old L _ _ _ _ T' Hl) as Ho.
    destruct (decide (l' < anext (leaf_nodes t))) as [Hlt|Hge]; [|right; lia]. left.
    destruct (get_elem t l') as [e0|] eqn:G. { apply (t_get_elem L _ _ _ T) in G. by eapply in_fst. }
    apply N3 in G; [|done]. apply (t_get_elem L _ _ _ T') in Hl. congruence.
  - intros l e Hl Hn. pose proof (tree_old L _ _ _ _ T Hl) as Ho. apply (t_get_elem L _ _ _ T'). rewrite N2; [|done|done]. by apply (t_get_elem L _ _ _ T).
Qed.

(** ** cache propagation does not touch the leaf arena *)
Ltac rs E := repeat (match type of E with rbind ?m _ = Ok _ => let y := fresh "y" in let Ey := fresh "Ey" in destruct m as [y| |] eqn:Ey; cbn [rbind] in E; [|done|done] end).
Lemma calc_into_lf t pi i n d r t' : calc_into_parent t pi i n d = Ok (r, t') -> leaf_nodes t' = leaf_nodes t.
Proof. intros E. unfold calc_into_parent in E. rs E. destruct y2 as [c d0]. by injection E as <- <-. Qed.
Lemma calc_root_lf t d t' : calc_root t d = Ok t' -> leaf_nodes t' = leaf_nodes t.
Proof. intros E. unfold calc_root in E. rs E. destruct y0 as [c d0]. by injection E as <-. Qed.
Lemma ruc_diff_lf f : forall t x d t', ruc_diff_f f t x d = Ok t' -> leaf_nodes t' = leaf_nodes t.
Proof.
  induction f as [|f IH]; intros t x d t' E; [done|]. cbn [ruc_diff_f] in E. rs E. destruct (n_parent y) as [p|]; rs E.
  - apply IH in E. done.
  - by injection E as <-.
Qed.
Lemma ruc_loop_lf f : forall t i t', ruc_loop_f f t i = Ok t' -> leaf_nodes t' = leaf_nodes t.
Proof.
  induction f as [|f IH]; intros t i t' E; [done|]. cbn [ruc_loop_f] in E. rs E. destruct (n_parent y) as [p|]; rs E; [|by injection E as <-].
  destruct y1 as [d t1]. apply IH in E. rewrite E. by eapply calc_into_lf.
Qed.
Lemma ruc_lf t x u od t' : recursive_update_cache t x u od = Ok t' -> leaf_nodes t' = leaf_nodes t.
Proof.
  intros E. unfold recursive_update_cache in E. rs E. destruct y as [i t0].
  assert (leaf_nodes t0 = leaf_nodes t) as E0. { destruct x as [l|i0]; [|by injection Ey as <- <-]. rs Ey. by injection Ey as <- <-. }
  rewrite <- E0. destruct u.
  - destruct od as [d|]; [by eapply ruc_diff_lf|]. rs E. destruct (n_parent y) as [p|]; [|by eapply calc_root_lf]. rs E. destruct y1 as [d t1].
    apply ruc_diff_lf in E. rewrite E. by eapply calc_into_lf.
  - rs E. apply calc_root_lf in E. rewrite E. by eapply ruc_loop_lf.
Qed.
Lemma dirty_step_lf x t dm vs t' dm' vs' : dirty_step x (t, dm, vs) = Ok (t', dm', vs') -> leaf_nodes t' = leaf_nodes t.
Proof.
  intros E. unfold dirty_step in E. rs E. destruct y as [[[[p d] t1] dm1]|]; [|by injection E as <- _ _].
  injection E as <- _ _. destruct x as [l|i].
  - rs Ey. injection Ey as _ _ <- _. destruct (find_index _ _) as [k|]; [|by injection Ey3 as <-]. rs Ey3. by injection Ey3 as <-.
  - rs Ey. destruct (n_parent y) as [p'|]; [|done]. rs Ey. destruct y1 as [d1 t2]. injection Ey as _ _ <- _. by eapply calc_into_lf.
Qed.
Lemma dirty_level_lf ws : forall t dm vs t' dm' vs', dirty_level ws (t, dm, vs) = Ok (t', dm', vs') -> leaf_nodes t' = leaf_nodes t.
Proof.
  induction ws as [|x ws IH]; intros t dm vs t' dm' vs' E; cbn [dirty_level] in E; [by injection E as <- _ _|]. rs E. destruct y as [[t1 dm1] vs1].
  apply IH in E. rewrite E. by eapply dirty_step_lf.
Qed.
Lemma dirty_lf ord f : forall t dm vs t', dirty_f ord f t dm vs = Ok t' -> leaf_nodes t' = leaf_nodes t.
Proof.
  induction f as [|f IH]; intros t dm vs t' E; cbn [dirty_f] in E; (destruct (decide (vs = ∅)); [by injection E as <-|]); [done|].
  rs E. destruct y as [[t1 dm1] vs1]. apply IH in E. rewrite E. by eapply dirty_level_lf.
Qed.
Lemma udcm_lf ord t dm t' : update_dirty_cache_map ord t dm = Ok t' -> leaf_nodes t' = leaf_nodes t.
Proof. intros E. unfold update_dirty_cache_map in E. rs E. apply calc_root_lf in E. rewrite E. by eapply dirty_lf. Qed.

(** ** insertions *)
Lemma f_insert t xs cur p x cur' sl t' : Tree t xs -> CurAt xs cur p -> evalid L x -> insert_by_path t cur x = Ok (cur', sl, t') ->
  Frame (eq (cu_leaf cur)) t t' /\ (cu_leaf cur' = cu_leaf cur \/ anext (leaf_nodes t) <= cu_leaf cur').
Proof.
  intros T (X & e & Y & -> & Ho & ->) Vx E. destruct cur as [l off]. cbn [cu_leaf cu_offset] in *.
  destruct (t_insert L t X l e Y off x T Ho Vx) as (cur1 & sl1 & R & t1 & E1 & T' & HR & Ha & _). rewrite E in E1. injection E1 as -> -> ->. split.
  - eapply frame_tree; [exact T|exact T'| |].
    + split; [done|]. intros l0. rewrite !fmap_app. cbn [fmap list_fmap fst].
      assert (forall z, z ∈ R.*1 -> z = l \/ anext (leaf_nodes t) <= z < anext (leaf_nodes t1)) as HRl by (destruct HR; cbn; set_solver).
      intros [?|[Hx|?]%elem_of_app]%elem_of_app; [|destruct (HRl _ Hx) as [->|?]|]; set_solver.
    + intros l0 e0 Hin Hnt. clear -Hin Hnt. set_solver.
  - destruct HR; cbn; auto; right; lia.
Qed.
Lemma f_insert_rev {U} (F : Flatten L U) items : forall t xs cur p t', Tree t xs -> CurAt xs cur p -> Forall (evalid L) items -> insert_rev t cur items = Ok t' ->
  Frame (eq (cu_leaf cur)) t t'.
Proof.
  induction items as [|x items IH]; intros t xs cur p t' T HC V E; cbn [insert_rev] in E; [by injection E as <-|].
  apply Forall_cons in V as [Vx V]. destruct (fs_insert L F t xs cur p x T HC Vx) as (cur' & sl & t1 & xs1 & E1 & T1 & _ & C1 & _). rewrite E1 in E. cbn [rbind] in E.
  destruct (f_insert _ _ _ _ _ _ _ _ T HC Vx E1) as [F1 Hcur]. pose proof (IH _ _ _ _ _ T1 C1 V E) as F2.
  eapply frame_weak; [|exact (frame_trans _ _ _ _ _ F1 F2)]. cbn. intros l Hl [?|Hc]; [done|]. destruct Hcur as [<-|?]; [done|]. subst l. lia.
Qed.
(** the cursor's leaf and its neighbours *)
Definition beside xs l l' : Prop := l' = l \/ exists ls ms, xs.*1 = ls ++ l :: l' :: ms \/ xs.*1 = ls ++ l' :: l :: ms.
Lemma f_insert_many {U} (F : Flatten L U) t X l e Y off data t' : Tree t (X ++ (l, e) :: Y) -> off <= rle_len e -> Forall (evalid L) data ->
  insert_many_by_cursor t (Some (mkCur l off)) data = Ok t' -> Frame (beside (X ++ (l, e) :: Y) l) t t'.
Proof.
  intros T Ho V E. set (xs := X ++ (l, e) :: Y) in *.
  assert (HC : CurAt xs (mkCur l off) (tlen X + off)) by (by exists X, e, Y).
  assert (One : forall x, evalid L x -> insert_one t (Some (mkCur l off)) x = Ok t' -> Frame (beside xs l) t t').
  { intros x Vx E1. cbn [insert_one] in E1. destruct (insert_by_path t (mkCur l off) x) as [[[cur' sl] t1]| |] eqn:E2; cbn [rbind] in E1; [|done|done]. injection E1 as <-.
    destruct (f_insert _ _ _ _ _ _ _ _ T HC Vx E2) as [F1 _]. eapply frame_weak; [|exact F1]. cbn. intros ? _ <-. by left. }
  destruct data as [|x0 [|y0 r0]]; [by injection E as <-| |].
  { apply Forall_cons in V as [Vx _]. by apply (One x0). }
  set (data := x0 :: y0 :: r0) in *.
  destruct (merge_adj_perm L F data V ltac:(done)) as (d & Ed & Vd & Hdn & _).
  unfold insert_many_by_cursor in E. fold data in E. unfold data in E at 1. rewrite Ed in E. cbn [rbind] in E.
  destruct d as [|x [|y r]]; [done| |].
  { apply Forall_cons in Vd as [Vx _]. by apply (One x). }
  rewrite (t_is_empty L t xs T) in E. cbn [rbind] in E.
  set (d := x :: y :: r) in *.
  destruct (t_cut L t xs l e off T) as (si & t1 & A & Z & Es & T1 & HCut & Hnp & _ & Ha & _); [unfold xs; rewrite elem_of_app; right; left|done|].
  rewrite Es in E. cbn [rbind] in E. pose proof (tree_nodup L _ _ T) as Hnd.
  set (cur := default (mkCur l off) (si_new_pos si)) in *.
  assert (F1 : Frame (eq l) t t1).
  { eapply frame_tree; [exact T|exact T1| |].
    - split; [done|]. intros l0 Hl0. by apply (cut_ids _ _ _ _ _ HCut).
    - intros l0 e0 Hin Hn. destruct (cut_cases _ _ _ _ _ _ _ _ Hnd HCut) as [(H0 & -> & ->)|[(H0 & H1 & -> & ->)|(H0 & ea & eb & n & H1 & H2 & _ & -> & ->)]]; unfold xs in Hin; set_solver. }
  assert (G : (exists p, CurAt (A ++ Z) cur p) /\ (cu_leaf cur < anext (leaf_nodes t) -> beside xs l (cu_leaf cur))).
  { destruct (cut_cases _ _ _ _ _ _ _ _ Hnd HCut) as [(H0 & -> & ->)|[(H0 & H1 & -> & ->)|(H0 & ea & eb & n & H1 & H2 & Hn & -> & ->)]]; unfold cur; rewrite Hnp.
    - cbn [default head fmap option_fmap option_map cu_leaf fst]. split; [|intros _; by left]. exists (tlen X), X, e, Y. cbn. split_and!; [done|lia|lia].
    - destruct Y as [|[l2 e2] Y]; cbn [default head fmap option_fmap option_map cu_leaf fst].
      + split; [|intros _; by left]. exists (tlen X + off), X, e, []. cbn. split_and!; [by rewrite app_nil_r|lia|lia].
      + split. { exists (tlen (X ++ [(l, e)])), (X ++ [(l, e)]), e2, Y. cbn. split_and!; [done|lia|lia]. }
        intros _. right. exists X.*1, Y.*1. left. unfold xs. by rewrite fmap_app.
    - cbn [default head fmap option_fmap option_map cu_leaf fst]. split; [|cbn; lia]. exists (tlen (X ++ [(l, ea)])), (X ++ [(l, ea)]), eb, Y. cbn. split_and!; [done|lia|lia]. }
  destruct G as [[p HC1] Hcur].
  assert (Fin : forall t2 ys p2 items, Tree t2 ys -> Frame (beside xs l) t t2 -> CurAt ys cur p2 -> Forall (evalid L) items -> insert_rev t2 cur items = Ok t' -> Frame (beside xs l) t t').
  { intros t2 ys p2 items T2 F2 HC2 VI E2. pose proof (f_insert_rev F items _ _ _ _ _ T2 HC2 VI E2) as F3.
    eapply frame_weak; [|exact (frame_trans _ _ _ _ _ F2 F3)]. cbn. intros l0 Hl0 [?|<-]; [done|]. by apply Hcur. }
  destruct (si_left si) as [l0|] eqn:Esl.
  - destruct (t_split_left L t X l e Y off si t1 l0 T Es Esl) as (X' & e0 & EX). fold xs in T1.
    assert (Hin0 : (l0, e0) ∈ A ++ Z).
    { destruct (frame_newids _ _ _ _ _ T T1 F1) as [_ HH]. apply HH; [unfold xs; rewrite EX; clear; set_solver|].
      intros <-. unfold xs in Hnd. rewrite EX, !fmap_app in Hnd. cbn in Hnd. rewrite <- app_assoc in Hnd. apply NoDup_app in Hnd as (_ & _ & Hnd). cbn in Hnd. apply NoDup_cons in Hnd as [Hnd _]. apply Hnd. left. }
    destruct (tree_get_lf L t1 (A ++ Z) l0 e0 T1 Hin0) as [q Hg]. rewrite Hg in E. cbn [rbind l_elem] in E. unfold with_elem in E. cbn [l_parent] in E.
    assert (V0 : evalid L e0) by (by eapply (tree_valid L _ _ l0 e0 T1)).
    destruct (absorb_ok L F d e0 V0 Vd) as (e1 & d1 & d2 & Eab & Edd & V1 & _ & Hle & _). rewrite Eab in E. cbn [rbind] in E.
    apply elem_of_list_split in Hin0 as (X1 & Y1 & EX1). rewrite EX1 in T1, HC1.
    destruct (t_set_elem L t1 X1 l0 e0 Y1 e1 q T1 Hg V1) as (t2 & E2 & T2). rewrite E2 in E. cbn [rbind] in E.
    apply get_lf_inv in Hg as [Hel Hlk]. cbn in Hel, Hlk.
    assert (exists lf, a_get (leaf_nodes t1) l0 = Some lf) as [lf Hlf]. { unfold el in Hel. destruct (a_get (leaf_nodes t1) l0); [eauto|done]. }
    pose proof (ruc_lf _ _ _ _ _ E2) as Elf.
    assert (F2 : Frame (eq l0) t1 t2).
    { eapply frame_weak; [|exact (frame_trans _ _ _ _ _ (frame_set_lf t1 l0 lf _ Hlf) (frame_leaves _ _ Elf))]. cbn. tauto. }
    assert (HC2 : exists p2, CurAt (X1 ++ (l0, e1) :: Y1) cur p2).
    { destruct HC1 as (P & ec & Q & EP & Hoc & _). apply app_eq_inv in EP as [(k & K1 & K2)|(k & K1 & K2)].
      - destruct k as [|[l' e'] k]; cbn in K2; injection K2 as K2 K3 K4.
        + rewrite app_nil_r in K1. subst P ec Q. exists (tlen X1 + cu_offset cur), X1, e1, Y1. rewrite K2. split; [done|]. split; [lia|done].
        + subst X1 Q l' e'. exists (tlen P + cu_offset cur), P, ec, (k ++ (l0, e1) :: Y1). rewrite <- app_assoc. done.
      - destruct k as [|[l' e'] k]; cbn in K2; injection K2 as K2 K3 K4.
        + rewrite app_nil_r in K1. subst P ec Q. exists (tlen X1 + cu_offset cur), X1, e1, Y1. rewrite <- K2. split; [done|]. split; [lia|done].
        + subst P Y1 l' e'. exists (tlen (X1 ++ (l0, e1) :: k) + cu_offset cur), (X1 ++ (l0, e1) :: k), ec, Q. rewrite <- app_assoc. done. }
    destruct HC2 as [p2 HC2]. eapply (Fin t2 _ p2); [exact T2| |exact HC2| |exact E].
    + eapply frame_weak; [|exact (frame_trans _ _ _ _ _ F1 F2)]. cbn. intros l1 _ [<-|<-]; [by left|]. right. exists X'.*1, Y.*1. right. unfold xs. rewrite EX, !fmap_app, <- app_assoc. done.
    + rewrite Edd in Vd. apply Forall_app in Vd as [_ Vd]. by apply Forall_rev.
  - cbn [rbind] in E. eapply (Fin t1 _ p); [exact T1| |exact HC1| |exact E].
    + eapply frame_weak; [|exact F1]. cbn. intros l1 _ <-. by left.
    + by apply Forall_rev.
Qed.

(** ** update_leaves_with_arg_in_ranges *)
Section ranges.
Context {U : Type} (F : Flatten L U) {A0 : Type} (fu : Elem -> A0 -> Elem) (fu_ok : forall e a, evalid L e -> evalid L (fu e a)).
Lemma f_groups (gs : list (nat * list (nat * nat * A0))) : forall t dm ne t' dm' ne', ranges_groups fu t gs dm ne = Ok (t', dm', ne') ->
  Frame (fun l => l ∈ gs.*1) t t'.
Proof.
  induction gs as [|[l g] gs IH]; intros t dm ne t' dm' ne' E; cbn [ranges_groups] in E; [by injection E as -> _ _|].
  rs E. destruct y0 as [e1 new]. apply IH in E. unfold get_lf in Ey. destruct (a_get (leaf_nodes t) l) as [lf|] eqn:Hl; [|done].
  eapply frame_weak; [|exact (frame_trans _ _ _ _ _ (frame_set_lf t l lf _ Hl) E)]. cbn. intros l0 _ [->|?]; [left|by right].
Qed.
Lemma f_ranges_insert es : forall t xs X l e Y nl nl' t', xs = X ++ (l, e) :: Y -> Tree t xs -> Forall (evalid L) es ->
  ranges_insert t (mkCur l (rle_len e)) es nl = Ok (nl', t') -> Frame (eq l) t t'.
Proof.
  induction es as [|x es IH]; intros t xs X l e Y nl nl' t' Ex T V E; cbn [ranges_insert] in E; [by injection E as _ ->|].
  apply Forall_cons in V as [Vx V].
  assert (HC : CurAt xs (mkCur l (rle_len e)) (tlen X + rle_len e)) by (exists X, e, Y; split_and!; done).
  destruct (fs_insert L F t xs _ _ x T HC Vx) as (cur' & sl & t1 & xs1 & E1 & T1 & _ & (X1 & e1 & Y1 & Ex1 & _ & _) & _). rewrite E1 in E. cbn [rbind] in E.
  destruct (f_insert _ _ _ _ _ _ _ _ T HC Vx E1) as [F1 Hcur]. cbn [cu_leaf] in F1, Hcur.
  assert (get_elem t1 (cu_leaf cur') = Some e1) as Hg. { apply (t_get_elem L _ _ _ T1). rewrite Ex1. clear. set_solver. }
  rewrite Hg in E. cbn [ropt rbind] in E. destruct (rassert _); cbn [rbind] in E; [|done|done].
  pose proof (IH t1 xs1 X1 (cu_leaf cur') e1 Y1 _ _ _ Ex1 T1 V E) as F2.
  eapply frame_weak; [|exact (frame_trans _ _ _ _ _ F1 F2)]. cbn. intros l0 Hl0 [?|<-]; [done|]. destruct Hcur as [->|?]; [done|lia].
Qed.
Lemma f_ranges_insert_all ne : forall t xs nl nl' t', Tree t xs -> NoDup (pkeys ne) ->
  (forall c es, (c, es) ∈ ne -> Forall (evalid L) es /\ exists e, (cu_leaf c, e) ∈ xs /\ cu_offset c = rle_len e) ->
  ranges_insert_all t ne nl = Ok (nl', t') -> Frame (fun l => l ∈ pkeys ne) t t'.
Proof using F fu fu_ok.
  induction ne as [|[[l off] es] ne IH]; intros t xs nl nl' t' T Hn HC E; cbn [ranges_insert_all] in E; [by injection E as _ ->|].
  cbn [pkeys map fst cu_leaf] in Hn |- *. apply NoDup_cons in Hn as [Hl Hn].
  destruct (HC _ _ ltac:(left)) as (HV & e & He & Ho). cbn [cu_leaf cu_offset] in He, Ho. subst off.
  pose proof He as He0. apply elem_of_list_split in He as (X & Y & Ex).
  rs E. destruct y as [nl1 t1]. pose proof (f_ranges_insert es t xs X l e Y nl nl1 t1 Ex T HV Ey) as F1.
  pose proof T as T0. rewrite Ex in T0. destruct (ranges_insert_ok L F fu fu_ok es t X l e Y nl T0 HV) as (nl2 & t2 & R & E2 & T1 & _). rewrite Ey in E2. injection E2 as -> <-.
  destruct (frame_newids _ _ _ _ _ T T1 F1) as [_ HH].
  assert (HC' : forall c es, (c, es) ∈ ne -> Forall (evalid L) es /\ exists e0, (cu_leaf c, e0) ∈ X ++ R ++ Y /\ cu_offset c = rle_len e0).
  { intros c es' Hin. destruct (HC c es' ltac:(by right)) as (HV' & e' & Hc & Ho'). split; [done|]. exists e'. split; [|done]. apply HH; [done|]. intros ->. apply Hl.
    apply elem_of_list_fmap. by exists (c, es'). }
  pose proof (IH t1 _ _ _ _ T1 Hn HC' E) as F2. eapply frame_weak; [|exact (frame_trans _ _ _ _ _ F1 F2)]. cbn. intros l0 _ [->|?]; [left|by right].
Qed.
Lemma f_ranges ord ord2 t xs (args : list (nat * (nat * nat * A0))) nl t' : Tree t xs -> xs <> [] -> @USE_DIFF B = true ->
  (forall w, ord w ≡ₚ w) -> (forall w, ord2 w ≡ₚ w) ->
  (forall l r, (l, r) ∈ args -> exists e, (l, e) ∈ xs /\ fst (fst r) < snd (fst r) <= rle_len e) ->
  update_leaves_with_arg_in_ranges fu ord ord2 t args = Ok (nl, t') -> Frame (fun l => l ∈ args.*1) t t'.
Proof using F fu_ok.
  intros T Hne HD Hord Hord2 Hargs E.
  destruct (t_ranges_prep L F fu fu_ok ord t xs args T Hne HD Hord Hargs) as (t1 & dm & ne & t2 & ys & E1 & E2 & T2 & HK & HN & _).
  unfold update_leaves_with_arg_in_ranges in E. rewrite E1 in E. cbn [rbind] in E. rewrite E2 in E. cbn [rbind] in E.
  pose proof (f_groups _ _ _ _ _ _ _ E1) as F1. pose proof (frame_leaves _ _ (udcm_lf _ _ _ _ E2)) as F2.
  assert (F3 : Frame (fun l => l ∈ pkeys (ord2 ne)) t2 t').
  { eapply f_ranges_insert_all; [exact T2| | |exact E].
    - unfold pkeys. rewrite Hord2. exact HK.
    - intros c es Hin. rewrite Hord2 in Hin. by destruct (HN c es Hin) as (_ & H3 & H4). }
  eapply frame_weak; [|exact (frame_trans _ _ _ _ _ (frame_trans _ _ _ _ _ F1 F2) F3)]. cbn. intros l _ [[Hl|[]]|Hl].
  - destruct (group_keys (sort_by_leaf args) (sort_by_leaf_sorted args)) as (_ & G2 & _). apply elem_of_list_fmap in Hl as ([k g] & -> & Hg). cbn [fst].
    destruct (G2 k g Hg) as [Eg Hgn]. rewrite sort_by_leaf_key in Eg. destruct g as [|r g]; [done|]. apply elem_of_list_fmap. exists (k, r). split; [done|].
    assert (r ∈ of_key k args) as Hr by (rewrite <- Eg; left). unfold of_key in Hr. apply elem_of_list_fmap in Hr as ([k' r'] & -> & Hr). apply elem_of_list_filter in Hr as [Hk Hr]. cbn in Hk. by subst.
  - unfold pkeys in Hl. rewrite Hord2 in Hl. apply elem_of_list_fmap in Hl as ([c es] & -> & Hin). cbn [fst]. by destruct (HN c es Hin).
Qed.
End ranges.

(** ** a write and a refresh *)
Lemma f_poke t l e' t1 u od t' : poke t l e' = Some t1 -> recursive_update_cache t1 (ALeaf l) u od = Ok t' -> Frame (eq l) t t'.
Proof.
  intros E1 E2. unfold poke in E1. destruct (a_get (leaf_nodes t) l) as [lf|] eqn:Hl; [|done]. cbn in E1. injection E1 as <-.
  eapply frame_weak; [|exact (frame_trans _ _ _ _ _ (frame_set_lf t l lf _ Hl) (frame_leaves _ _ (ruc_lf _ _ _ _ _ E2)))]. cbn. tauto.
Qed.
End frame.
