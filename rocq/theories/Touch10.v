(** Touch10.v — how many arena entries update_leaves_with_arg_in_ranges writes. *)
From Verif Require Export Touch9 Ranges.
From Verif Require Import Upd Many Pos Thick.

Section ranges.
Context {B : BTreeTrait} (L : Lawful B) {U : Type} (F : Flatten L U) {A : Type} (fu : Elem B -> A -> Elem B).
Notation btree := (btree B).
Notation Tree := (Tree L).
Notation Elem := (Elem B).
Notation rg := (nat * nat * A)%type.
Implicit Types (t : btree).

Definition tot {X Y} (l : list (X * list Y)) : nat := sum_list_with (fun x => length (snd x)) l.

Lemma tot_perm {X Y} (l l' : list (X * list Y)) : l ≡ₚ l' -> tot l = tot l'.
Proof. unfold tot. induction 1; cbn [sum_list_with]; lia. Qed.
Lemma group_len {X} (l : list (nat * X)) : tot (group_by_leaf l) = length l /\ length (group_by_leaf l) <= length l.
Proof.
  unfold tot. induction l as [|[k x] l [IH1 IH2]]; [done|]. cbn [group_by_leaf]. destruct (group_by_leaf l) as [|[k' g] r]; cbn [sum_list_with length snd] in *; [lia|].
  case_decide; cbn [sum_list_with length snd]; lia.
Qed.
Lemma sort_len {X} (l : list (nat * X)) : length (sort_by_leaf l) = length l.
Proof.
  assert (Hi : forall (x : nat * X) l, length (sort_insert x l) = S (length l)).
  { intros x l0. induction l0 as [|y l0 IH]; [done|]. cbn [sort_insert]. case_decide; cbn [length]; [done|]. by rewrite IH. }
  induction l as [|x l IH]; [done|]. cbn [sort_by_leaf foldr]. rewrite Hi. cbn. f_equal. exact IH.
Qed.
Lemma bset_len x l : length (bset_insert x l) <= S (length l).
Proof. induction l as [|y l IH]; cbn [bset_insert length]; [lia|]. case_decide; [done|]. case_decide; cbn [length]; lia. Qed.
Lemma middle_len (g : list rg) sp : forall e i r lst, ranges_middle fu g e i sp = Ok (r, lst) -> length r = length sp.
Proof.
  induction sp as [|ix sp IH]; intros e i r lst E; cbn [ranges_middle] in E; [by injection E as <- _|].
  destruct (e_split e (ix - i)) as [[e1 nxt]| |]; cbn [rbind] in E; [|done..]. destruct (ranges_middle _ _ _ _ _) as [[r1 l1]| |] eqn:E1; cbn [rbind] in E; [|done..].
  injection E as <- _. cbn [length]. by rewrite (IH _ _ _ _ E1).
Qed.
Lemma ranges_leaf_len e (g : list rg) e1 new : ranges_leaf fu e g = Ok (e1, new) -> length new <= 2 * length g.
Proof.
  unfold ranges_leaf. intros E. set (sp := filter _ _) in E.
  assert (Hsp : length sp <= 2 * length g).
  { unfold sp. etrans; [apply filter_length|].
    assert (Hg : forall (g : list rg) s, length (foldl (fun s '(a, b, _) => bset_insert b (bset_insert a s)) s g) <= length s + 2 * length g).
    { clear. induction g as [|[[a b] x] g IH]; intros s; cbn [foldl length]; [lia|]. etrans; [apply IH|].
      pose proof (bset_len b (bset_insert a s)). pose proof (bset_len a s). lia. }
    etrans; [apply Hg|]. cbn [length]. lia. }
  destruct sp as [|first sp']; [destruct (rassert _); cbn [rbind] in E; [|done..]; injection E as _ <-; cbn [length]; lia|].
  destruct (e_split _ _) as [[e2 rest]| |]; cbn [rbind] in E; [|done..]. destruct (ranges_middle _ _ _ _ _) as [[mid lst]| |] eqn:E1; cbn [rbind] in E; [|done..].
  injection E as _ <-. rewrite app_length, (middle_len _ _ _ _ _ _ E1). cbn [length] in *. lia.
Qed.
Lemma groups_to gs : forall t (dm : gmap aidx (Diff B)) (ne : list (cursor * list Elem)) t1 dm1 ne1, ranges_groups fu t gs dm ne = Ok (t1, dm1, ne1) -> (forall a, is_Some (dm !! a) -> exists l, a = ALeaf l) ->
  Touched (length gs) t t1 /\ in_nodes t1 = in_nodes t /\ size (dom dm1 : gset aidx) <= size (dom dm : gset aidx) + length gs /\
  (forall a, is_Some (dm1 !! a) -> exists l, a = ALeaf l) /\ tot ne1 <= tot ne + 2 * tot gs.
Proof.
  induction gs as [|[l g] gs IH]; intros t dm ne t1 dm1 ne1 E Hd; cbn [ranges_groups] in E.
  { injection E as <- <- <-. split; [apply to_refl0|]. split_and!; [done|cbn; lia|done|cbn; lia]. }
  destruct (get_lf t l) as [lf| |]; cbn [rbind] in E; [|done..]. destruct (ranges_leaf _ _ _) as [[e1 new]| |] eqn:El; cbn [rbind] in E; [|done..]. cbv zeta in E.
  apply ranges_leaf_len in El. apply IH in E as (T1 & I1 & S1 & D1 & N1).
  2: { intros a. destruct (decide (a = ALeaf l)) as [->|Hn]; [by eauto|]. rewrite lookup_insert_ne by done. apply Hd. }
  split; [exact (Touch.to_trans 1 (length gs) _ _ _ (to_set_lf _ _ _) T1)|]. split; [done|]. split.
  { rewrite dom_insert_L, size_union_alt, size_singleton in S1. assert (size (dom dm ∖ {[ALeaf l]} : gset aidx) <= size (dom dm : gset aidx)) by (apply subseteq_size; set_solver). cbn [length]. lia. }
  split; [done|]. etrans; [exact N1|]. unfold tot in *. cbn [sum_list_with snd]. destruct new as [|x new]; [lia|]. rewrite sum_list_with_app. cbn [sum_list_with snd]. lia.
Qed.
Lemma ranges_insert_to k es : 1 <= k -> forall t xs cur p nl nl' t', Tree t xs -> CurAt xs cur p -> Forall (evalid L) es -> MDw true t ->
  length xs + 2 * length es <= 5 ^ k -> ranges_insert t cur es nl = Ok (nl', t') ->
  Touched (length es * (57 * k + 41)) t t' /\ exists xs', Tree t' xs' /\ length xs' <= length xs + 2 * length es.
Proof.
  intros Hk. induction es as [|x es IH]; intros t xs cur p nl nl' t' T HC V M Hl E; cbn [ranges_insert] in E.
  { injection E as _ <-. split; [apply to_refl0|]. exists xs. split; [done|lia]. }
  apply Forall_cons in V as [Vx V]. destruct (insert_by_path t cur x) as [[[cur' sl] t1]| |] eqn:E1; cbn [rbind] in E; [|done..].
  pose proof (log_insert_by_path L t xs k cur x _ t1 T M Hk ltac:(cbn [length] in Hl; lia) E1) as T1.
  destruct (len_insert L t xs cur p x cur' sl t1 T HC Vx E1) as (xs1 & Tr & (p' & C1) & Hl1).
  pose proof (md_insert L t xs cur p x cur' sl t1 T HC Vx E1 M) as M1.
  destruct C1 as (X & e & Y & Hx & Ho & Hp). assert (get_elem t1 (cu_leaf cur') = Some e) as He by (subst xs1; exact (tree_el L _ _ _ _ _ Tr)).
  rewrite He in E. cbn [ropt rbind] in E. destruct (rassert _); cbn [rbind] in E; [|done..].
  eapply IH in E as [T2 (xs2 & Tr2 & Hl2)]; [|exact Tr| |exact V|exact M1|cbn [length] in Hl; lia].
  2: { exists X, e, Y. split; [exact Hx|]. split; [cbn; lia|reflexivity]. }
  split; [exact (Touch.to_trans _ _ _ _ _ T1 T2)|]. exists xs2. split; [done|]. cbn [length]. lia.
Qed.
Lemma ranges_insert_all_to (fu_ok : forall e a, evalid L e -> evalid L (fu e a)) k ne : 1 <= k -> forall t xs nl nl' t', Tree t xs -> NoDup (pkeys ne) ->
  (forall c es, (c, es) ∈ ne -> Forall (evalid L) es /\ exists e, (cu_leaf c, e) ∈ xs /\ cu_offset c = rle_len e) ->
  MDw true t -> length xs + 2 * tot ne <= 5 ^ k -> ranges_insert_all t ne nl = Ok (nl', t') -> Touched (tot ne * (57 * k + 41)) t t'.
Proof.
  intros Hk. induction ne as [|[[l off] es] ne IH]; intros t xs nl nl' t' T Hn HC M Hlen E; cbn [ranges_insert_all] in E; [injection E as _ <-; apply to_refl0|].
  cbn [pkeys map fst cu_leaf] in Hn. apply NoDup_cons in Hn as [Hl Hn]. destruct (HC _ _ ltac:(left)) as (HV & e & He & Ho). cbn [cu_leaf cu_offset] in He, Ho. subst off.
  pose proof He as He0. apply elem_of_list_split in He as (X & Y & ->). pose proof (tree_nodup L _ _ T) as Hnd.
  destruct (ranges_insert_ok L F fu fu_ok es t X l e Y nl T HV) as (nl1 & t1 & R & E1 & T1 & HR & HlR & HnR & HA & Hnl & HnR2 & M1).
  unfold tot in *. cbn [sum_list_with snd] in *.
  assert (exists p, CurAt (X ++ (l, e) :: Y) (mkCur l (rle_len e)) p) as [p Hp] by (eexists; exists X, e, Y; split; [reflexivity|]; split; [cbn; lia|reflexivity]).
  destruct (ranges_insert_to k es Hk t _ _ p nl _ _ T Hp HV M ltac:(lia) E1) as [To (xs1 & Tr1 & Hl1)].
  rewrite E1 in E. cbn [rbind] in E.
  assert (xs1 = X ++ R ++ Y) as -> by (rewrite <- (Tree_elems L _ _ Tr1); symmetry; by rewrite <- (Tree_elems L _ _ T1)).
  rewrite fmap_app in Hnd. cbn in Hnd. apply NoDup_app in Hnd as (Hnd1 & Hnd2 & Hnd3). apply NoDup_cons in Hnd3 as [Hnd3 Hnd4].
  eapply IH in E; [|exact T1|exact Hn| |by apply M1|lia].
  - eapply to_le; [exact (Touch.to_trans _ _ _ _ _ To E)|]. lia.
  - intros c es' Hin. destruct (HC c es' ltac:(by right)) as (HV' & e' & Hc & Ho'). split; [done|]. exists e'. split; [|done].
    assert (cu_leaf c <> l). { intros Hcl. apply Hl. rewrite <- Hcl. apply elem_of_list_fmap. by exists (c, es'). }
    apply elem_of_app in Hc as [Hc|[[= E0 _]|Hc]%elem_of_cons]; [|done|]; rewrite !elem_of_app; tauto.
Qed.
Theorem ranges_to (fu_ok : forall e a, evalid L e -> evalid L (fu e a)) ord ord2 t xs (args : list (nat * rg)) k nl t' : Tree t xs -> xs <> [] -> @USE_DIFF B = true ->
  (forall l, ord l ≡ₚ l) -> (forall l, ord2 l ≡ₚ l) ->
  (forall l r, (l, r) ∈ args -> exists e, (l, e) ∈ xs /\ fst (fst r) < snd (fst r) <= rle_len e) ->
  MDw true t -> 1 <= k -> length xs + 4 * length args <= 5 ^ k ->
  update_leaves_with_arg_in_ranges fu ord ord2 t args = Ok (nl, t') -> Touched (length args * (115 * k + 84)) t t'.
Proof.
  intros T Hne HD Hord Hord2 Hargs M Hk Hlen E. unfold update_leaves_with_arg_in_ranges in E.
  destruct (t_ranges_prep L F fu fu_ok ord t xs args T Hne HD Hord Hargs) as (t1 & dm & ne & t2 & ys & E1 & E2 & T2 & HK & HN & H2 & M2).
  rewrite E1 in E. cbn [rbind] in E. rewrite E2 in E. cbn [rbind] in E.
  destruct (groups_to _ _ _ _ _ _ _ E1) as (To1 & I1 & S1 & D1 & N1); [intros a Ha; rewrite lookup_empty in Ha; by destruct Ha|].
  destruct (group_len (sort_by_leaf args)) as [G1 G2]. rewrite sort_len in G1, G2. rewrite G1 in N1. rewrite dom_empty_L, size_empty in S1. cbn [tot sum_list_with] in N1.
  destruct (thick_d L t xs k T M Hk ltac:(lia)) as (d & Hd & Hdk). destruct (lev_tree L t d xs T Hd) as (H & lv & HL & HH).
  pose proof (dirty_map_to H lv ord (length args) Hord t1 dm t2 E2 (lev_same _ _ _ _ I1 HL) ltac:(lia) D1) as To2.
  assert (Hy : length ys = length xs) by (symmetry; by eapply Forall2_length).
  assert (Ht : tot (ord2 ne) = tot ne) by (apply tot_perm, Hord2).
  assert (To3 : Touched (tot (ord2 ne) * (57 * k + 41)) t2 t').
  { eapply (ranges_insert_all_to fu_ok k (ord2 ne) Hk t2 ys [] nl t' T2); [unfold pkeys; rewrite Hord2; exact HK| |by apply M2|lia|exact E].
    intros c es Hin. rewrite Hord2 in Hin. by destruct (HN c es Hin) as (_ & H3 & H4). }
  rewrite Ht in To3. change (tot ([] : list (cursor * list Elem))) with 0 in N1.
  pose proof (Nat.mul_le_mono_r (tot ne) (2 * length args) (57 * k + 41) ltac:(lia)). pose proof (Nat.mul_le_mono_r (H + 2) (k + 1) (length args) ltac:(lia)).
  eapply to_le; [exact (Touch.to_trans _ _ _ _ _ (Touch.to_trans _ _ _ _ _ To1 To2) To3)|]. lia.
Qed.
End ranges.
