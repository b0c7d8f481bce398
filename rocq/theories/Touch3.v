(** Touch3.v — how many arena entries one insertion or removal writes: the public methods. *)
From Verif Require Export Touch2.

Section top.
Context {B : BTreeTrait} (L : Lawful B).
Notation btree := (btree B).
Notation node := (node B).
Notation child := (child B).
Notation OK := (OK L).
Notation Tree := (Tree L).
Implicit Types (t : btree) (i m p k : nat) (a b : aidx) (cs : list child).

Lemma lev_ok t H lv : OK t H lv -> Lev t H lv.
Proof.
  intros O. pose proof (ok_wt _ _ _ _ O) as W. pose proof (ok_lk _ _ _ _ O) as K. intros i n G.
  assert (Hk : kids t i = Some (n_children n)) by (unfold kids; by rewrite G). split_and!.
  - apply (wt_fresh W). rewrite Hk. eauto.
  - apply (wt_lv W). rewrite Hk. eauto.
  - pose proof (ok_sz _ _ _ _ O i) as Hs. rewrite (chs_kids _ _ _ Hk), map_length in Hs. lia.
  - intros p Hp. destruct (decide (AInt i = root t)) as [Er|Dr].
    { destruct (lk_root K i (eq_sym Er)) as [s Hs]. unfold lnk in Hs. rewrite G in Hs. cbn in Hs. congruence. }
    destruct (wt_up W (AInt i)) as (q & k & Hq); [cbn; rewrite Hk; eauto|done|].
    pose proof (lk_ch K _ _ _ Hq) as Hl. cbn in Hl. unfold lnk in Hl. rewrite G in Hl. cbn in Hl. assert (q = p) as -> by congruence.
    destruct (wt_ch W _ _ _ Hq) as [_ Hlv]. cbn in Hlv. split; [|done]. apply (wt_fresh W). unfold chs in Hq. destruct (kids t p); [eauto|by rewrite lookup_nil in Hq].
  - intros c m Hc Ha. apply elem_of_list_lookup in Hc as [k Hc]. assert (chs t i !! k = Some (AInt m)) as Hq by (rewrite (chs_kids _ _ _ Hk), list_lookup_fmap, Hc; cbn; by rewrite Ha).
    destruct (wt_ch W _ _ _ Hq) as [Hl Hlv]. cbn in Hl, Hlv. split; [by apply (wt_fresh W)|done].
Qed.
Lemma lev_empty t : Tree t [] -> Lev t 0 (fun _ => 0).
Proof.
  intros T. pose proof T as [d I]. pose proof (t_is_empty L t [] T) as Em. destruct (in_top _ _ _ _ I) as (r & rn & Er & Gr & Pr).
  assert (Hc : n_children rn = []).
  { unfold is_empty, get_internal in Em. rewrite Er in Em. cbn [unwrap_internal rbind] in Em. unfold get_in in Em. rewrite Gr in Em. cbn in Em. unfold n_is_empty in Em. by destruct (n_children rn). }
  assert (HR : forall a, Reach t a -> a = root t).
  { intros a Ha. induction Ha as [|i n c Hi IH G Hin]; [done|]. rewrite Er in IH. injection IH as ->. rewrite Gr in G. injection G as <-. rewrite Hc in Hin. by apply elem_of_nil in Hin. }
  intros i n G. assert (i = r) as ->. { assert (Reach t (AInt i)) as Hi by (apply (in_reach_in _ _ _ _ I); eauto). apply HR in Hi. congruence. }
  rewrite Gr in G. injection G as <-. split_and!; [apply (in_old_in _ _ _ _ I); eauto|lia|rewrite Hc; cbn; lia|congruence|]. rewrite Hc. intros c m Hin. by apply elem_of_nil in Hin.
Qed.
Lemma lev_tree t d xs : Tree t xs -> InOrder t (root t) d xs -> exists H lv, Lev t H lv /\ S H <= d.
Proof.
  intros T Hio. destruct (decide (xs = [])) as [->|Hne].
  - exists 0, (fun _ => 0). split; [by apply lev_empty|]. destruct T as [d0 I]. destruct (in_top _ _ _ _ I) as (r & rn & Er & _). rewrite Er in Hio. inversion Hio. lia.
  - destruct (tree_ok_d L t d xs T Hio Hne) as (H & lv & O & -> & _). exists H, lv. split; [by apply lev_ok|lia].
Qed.

(** a new leaf *)
Lemma alloc_lev t H lv e p ch t' : alloc_leaf_child t e p = (ch, t') -> Lev t H lv -> Touched 1 t t' /\ Lev t' H lv /\ (exists l, c_arena ch = ALeaf l).
Proof.
  unfold alloc_leaf_child. rewrite (surjective_pairing (ins_lf _ _)). intros [= <- <-] HL. split_and!; [apply to_ins_lf|by apply (lev_same t)|eauto].
Qed.
Lemma lev_add t H lv p pn ch cs s : Lev t H lv -> get_in t p = Ok pn -> vec_insert 12 (n_children pn) s ch = Ok cs -> (exists l, c_arena ch = ALeaf l) ->
  Lev (set_in t p (with_children pn cs)) H lv.
Proof.
  intros HL G V [l Hl]. apply vec_insert_in in V as [V1 V2]. pose proof (lev_get _ _ _ _ _ HL G) as Hn. apply lev_set; [done|].
  apply (ln_with _ _ _ _ _ _ Hn); [done|by left|]. cbn. intros c m Hc Ha. destruct (V2 c Hc) as [->|Hc']; [congruence|]. left. eauto.
Qed.
Lemma lev_push t H lv p pn ch cs : Lev t H lv -> get_in t p = Ok pn -> vec_push 12 (n_children pn) ch = Ok cs -> (exists l, c_arena ch = ALeaf l) ->
  Lev (set_in t p (with_children pn cs)) H lv.
Proof.
  intros HL G V [l Hl]. unfold vec_push in V. case_decide as D; [|done]. injection V as <-. pose proof (lev_get _ _ _ _ _ HL G) as Hn. apply lev_set; [done|].
  apply (ln_with _ _ _ _ _ _ Hn); [cbn; rewrite app_length; cbn; lia|by left|]. cbn. intros c m [Hc| ->%elem_of_list_singleton]%elem_of_app Ha; [left; eauto|congruence].
Qed.
Lemma split_if H lv (full : bool) t i t' : (if full then split t (AInt i) else Ok t) = Ok t' -> Lev t H lv -> lv i <= H -> Touched (28 * H + 31) t t'.
Proof.
  destruct full; [|intros [= <-] _ _; eapply to_le; [apply to_refl0|lia]]. unfold split. intros E HL Hi. apply (split_f_to H _ _ lv) in E; [|done..]. eapply to_le; [exact E|lia].
Qed.
Lemma lev_le t H lv p pn : Lev t H lv -> get_in t p = Ok pn -> lv p <= H.
Proof. intros HL G. by apply (lev_get _ _ _ _ _ HL) in G as (_ & ? & _). Qed.

Lemma push_to H lv t e c t' : push t e = Ok (c, t') -> Lev t H lv -> Touched (29 * H + 35) t t'.
Proof.
  unfold push. intros E HL. destruct (is_empty t) as [emp| |]; cbn [rbind] in E; [|done..].
  match type of E with rbind ?m _ = _ => destruct m as [[[[[ans upd] pidx] full] t1]| |] eqn:Em; cbn [rbind] in E; [|done..] end.
  assert (Touched 2 t t1 /\ Lev t1 H lv /\ (full = true -> exists i, pidx = AInt i /\ lv i <= H)) as (T1 & L1 & Hf).
  { destruct emp.
    - destruct (root t) as [l|r]; cbn [unwrap_internal rbind] in Em; [done|].
      destruct (alloc_leaf_child t e r) as [ch t0] eqn:Ea. destruct (alloc_lev _ _ _ _ _ _ _ Ea HL) as (A1 & A2 & A3). rs Em. injection Em as <- <- <- <- <-.
      split_and!; [eapply (to_trans 1 1); [exact A1|apply to_set_in]|by eapply lev_push|done].
    - rs Em. destruct (can_merge _ _).
      + rs Em. injection Em as <- <- <- <- <-. split_and!; [eapply to_le; [apply to_set_lf|lia]|by apply (lev_same t)|done].
      + destruct (alloc_leaf_child t e _) as [ch t0] eqn:Ea. destruct (alloc_lev _ _ _ _ _ _ _ Ea HL) as (A1 & A2 & A3). rs Em. injection Em as <- <- <- <- <-.
        split_and!; [eapply (to_trans 1 1); [exact A1|apply to_set_in]|by eapply lev_push|]. intros _. eexists. split; [done|by eapply lev_le]. }
  rs E. injection E as <- <-. destruct (ruc_st H lv _ _ _ _ _ Ey L1) as (T2 & L2 & _).
  assert (T3 : Touched (28 * H + 31) y y0).
  { destruct full; [|injection Ey0 as <-; eapply to_le; [apply to_refl0|lia]]. destruct (Hf eq_refl) as (i & -> & Hi). by eapply (split_if H lv true). }
  eapply to_le; [eapply to_trans; [eapply to_trans; [exact T1|exact T2]|exact T3]|]. lia.
Qed.
Lemma prepend_to H lv t e c t' : prepend t e = Ok (c, t') -> Lev t H lv -> Touched (29 * H + 35) t t'.
Proof.
  unfold prepend. intros E HL. destruct (first_leaf t) as [[l|]| |]; cbn [rbind] in E; [| |done..].
  2:{ destruct (root t) as [l|r]; cbn [unwrap_internal rbind] in E; [done|].
    destruct (alloc_leaf_child t e r) as [ch t0] eqn:Ea. destruct (alloc_lev _ _ _ _ _ _ _ Ea HL) as (A1 & A2 & A3). rs E. injection E as <- <-.
    eapply to_le; [eapply (to_trans 1 1); [exact A1|apply to_set_in]|lia]. }
  destruct (get_lf t l) as [lf| |]; cbn [rbind] in E; [|done..].
  match type of E with rbind ?m _ = _ => destruct m as [[[ans full] t1]| |] eqn:Em; cbn [rbind] in E; [|done..] end.
  assert (Touched 2 t t1 /\ Lev t1 H lv /\ (full = true -> lv (l_parent lf) <= H)) as (T1 & L1 & Hf).
  { destruct (can_merge _ _).
    + rs Em. injection Em as <- <- <-. split_and!; [eapply to_le; [apply to_set_lf|lia]|by apply (lev_same t)|done].
    + destruct (alloc_leaf_child t e _) as [ch t0] eqn:Ea. destruct (alloc_lev _ _ _ _ _ _ _ Ea HL) as (A1 & A2 & A3). rs Em. injection Em as <- <- <-.
      split_and!; [eapply (to_trans 1 1); [exact A1|apply to_set_in]|by eapply lev_add|]. intros _. by eapply lev_le. }
  rs E. injection E as <- <-. destruct (ruc_st H lv _ _ _ _ _ Ey L1) as (T2 & L2 & _).
  assert (T3 : Touched (28 * H + 31) y y0).
  { destruct full; [|injection Ey0 as <-; eapply to_le; [apply to_refl0|lia]]. eapply (split_if H lv true); eauto. }
  eapply to_le; [eapply to_trans; [eapply to_trans; [exact T1|exact T2]|exact T3]|]. lia.
Qed.

(** a leaf is split in two: [small] if its parent has room *)
Lemma sl_small H lv f t pos si t' : split_leaf_f (S f) t pos = Ok (si, t') -> Lev t H lv ->
  (forall lf pn, get_lf t (cu_leaf pos) = Ok lf -> get_in t (l_parent lf) = Ok pn -> length (n_children pn) <= 10) -> Touched 3 t t' /\ Lev t' H lv.
Proof.
  cbn [split_leaf_f]. intros E HL Hr. destruct (get_lf t (cu_leaf pos)) as [lf| |] eqn:Gl; cbn [rbind] in E; [|done..].
  destruct (get_in t (l_parent lf)) as [pn| |] eqn:Gp; cbn [rbind] in E; [|done..]. specialize (Hr lf pn eq_refl Gp).
  destruct (ropt _) as [s| |]; cbn [rbind] in E; [|done..].
  match type of E with rbind ?m _ = _ => destruct m as [lft| |]; cbn [rbind] in E; [|done..] end.
  assert (Stop : t' = t -> Touched 3 t t' /\ Lev t' H lv) by (intros ->; split; [eapply to_le; [apply to_refl0|lia]|done]).
  case_decide; [injection E as <- <-; by apply Stop|]. case_decide; [rs E; injection E as <- <-; by apply Stop|].
  destruct (rassert _) as [u| |]; cbn [rbind] in E; [|done..]. rewrite decide_False in E by lia.
  destruct (e_split _ _) as [[e1 e2]| |]; cbn [rbind] in E; [|done..]. rewrite (surjective_pairing (ins_lf _ _)) in E. cbv beta iota zeta in E. rs E. injection E as <- <-.
  set (t2 := snd (ins_lf (set_lf t (cu_leaf pos) (with_elem lf e1)) (mkLeaf e2 (l_parent lf)))).
  assert (L2 : Lev t2 H lv) by (by apply (lev_same t)). apply set_cache_ar in Ey. apply vec_insert_in in Ey0 as [V1 V2].
  pose proof (lev_get _ _ _ _ _ HL Gp) as Hn. assert (Hn' : LN (anext (in_nodes t)) H lv (l_parent lf) (with_children pn y0)).
  { apply (ln_with _ _ _ _ _ _ Hn); [done|by left|]. cbn. intros c m Hc Ha. destruct (V2 c Hc) as [->|Hc']; [done|]. left. by eapply ar_in. }
  split; [|exact (lev_set t2 _ _ _ _ L2 Hn')].
  eapply (to_trans 2 1); [eapply (to_trans 1 1); [apply (to_set_lf t)|exact (to_ins_lf (set_lf t (cu_leaf pos) (with_elem lf e1)) (mkLeaf e2 (l_parent lf)))]|exact (to_set_in t2 _ _)].
Qed.
Lemma sl_to t H lv pos si t' : OK t H lv -> split_leaf_if_needed t pos = Ok (si, t') ->
  exists H' lv', H' <= S H /\ Lev t' H' lv' /\ Touched (28 * H + 34) t t'.
Proof.
  intros O E. pose proof (ok_wt _ _ _ _ O) as W. pose proof (lev_ok _ _ _ O) as HL. unfold split_leaf_if_needed in E.
  destruct (get_lf t (cu_leaf pos)) as [lf| |] eqn:Gl; [|by cbn [split_leaf_f] in E; rewrite Gl in E..].
  assert (He : el t (cu_leaf pos) = Some (l_elem lf)). { unfold get_lf in Gl. unfold el. destruct (a_get (leaf_nodes t) (cu_leaf pos)); cbn in Gl; [|done]. by injection Gl as ->. }
  destruct (at_leaf_ok t H lv _ _ W (ok_lk _ _ _ _ O) He) as (p & A & c & Z & AL).
  pose proof AL as (Hk & Ha & Hlv & _ & Hl & Hget & Hrp & _ & po & s & Hg & Hlk). rewrite Gl in Hget. injection Hget as Hlf. set (e := l_elem lf) in *. clearbody e. subst lf.
  destruct (decide (length (A ++ c :: Z) <= 10)) as [Hlen|Hlen].
  { destruct (sl_small H lv _ _ _ _ _ E HL) as [T1 L1].
    { intros lf pn G1 G2. rewrite Gl in G1. injection G1 as <-. cbn in G2. rewrite Hg in G2. injection G2 as <-. exact Hlen. }
    exists H, lv. split_and!; [lia|done|]. eapply to_le; [exact T1|lia]. }
  remember 2 as f2 eqn:Ef in E. cbn [split_leaf_f] in E. rewrite Gl in E. cbn [rbind l_parent l_elem] in E. rewrite Hg in E. cbn [rbind n_children] in E. rewrite Hrp in E. cbn [ropt rbind] in E.
  match type of E with rbind ?m _ = _ => destruct m as [lft| |]; cbn [rbind] in E; [|done..] end.
  assert (Stop : t' = t -> exists H' lv', H' <= S H /\ Lev t' H' lv' /\ Touched (28 * H + 34) t t').
  { intros ->. exists H, lv. split_and!; [lia|done|eapply to_le; [apply to_refl0|lia]]. }
  case_decide as Dz; [injection E as <- <-; by apply Stop|]. case_decide as Dl; [rs E; injection E as <- <-; by apply Stop|].
  destruct (rassert _) as [u| |]; cbn [rbind] in E; [|done..]. rewrite decide_True in E by lia.
  assert (length (chs t p) = 11) as H11.
  { pose proof (ok_sz _ _ _ _ O p). rewrite (chs_kids _ _ _ Hk), map_length in *. lia. }
  destruct (split_ok L (H - lv p) t H lv p (fuel t) W (ok_lk _ _ _ _ O) (ok_va _ _ _ _ O) (ok_co _ _ _ _ O) (ok_rc _ _ _ _ O))
      as (t0 & H0 & lv0 & Es & O0 & Hgen & He0 & HM0 & Al0 & _ & Half & HH0); try lia.
  { rewrite Hk. eauto. } { intros j _. apply (ok_sz _ _ _ _ O). }
  { pose proof (wt_depth_bound W p) as Hb. rewrite Hk in Hb. specialize (Hb ltac:(eauto)). unfold fuel. lia. }
  unfold split in E. rewrite Es in E. cbn [rbind] in E. pose proof (split_f_to H _ _ lv _ _ Es HL ltac:(lia)) as T0.
  destruct (at_leaf_ok t0 H0 lv0 (cu_leaf pos) e (ok_wt _ _ _ _ O0) (ok_lk _ _ _ _ O0)) as (p0 & A0 & c0 & Z0 & AL0); [by rewrite He0|].
  destruct AL0 as (Hk0 & Ha0 & _ & _ & _ & Hget0 & _ & _ & po0 & s0 & Hg0 & _).
  assert (length (A0 ++ c0 :: Z0) <= 10) as Hlen0.
  { specialize (Half p0 (ALeaf (cu_leaf pos))).
    rewrite (chs_kids _ _ _ Hk), (chs_kids _ _ _ Hk0), !map_length in Half.
    enough (length (A0 ++ c0 :: Z0) <= 6) by lia. apply Half; rewrite map_app, elem_of_app; right; cbn [map]; rewrite ?Ha, ?Ha0; left. }
  subst f2. destruct (sl_small H0 lv0 _ _ _ _ _ E (lev_ok _ _ _ O0)) as [T1 L1].
  { intros lf pn G1 G2. rewrite Hget0 in G1. injection G1 as <-. cbn in G2. rewrite Hg0 in G2. injection G2 as <-. exact Hlen0. }
  exists H0, lv0. split_and!; [lia|done|]. eapply to_le; [eapply to_trans; [exact T0|exact T1]|lia].
Qed.
Lemma insert_by_path_to t H lv cur e r t' : insert_by_path t cur e = Ok (r, t') -> OK t H lv -> Touched (57 * H + 98) t t'.
Proof.
  unfold insert_by_path. intros E O. pose proof (lev_ok _ _ _ O) as HL.
  destruct (get_lf t (cu_leaf cur)) as [lf| |]; cbn [rbind] in E; [|done..]. destruct (try_insert _ _ _) as [ti| |]; cbn [rbind] in E; [|done..].
  match type of E with rbind ?m _ = _ => destruct m as [[[[[ans sl] pidx] full] t1]| |] eqn:Em; cbn [rbind] in E; [|done..] end.
  assert (exists H' lv', H' <= S H /\ Lev t1 H' lv' /\ Touched (28 * H + 36) t t1 /\ (full = true -> lv' pidx <= H')) as (H' & lv' & HH & L1 & T1 & Hf).
  { assert (Easy : forall x, t1 = set_lf t (cu_leaf cur) x -> full = false -> exists H' lv', H' <= S H /\ Lev t1 H' lv' /\ Touched (28 * H + 36) t t1 /\ (full = true -> lv' pidx <= H')).
    { intros x -> ->. exists H, lv. split_and!; [lia|by apply (lev_same t)|eapply to_le; [apply to_set_lf|lia]|done]. }
    destruct ti as [e'|e'].
    - injection Em as <- <- <- <- <-. by eapply Easy.
    - destruct (bool_decide _ && can_merge _ _); [rs Em; injection Em as <- <- <- <- <-; by eapply Easy|].
      destruct (bool_decide _ && can_merge _ _); [rs Em; injection Em as <- <- <- <- <-; by eapply Easy|].
      destruct (split_leaf_if_needed t cur) as [[si t0]| |] eqn:Es; cbn [rbind] in Em; [|done..].
      destruct (sl_to _ _ _ _ _ _ O Es) as (H' & lv' & HH & L0 & T0). destruct (alloc_leaf_child t0 e' _) as [ch t2] eqn:Ea.
      destruct (alloc_lev _ _ _ _ _ _ _ Ea L0) as (A1 & A2 & A3). rs Em. injection Em as <- <- <- <- <-.
      exists H', lv'. split_and!; [done|by eapply lev_add| |intros _; by eapply lev_le].
      eapply to_le; [eapply to_trans; [exact T0|eapply to_trans; [exact A1|apply to_set_in]]|lia]. }
  rs E. injection E as <- <-. destruct (ruc_st H' lv' _ _ _ _ _ Ey L1) as (T2 & L2 & _).
  assert (T3 : Touched (28 * H' + 31) y y0).
  { destruct full; [|injection Ey0 as <-; eapply to_le; [apply to_refl0|lia]]. eapply (split_if H' lv' true); eauto. }
  eapply to_le; [eapply to_trans; [eapply to_trans; [exact T1|exact T2]|exact T3]|]. lia.
Qed.

(** ** the public methods, in terms of the depth *)
Lemma t_push_to t d xs e c t' : Tree t xs -> InOrder t (root t) d xs -> push t e = Ok (c, t') -> Touched (29 * d + 6) t t'.
Proof. intros T Hio E. destruct (lev_tree _ _ _ T Hio) as (H & lv & HL & Hd). eapply to_le; [by eapply push_to|lia]. Qed.
Lemma t_prepend_to t d xs e c t' : Tree t xs -> InOrder t (root t) d xs -> prepend t e = Ok (c, t') -> Touched (29 * d + 6) t t'.
Proof. intros T Hio E. destruct (lev_tree _ _ _ T Hio) as (H & lv & HL & Hd). eapply to_le; [by eapply prepend_to|lia]. Qed.
Lemma t_remove_to t d xs cur o t' : Tree t xs -> InOrder t (root t) d xs -> remove_leaf t cur = Ok (o, t') -> Touched (31 * d + 1) t t'.
Proof. intros T Hio E. destruct (lev_tree _ _ _ T Hio) as (H & lv & HL & Hd). eapply to_le; [by eapply remove_leaf_to|lia]. Qed.
Lemma t_insert_by_path_to t d xs cur e r t' : Tree t xs -> InOrder t (root t) d xs -> insert_by_path t cur e = Ok (r, t') -> Touched (57 * d + 41) t t'.
Proof.
  intros T Hio E. assert (Hne : xs <> []).
  { intros ->. unfold insert_by_path in E. destruct (get_lf t (cu_leaf cur)) as [lf| |] eqn:G; cbn [rbind] in E; [|done..].
    destruct T as [d0 I]. assert ((cu_leaf cur, l_elem lf) ∈ @nil (nat * Elem B)) as Hin; [|by apply elem_of_nil in Hin].
    apply (in_leaf _ _ _ _ I). unfold get_lf in G. destruct (a_get (leaf_nodes t) (cu_leaf cur)); cbn in *; [by injection G as ->|done]. }
  destruct (tree_ok_d L t d xs T Hio Hne) as (H & lv & O & -> & _). eapply to_le; [by eapply insert_by_path_to|lia].
Qed.
Lemma t_insert_to (Q : Query B) t d xs q e r t' : Tree t xs -> InOrder t (root t) d xs -> insert Q t q e = Ok (r, t') -> Touched (57 * d + 41) t t'.
Proof.
  intros T Hio E. unfold insert in E. destruct (query Q t q) as [[qr|]| |]; cbn [rbind] in E; [| |done..].
  - by eapply t_insert_by_path_to.
  - destruct (push t e) as [[c t1]| |] eqn:Ep; cbn [rbind] in E; [|done..]. injection E as <- <-. eapply to_le; [by eapply t_push_to|lia].
Qed.
End top.

(** ** ordered maps *)
From Verif Require Import OrdM.
Section ord.
Context {Key Value : Type} {kcmp : Key -> Key -> comparison} (TO : TOrd kcmp).
Notation OT := (@OrdTrait Key Value kcmp).
Notation OL := (@OrdLaw Key Value kcmp (to_refl _ TO)).
Implicit Types m : omap_t Key Value kcmp.

Lemma map_lev m s k : MapOf TO m s -> 1 <= k -> length s < 2 * 6 ^ k -> exists H lv, Lev (om_tree kcmp m) H lv /\ S H <= k.
Proof.
  intros (xs & T & M & <- & _) Hk Hl. rewrite map_length in Hl. pose proof T as [d I]. pose proof (in_order _ _ _ _ I) as Ho.
  destruct (decide (length xs = 0)) as [E0|E0].
  - apply nil_length_inv in E0 as ->. exists 0, (fun _ => 0). split; [by apply (lev_empty OL)|lia].
  - destruct (lev_tree OL _ _ _ T Ho) as (H & lv & HL & Hd). exists H, lv. split; [done|]. destruct (decide (d <= k)); [lia|]. exfalso.
    pose proof (t_depth_min OL _ d xs T ltac:(by intros ->) M Ho ltac:(lia)) as Hm.
    assert (6 ^ k <= 6 ^ (d - 1)) as Hp by (apply Nat.pow_le_mono_r; lia). assert (2 * 6 ^ k <= 2 * 6 ^ (d - 1)) as Hp2 by (by apply Nat.mul_le_mono_l).
    apply (Nat.lt_irrefl (@length (nat * Elem OT) xs)). eapply Nat.lt_le_trans; [exact Hl|]. etransitivity; [exact Hp2|exact Hm].
Qed.
Lemma sl_ord (t t' : btree OT) cur si : @split_leaf_if_needed OT t cur = Ok (si, t') -> t' = t.
Proof.
  unfold split_leaf_if_needed. generalize 2. intros f. cbn [split_leaf_f]. intros E. rs E.
  case_decide as D0; [by injection E|]. case_decide as D1; [rs E; by injection E|].
  destruct (bool_decide_reflect (cu_offset cur < rle_len (l_elem y))) as [Hlt|]; cbn [rassert rbind] in E; [|done].
  exfalso. change (rle_len (l_elem y)) with 1 in *. lia.
Qed.
Lemma om_insert_to m m' s n k v : MapOf TO m s -> 1 <= n -> length s < 2 * 6 ^ n ->
  om_insert kcmp m k v = Ok m' -> Touched (29 * n + 6) (om_tree kcmp m) (om_tree kcmp m').
Proof.
  intros T Hn Hl E. destruct (map_lev _ _ _ T Hn Hl) as (H & lv & HL & Hd). unfold om_insert in E.
  destruct (query _ _ _) as [[qr|]| |]; cbn [rbind] in E; [| |done..].
  2:{ destruct (push _ _) as [[c t1]| |] eqn:Ep; cbn [rbind] in E; [|done..]. injection E as <-. eapply to_le; [by eapply push_to|lia]. }
  destruct (qr_found qr). { rs E. injection E as <-. eapply to_le; [apply to_set_lf|lia]. }
  destruct (get_lf _ _) as [lf| |]; cbn [rbind] in E; [|done..]. destruct (alloc_leaf_child _ _ _) as [ch t1] eqn:Ea.
  destruct (alloc_lev _ _ _ _ _ _ _ Ea HL) as (A1 & A2 & A3).
  destruct (split_leaf_if_needed _ _) as [[si t2]| |] eqn:Es; cbn [rbind] in E; [|done..]. pose proof (sl_ord _ _ _ _ Es) as ->.
  rs E. injection E as <-. cbn [om_tree].
  assert (L3 : Lev (set_in t1 (si_parent si) (with_children y y0)) H lv) by (by eapply lev_add).
  destruct (ruc_st H lv _ _ _ _ _ Ey1 L3) as (T2 & L2 & _).
  assert (T3 : Touched (28 * H + 31) y1 y2).
  { destruct (is_full _); [|injection Ey2 as <-; eapply to_le; [apply to_refl0|lia]]. 
    destruct (le_lt_dec (lv (l_parent lf)) H) as [Hle|Hlt]; [by eapply (split_if H lv true)|]. exfalso.
    unfold BTree.split in Ey2. destruct (fuel y1) as [|ff]; [done|]. cbn [split_f] in Ey2. unfold split_node in Ey2. cbn [unwrap_internal rbind] in Ey2.
    destruct (get_in y1 (l_parent lf)) eqn:G; cbn [rbind] in Ey2; [|done..]. apply (lev_le _ _ _ _ _ L2) in G. lia. }
  eapply to_le; [eapply Touch.to_trans; [eapply Touch.to_trans; [eapply (Touch.to_trans 1 1); [exact A1|apply to_set_in]|exact T2]|exact T3]|]. lia.
Qed.
Lemma om_delete_to m m' s n k o : MapOf TO m s -> 1 <= n -> length s < 2 * 6 ^ n ->
  om_delete kcmp m k = Ok (o, m') -> Touched (31 * n + 1) (om_tree kcmp m) (om_tree kcmp m').
Proof.
  intros T Hn Hl E. destruct (map_lev _ _ _ T Hn Hl) as (H & lv & HL & Hd). unfold om_delete in E.
  destruct (query _ _ _) as [[qr|]| |]; cbn [rbind] in E; [| |done..]. 2:{ injection E as <- <-. eapply to_le; [apply to_refl0|lia]. }
  destruct (remove_leaf _ _) as [[oe t1]| |] eqn:Er; cbn [rbind] in E; [|done..]. assert (T1 : Touched (31 * n + 1) (om_tree kcmp m) t1) by (eapply to_le; [by eapply remove_leaf_to|lia]).
  destruct oe; rs E; injection E as <- <-; exact T1.
Qed.
End ord.
