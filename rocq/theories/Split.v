(** Split.v — splitting an over-full node (lib.rs:1790-1943) keeps every invariant. *)
From Verif Require Export Rd.
Global Arguments kids : simpl never.
Global Arguments lnk : simpl never.
Global Arguments el : simpl never.
Global Arguments llnk : simpl never.
Global Arguments chs : simpl never.

Ltac rb := cbn [rbind ropt unwrap_internal unwrap_leaf n_children n_parent n_slot with_children with_parent with_slot
  fst snd c_arena c_cache calc_cache].

Section split.
Context {B : BTreeTrait} (L : Lawful B).
Notation btree := (btree B).
Notation child := (child B).
Notation CO := (CO L).
Notation RC := (RC L).
Notation VA := (VA L).
Notation act := (act L).
Implicit Types (t : btree) (i j m p q k s : nat) (a b : aidx) (c : child) (cs : list child).



Lemma delete_tail {A} (l : list A) sp : sp <= length l -> delete_range l sp (length l) = Ok (take sp l).
Proof.
  intros Hsp. unfold delete_range. case_decide as E1; [subst; by rewrite take_ge|].
  rewrite decide_False by lia. case_decide as E2.
  - unfold vec_remove. destruct (lookup_lt_is_Some_2 l sp) as [x Hx]; [lia|]. rewrite Hx. cbn.
    rewrite drop_ge by lia. by rewrite app_nil_r.
  - rewrite decide_True by lia. rewrite drop_ge by lia. by rewrite app_nil_r.
Qed.
Lemma lw_calc0 v0 (K : list child) : Forall (cvalid L) (map c_cache K) -> K <> [] ->
  exists d, calc_cache_internal v0 (map c_cache K) = Ok (summ L (map c_cache K), d).
Proof.
  intros F Hne. destruct (lw_calc _ L v0 (map c_cache K) F) as (d & Ed & _); [left; by destruct K|]. eauto.
Qed.

(** split_node *)
Lemma split_node_ok E t H lv i cs po s :
  WT E t H lv -> kids t i = Some cs -> lnk t i = Some (po, s) -> 2 <= length cs -> VA t ->
  let sp := length cs / 2 in let ri := anext (in_nodes t) in
  exists t', split_node t (AInt i) = Ok (po, s, summ L (map c_cache (take sp cs)),
      mkChild (AInt ri) (summ L (map c_cache (drop sp cs))), t')
    /\ (forall j, kids t' j = if decide (i = j) then Some (take sp cs)
                              else if decide (ri = j) then Some (drop sp cs) else kids t j)
    /\ (forall x, el t' x = el t x) /\ root t' = root t /\ root_cache t' = root_cache t
    /\ anext (in_nodes t') = S (anext (in_nodes t)) /\ anext (leaf_nodes t') = anext (leaf_nodes t)
    /\ lnk t' ri = Some (po, U8_MAX)
    /\ (forall k a, map c_arena (drop sp cs) !! k = Some a -> linked t' a ri k)
    /\ (forall a, a <> AInt ri -> a ∉ map c_arena (drop sp cs) -> lnk_same t t' a).
Proof.
  intros W Hk Hl Hlen V sp ri.
  assert (Hsp : 1 <= sp < length cs).
  { unfold sp. pose proof (Nat.div_str_pos (length cs) 2 ltac:(lia)). pose proof (Nat.div_lt (length cs) 2 ltac:(lia) ltac:(lia)). lia. }
  assert (Hfr : kids t ri = None).
  { destruct (kids t ri) eqn:Er; [|done]. pose proof (wt_fresh W ri). rewrite Er in H0. unfold ri in H0.
    specialize (H0 ltac:(eauto)). lia. }
  assert (Hri : ri <> i) by (intros ->; congruence).
  pose proof (VA_kids L _ _ _ V Hk) as F.
  assert (F1 : Forall (cvalid L) (map c_cache (take sp cs)) /\ Forall (cvalid L) (map c_cache (drop sp cs))).
  { rewrite <- (take_drop sp cs), map_app, Forall_app in F. done. }
  assert (N1 : take sp cs <> []) by (intros HN; apply length_zero_iff_nil in HN; rewrite take_length in HN; lia).
  assert (N2 : drop sp cs <> []) by (intros HN; apply length_zero_iff_nil in HN; rewrite drop_length in HN; lia).
  destruct F1 as [F1 F2].
  unfold split_node. rb. rewrite (get_in_proj _ _ _ _ _ Hk Hl). rb. fold sp.
  rewrite delete_tail by lia. rb.
  set (t1 := set_in t i _). set (nn := mkNode po U8_MAX []).
  assert (Er1 : anext (in_nodes t1) = ri) by done.
  rewrite (surjective_pairing (ins_in t1 nn)). change (fst (ins_in t1 nn)) with ri.
  set (t2 := snd (ins_in t1 nn)).
  assert (K2 : forall j, kids t2 j = if decide (ri = j) then Some [] else if decide (i = j) then Some (take sp cs) else kids t j).
  { intros j. unfold t2. rewrite kids_ins_in. rewrite Er1. case_decide; [done|]. unfold t1. by rewrite kids_set_in. }
  assert (L2 : forall j, lnk t2 j = if decide (ri = j) then Some (po, U8_MAX) else lnk t j).
  { intros j. unfold t2. rewrite lnk_ins_in. rewrite Er1. case_decide; [done|]. unfold t1. rewrite lnk_set_in.
    case_decide; [by subst|done]. }
  assert (Gi : get_in t2 i = Ok (mkNode po s (take sp cs))).
  { apply get_in_proj; [rewrite K2, decide_False, decide_True by done|rewrite L2, decide_False by done]; done. }
  rewrite Gi. rb.
  destruct (lw_calc0 cache_default (take sp cs) F1 N1) as [d1 ->]. rb.
  destruct (re_parent_all_ok (drop sp cs) t2 ri 0) as (t3 & E3 & C3 & Ho3 & Hl3).
  { intros a Ha. assert (a ∈ chs t i) as Hin.
    { rewrite (chs_kids _ _ _ Hk). rewrite <- (take_drop sp cs), map_app. apply elem_of_app. by right. }
    apply (wt_live_child W) in Hin. destruct a as [x|m]; cbn in *; [done|].
    rewrite K2. repeat case_decide; eauto. }
  { pose proof (wt_nodup W i) as Hnd. rewrite (chs_kids _ _ _ Hk), <- (take_drop sp cs), map_app in Hnd.
    by apply NoDup_app in Hnd as (_ & _ & ?). }
  rewrite E3. rb.
  assert (Hrn : AInt ri ∉ map c_arena (drop sp cs)).
  { intros Hin. assert (AInt ri ∈ chs t i) as Hin2.
    { rewrite (chs_kids _ _ _ Hk). rewrite <- (take_drop sp cs), map_app. apply elem_of_app. by right. }
    apply (wt_live_child W) in Hin2. cbn in Hin2. rewrite Hfr in Hin2. by destruct Hin2. }
  assert (Lr : lnk t3 ri = Some (po, U8_MAX)).
  { pose proof (Ho3 (AInt ri) Hrn) as Hx. cbn in Hx. rewrite Hx, L2. by rewrite decide_True. }
  assert (Gr : get_in t3 ri = Ok (mkNode po U8_MAX [])).
  { apply get_in_proj; [|done]. rewrite (co_kids C3), K2. by rewrite decide_True. }
  rewrite Gr. rb.
  destruct (lw_calc0 cache_default (drop sp cs) F2 N2) as [d2 ->]. rb.
  eexists. split; [done|]. split; [|split; [|split; [|split; [|split; [|split; [|split; [|split]]]]]]].
  - intros j. rewrite kids_set_in. cbn. rewrite (co_kids C3), K2. repeat case_decide; subst; try done.
  - intros x. rewrite el_set_in, (co_el C3). done.
  - cbn. by rewrite (co_root C3).
  - cbn. by rewrite (co_rc C3).
  - cbn. by rewrite (co_an C3).
  - cbn. by rewrite (co_al C3).
  - rewrite lnk_set_in. by rewrite decide_True.
  - intros k a Ha. pose proof (Hl3 k a Ha) as Hx. cbn in Hx.
    assert (a <> AInt ri) as Hne. { intros ->. apply Hrn. by eapply elem_of_list_lookup_2. }
    destruct a as [x|m]; cbn in *; [done|]. rewrite lnk_set_in, decide_False; [done|]. congruence.
  - intros a Ha Hn. pose proof (Ho3 a Hn) as Hx. destruct a as [x|m]; cbn in *.
    + rewrite llnk_set_in, Hx. done.
    + rewrite lnk_set_in, decide_False by congruence. rewrite Hx, L2, decide_False by congruence. done.
Qed.

(** split with a parent: one redistribution step, then possibly the parent *)
Lemma split_attach_ok E t H lv i cs f :
  WT E t H lv -> LK t -> VA t -> kids t i = Some cs -> 2 <= length cs -> AInt i <> root t ->
  (forall p, AInt i ∈ chs t p -> length (chs t p) < 12) ->
  exists p l c r t',
    let sp := length cs / 2 in let ri := anext (in_nodes t) in
    c_arena c = AInt i /\ lv p = S (lv i) /\
    RD L t t' p l [c] [mkChild (AInt i) (summ L (map c_cache (take sp cs)));
                       mkChild (AInt ri) (summ L (map c_cache (drop sp cs)))] r /\
    kids t' i = Some (take sp cs) /\ kids t' ri = Some (drop sp cs) /\
    (exists t1 pn, split_node t (AInt i) = Ok (Some (AInt p), length l, summ L (map c_cache (take sp cs)),
         mkChild (AInt ri) (summ L (map c_cache (drop sp cs))), t1) /\
       get_in t1 p = Ok pn /\ n_children pn = l ++ c :: r /\
       update_children_parent_slot_from (set_in t1 p (with_children pn (l ++ mkChild (AInt i) (summ L (map c_cache (take sp cs))) ::
          mkChild (AInt ri) (summ L (map c_cache (drop sp cs))) :: r))) (AInt p) (S (length l)) = Ok t') /\
    split_f (S f) t (AInt i) =
      if bool_decide (12 <= S (length (chs t p))) then split_f f t' (AInt p) else Ok t'.
Proof.
  intros W K V Hk Hlen Hr Hsz.
  destruct (parent_of W K i ltac:(eauto) Hr) as (p & s & csp & c & n & Hlk & Hg & Hkp & Hn & Hc & Ha & Hlv & Hpi).
  destruct (split_node_ok E t H lv i cs (Some (AInt p)) s W Hk Hlk Hlen V)
    as (t1 & E1 & K1 & El1 & R1 & Rc1 & An1 & Al1 & Lr1 & Lc1 & Lo1).
  set (sp := length cs / 2) in *. set (ri := anext (in_nodes t)) in *.
  assert (Hfr : kids t ri = None).
  { destruct (kids t ri) eqn:Er; [|done]. pose proof (wt_fresh W ri) as H0. rewrite Er in H0. unfold ri in H0.
    specialize (H0 ltac:(eauto)). lia. }
  assert (Hri : ri <> i) by (intros ->; congruence).
  assert (Hrp : ri <> p) by (intros ->; congruence).
  destruct (insert_split csp s c (mkChild (c_arena c) (summ L (map c_cache (take sp cs)))) Hc) as (l & r & Ecs & Ein & Hls).
  set (c1 := mkChild (c_arena c) (summ L (map c_cache (take sp cs)))) in *.
  set (c2 := mkChild (AInt ri) (summ L (map c_cache (drop sp cs)))) in *.
  assert (Hsz' : length csp < 12).
  { specialize (Hsz p). rewrite (chs_kids _ _ _ Hkp), map_length in Hsz. apply Hsz.
    rewrite <- Ha. apply elem_of_list_fmap_1. by eapply elem_of_list_lookup_2. }
  assert (Hcp : chs t p = map c_arena l ++ AInt i :: map c_arena r).
  { by rewrite (chs_kids _ _ _ Hkp), Ecs, map_app, <- Ha. }
  (* facts about t1 *)
  assert (Kp1 : kids t1 p = Some csp).
  { by rewrite K1, !decide_False by done. }
  assert (lnk t1 p = lnk t p /\ forall m, AInt m ∈ chs t p -> lnk t1 m = lnk t m) as [Lp1 Lm1].
  { assert (G : forall m, AInt m ∈ chs t p \/ m = p -> AInt m <> AInt ri /\ AInt m ∉ map c_arena (drop sp cs)).
    { intros m Hm. assert (lv i <= lv m /\ is_Some (kids t m)) as [Hlm Hml].
      { destruct Hm as [Hm| ->]; [|split; [lia|eauto]].
        pose proof (wt_live_child W _ _ Hm). apply elem_of_list_lookup in Hm as [k Hm].
        apply (wt_ch W) in Hm as [_ Hm]. cbn in Hm. split; [lia|done]. }
      split; [intros [= ->]; rewrite Hfr in Hml; by destruct Hml|].
      intros Hin. assert (AInt m ∈ chs t i) as [k Hx]%elem_of_list_lookup.
      { rewrite (chs_kids _ _ _ Hk), <- (take_drop sp cs), map_app. apply elem_of_app. by right. }
      apply (wt_ch W) in Hx as [_ Hx]. cbn in Hx. lia. }
    split.
    - destruct (G p) as [G1 G2]; [by right|]. apply (Lo1 (AInt p)); done.
    - intros m Hm. destruct (G m) as [G1 G2]; [by left|]. apply (Lo1 (AInt m)); done. }
  destruct (live_lnk t p ltac:(eauto)) as (pop & sop & Hlp).
  assert (Gp1 : get_in t1 p = Ok (mkNode pop sop csp)).
  { apply get_in_proj; [done|]. by rewrite Lp1. }
  set (t2 := set_in t1 p (mkNode pop sop (l ++ c1 :: c2 :: r))).
  assert (K2 : forall j, kids t2 j = if decide (p = j) then Some (l ++ c1 :: c2 :: r) else kids t1 j).
  { intros j. unfold t2. by rewrite kids_set_in. }
  assert (L2 : forall j, lnk t2 j = lnk t1 j).
  { intros j. unfold t2. rewrite lnk_set_in. case_decide; [subst|done]. cbn. by rewrite Lp1, Hlp. }
  assert (Gp2 : get_in t2 p = Ok (mkNode pop sop (l ++ c1 :: c2 :: r))).
  { apply get_in_proj; [by rewrite K2, decide_True|]. by rewrite L2, Lp1. }
  assert (Hndp : NoDup (map c_arena l ++ AInt i :: map c_arena r)) by (rewrite <- Hcp; apply (wt_nodup W)).
  assert (Hint : forall a, a ∈ map c_arena l \/ a ∈ map c_arena r -> exists m, a = AInt m /\ is_Some (kids t m)).
  { intros a Hin. assert (a ∈ chs t p) as Hin2 by (rewrite Hcp; set_solver).
    destruct (wt_int_child W _ _ Hin2) as (m & -> & _); [lia|]. exists m. split; [done|].
    by apply (wt_live_child W) in Hin2. }
  assert (Hri_n : AInt ri ∉ map c_arena l /\ AInt ri ∉ map c_arena r).
  { split; intros Hin; [destruct (Hint (AInt ri)) as (m & [= <-] & Hm); [by left|]
       |destruct (Hint (AInt ri)) as (m & [= <-] & Hm); [by right|]]; rewrite Hfr in Hm; by destruct Hm. }
  assert (Edrop : drop (S s) (l ++ c1 :: c2 :: r) = c2 :: r).
  { replace (l ++ c1 :: c2 :: r) with ((l ++ [c1]) ++ c2 :: r) by (by rewrite <- app_assoc).
    rewrite drop_app_alt; [done|]. rewrite app_length. cbn. lia. }
  destruct (set_slots_ok (c2 :: r) t2 (S s)) as (t3 & E3 & C3 & Ho3 & Hs3).
  { cbn [map c_arena c2]. intros a [-> |Hin]%elem_of_cons.
    - exists ri. split; [done|]. rewrite K2, decide_False by done. rewrite K1, decide_False, decide_True by done. eauto.
    - destruct (Hint a) as (m & -> & Hm); [by right|]. exists m. split; [done|].
      rewrite K2. case_decide; [eauto|]. rewrite K1. repeat case_decide; eauto. }
  { cbn [map c_arena c2]. apply NoDup_app in Hndp as (_ & _ & Hndp). apply NoDup_cons in Hndp as [_ ?].
    constructor; [tauto|done]. }
  exists p, l, c, r, t3. cbn zeta.
  split; [done|]. split; [done|].
  assert (K3 : forall j, kids t3 j = if decide (p = j) then Some (l ++ c1 :: c2 :: r) else
     if decide (i = j) then Some (take sp cs) else if decide (ri = j) then Some (drop sp cs) else kids t j).
  { intros j. rewrite (co_kids C3), K2. case_decide; [done|]. by rewrite K1. }
  assert (Hip : i <> p) by (intros ->; lia).
  assert (K3i : kids t3 i = Some (take sp cs)) by (by rewrite K3, decide_False, decide_True).
  assert (K3r : kids t3 ri = Some (drop sp cs)) by (rewrite K3; repeat case_decide; congruence).
  assert (Hsp : 1 <= sp < length cs).
  { unfold sp. pose proof (Nat.div_str_pos (length cs) 2 ltac:(lia)). pose proof (Nat.div_lt (length cs) 2 ltac:(lia) ltac:(lia)). lia. }
  assert (N1 : take sp cs <> []) by (intros HN; apply length_zero_iff_nil in HN; rewrite take_length in HN; lia).
  assert (N2 : drop sp cs <> []) by (intros HN; apply length_zero_iff_nil in HN; rewrite drop_length in HN; lia).
  assert (Hgr : forall a, a ∈ map c_arena (drop sp cs) \/ a ∈ map c_arena (take sp cs) -> a ∈ chs t i).
  { intros a Hin. rewrite (chs_kids _ _ _ Hk), <- (take_drop sp cs), map_app. apply elem_of_app. tauto. }
  assert (Hgr2 : forall a, a ∈ chs t i -> a ∉ AInt ri :: map c_arena r /\ a <> AInt ri).
  { intros a Hin. pose proof (wt_live_child W _ _ Hin) as Hal.
    assert (a <> AInt ri). { intros ->. cbn in Hal. rewrite Hfr in Hal. by destruct Hal. }
    split; [|done]. intros [?|Hin2]%elem_of_cons; [done|].
    assert (a ∈ chs t p) as [k2 Hin3]%elem_of_list_lookup by (rewrite Hcp; set_solver).
    apply elem_of_list_lookup in Hin as [k1 Hin]. destruct (wt_uniq W _ _ _ _ _ Hin Hin3). done. }
  assert (Ec1 : c1 = mkChild (AInt i) (summ L (map c_cache (take sp cs)))) by (unfold c1; by rewrite Ha).
  assert (EU : update_children_parent_slot_from t2 (AInt p) (S s) = Ok t3).
  { unfold update_children_parent_slot_from, get_internal. rb. rewrite Gp2. rb.
    rewrite bool_decide_eq_false_2.
    2:{ rewrite app_length. cbn. lia. }
    cbn [orb]. unfold is_child_leaf. rb.
    assert (match l ++ c1 :: c2 :: r with [] => true | c0 :: _ => is_leaf (c_arena c0) end = false) as ->.
    { destruct l as [|c0 l']; cbn [app]; [by rewrite Ec1|].
      destruct (Hint (c_arena c0)) as (m & -> & _); [left; left|]. done. }
    by rewrite Edrop, E3. }
  split; [|split; [done|split; [done|split]]].
  - rewrite <- Ec1. constructor.
    + by rewrite Hkp, Ecs.
    + rewrite K3, decide_True by done. done.
    + intros x [-> |[-> |?%not_elem_of_nil]%elem_of_cons]%elem_of_cons; [|  |done].
      * exists i, (take sp cs). rewrite Ec1. cbn [c_arena c_cache map]. rewrite Ha.
        split_and!; try done; [left; left|]. rewrite (co_an C3). cbn. rewrite An1.
        pose proof (wt_fresh W i ltac:(eauto)). lia.
      * exists ri, (drop sp cs). cbn [c_arena c_cache c2]. split_and!; try done; [by right|].
        rewrite (co_an C3). cbn. rewrite An1. unfold ri. lia.
    + rewrite Ec1. cbn. constructor; [|apply NoDup_singleton]. intros ?%elem_of_list_singleton. congruence.
    + rewrite Ec1. cbn. rewrite Ha. intros m ->%elem_of_list_singleton Hn1. exfalso. apply Hn1. left.
    + rewrite Ec1. cbn. unfold kidl. rewrite Ha. cbn. rewrite K3i, K3r, Hk. cbn. rewrite !app_nil_r.
      apply take_drop.
    + rewrite Ec1. cbn. rewrite Ha. intros j Hj Hj1 Hj2. rewrite K3, !decide_False; [done| | |done].
      * intros ->. apply Hj2. right. left.
      * intros ->. apply Hj1. left.
    + intros x. rewrite (co_el C3). unfold t2. rewrite el_set_in. done.
    + rewrite (co_root C3). done.
    + rewrite (co_rc C3). done.
    + rewrite (co_an C3). cbn. lia.
    + rewrite (co_al C3). cbn. lia.
    + intros k a Hka. assert (Hc3 : chs t3 p = map c_arena l ++ AInt i :: AInt ri :: map c_arena r).
      { rewrite (chs_kids t3 p (l ++ c1 :: c2 :: r)) by (by rewrite K3, decide_True).
        rewrite map_app, Ec1. done. }
      rewrite Hc3 in Hka. clear Hc3.
      assert (Hll : length (map c_arena l) = s) by (by rewrite map_length).
      destruct (decide (k < s)) as [D|D]; [|destruct (decide (k = s)) as [-> |D2]].
      * rewrite lookup_app_l in Hka by lia.
        assert (a ∈ map c_arena l) as Hal by (by eapply elem_of_list_lookup_2).
        assert (chs t p !! k = Some a) as Hx by (by rewrite Hcp, lookup_app_l by lia).
        destruct (Hint a) as (m & -> & Hm); [by left|]. cbn.
        assert (lnk_same t2 t3 (AInt m)) as Hs.
        { apply Ho3. cbn. intros [[= ->]|Hin]%elem_of_cons; [tauto|].
          apply NoDup_app in Hndp as (_ & Hd & _). apply (Hd _ Hal). by right. }
        cbn in Hs. rewrite Hs, L2, Lm1 by (by eapply elem_of_list_lookup_2). apply (lk_ch K) in Hx. done.
      * rewrite lookup_app_r in Hka by lia. rewrite Hll, Nat.sub_diag in Hka. cbn in Hka. injection Hka as <-. cbn.
        assert (lnk_same t2 t3 (AInt i)) as Hs.
        { apply Ho3. cbn. intros [[= ?]|Hin]%elem_of_cons; [congruence|].
          apply NoDup_app in Hndp as (_ & _ & Hd). apply NoDup_cons in Hd as [Hd _]. done. }
        cbn in Hs. rewrite Hs, L2, Lm1; [done|]. rewrite Hcp. set_solver.
      * rewrite lookup_app_r in Hka by lia. rewrite Hll in Hka.
        destruct (k - s) as [|k'] eqn:Eks; [lia|]. cbn in Hka.
        assert (exists m, a = AInt m /\ exists s', lnk t2 m = Some (Some (AInt p), s')) as (m & -> & s' & Hm).
        { destruct k' as [|k']; cbn in Hka.
          - injection Hka as <-. exists ri. split; [done|]. exists U8_MAX. by rewrite L2.
          - assert (a ∈ map c_arena r) as Har by (by eapply elem_of_list_lookup_2).
            destruct (Hint a) as (m & -> & Hm); [by right|]. exists m. split; [done|].
            assert (AInt m ∈ chs t p) as Hin by (rewrite Hcp; set_solver).
            rewrite L2, Lm1 by done. apply elem_of_list_lookup in Hin as [k0 Hk0]. exists k0.
            by apply (lk_ch K) in Hk0. }
        cbn. rewrite (Hs3 k' m _ s' ltac:(done) Hm). f_equal. f_equal. lia.
    + intros m k a. rewrite Ec1. cbn. intros Hm.
      assert (m = i \/ m = ri) as [-> | ->] by (set_solver).
      * rewrite (chs_kids _ _ _ K3i). intros Hka.
        assert (chs t i !! k = Some a) as Hx.
        { rewrite (chs_kids _ _ _ Hk), <- (take_drop sp cs), map_app. by apply lookup_app_l_Some. }
        assert (a ∈ chs t i) as Hin by (by eapply elem_of_list_lookup_2).
        destruct (Hgr2 a Hin) as [G1 G2].
        eapply lnk_same_linked; [|apply (lk_ch K); exact Hx].
        eapply lnk_same_trans; [apply (Lo1 a G2)|].
        { intros Hd. pose proof (wt_nodup W i) as Hnd. rewrite (chs_kids _ _ _ Hk), <- (take_drop sp cs), map_app in Hnd.
          apply NoDup_app in Hnd as (_ & Hnd & _). apply (Hnd a); [by eapply elem_of_list_lookup_2|done]. }
        eapply lnk_same_trans; [|by apply Ho3]. destruct a; cbn; [done|apply L2].
      * rewrite (chs_kids _ _ _ K3r). intros Hka.
        assert (a ∈ chs t i) as Hin by (apply Hgr; left; by eapply elem_of_list_lookup_2).
        destruct (Hgr2 a Hin) as [G1 G2].
        eapply lnk_same_linked; [|apply (Lc1 k a Hka)].
        eapply lnk_same_trans; [|by apply Ho3]. destruct a; cbn; [done|apply L2].
    + intros a Hal Hap Hanew.
      assert (Hc3 : chs t3 p = map c_arena l ++ AInt i :: AInt ri :: map c_arena r).
      { rewrite (chs_kids t3 p (l ++ c1 :: c2 :: r)) by (by rewrite K3, decide_True).
        rewrite map_app, Ec1. done. }
      rewrite Hc3 in Hap.
      eapply lnk_same_trans; [apply (Lo1 a)|].
      * intros ->. apply Hap. set_solver.
      * intros Hd. apply (Hanew ri); [rewrite Ec1; cbn; set_solver|]. by rewrite (chs_kids _ _ _ K3r).
      * eapply lnk_same_trans; [|apply Ho3; cbn; set_solver]. destruct a; cbn; [done|apply L2].
  - exists t1, (mkNode pop sop csp). rewrite <- Ec1. fold c2. unfold with_children. cbn [n_parent n_slot n_children]. fold t2.
    rewrite Hls. done.
  - cbn [split_f]. rewrite E1. rb. rewrite Gp1. rb.
    unfold set_child_cache, vec_get. rewrite Hc. rb. fold c1. rewrite Ein.
    unfold vec_insert. rewrite decide_True.
    2:{ rewrite app_length. rewrite Ecs, app_length in Hsz'. cbn in Hsz' |- *. lia. }
    rb. replace (take (S s) (l ++ c1 :: r)) with (l ++ [c1]).
    2:{ rewrite (cons_middle c1 l r), app_assoc, take_app_alt; [done|]. rewrite app_length. cbn. lia. }
    replace (drop (S s) (l ++ c1 :: r)) with r.
    2:{ rewrite (cons_middle c1 l r), app_assoc, drop_app_alt; [done|]. rewrite app_length. cbn. lia. }
    rewrite <- app_assoc. cbn [app]. fold c2. unfold with_children; rb.
    fold t2. rewrite EU. rb. unfold is_full. rb.
    rewrite (bool_decide_ext _ (12 <= S (length (chs t p)))); [done|].
    rewrite Hcp, !app_length. cbn. rewrite !map_length. lia.
Qed.

(** ** Growing by one level: the root [r] gets two children holding its former children *)
Record GR t t' r li ri (K1 K2 : list child) (v1 v2 : Cache B) : Prop := {
  gr_root : root t = AInt r;
  gr_root' : root t' = AInt r;
  gr_r : kids t r = Some (K1 ++ K2);
  gr_r' : kids t' r = Some [mkChild (AInt li) v1; mkChild (AInt ri) v2];
  gr_li : kids t li = None; gr_ri : kids t ri = None; gr_ne : li <> ri;
  gr_li' : kids t' li = Some K1; gr_ri' : kids t' ri = Some K2;
  gr_n1 : K1 <> []; gr_n2 : K2 <> [];
  gr_other : forall j, j <> r -> j <> li -> j <> ri -> kids t' j = kids t j;
  gr_el : forall x, el t' x = el t x;
  gr_an : anext (in_nodes t) <= anext (in_nodes t');
  gr_anl : li < anext (in_nodes t') /\ ri < anext (in_nodes t');
  gr_al : anext (leaf_nodes t) <= anext (leaf_nodes t');
}.
Section grow.
  Context {E : nat -> Prop} {t t' : btree} {H : nat} {lv : nat -> nat} {r li ri : nat} {K1 K2 : list child} {v1 v2 : Cache B}.
  Context (W : WT E t H lv) (G : GR t t' r li ri K1 K2 v1 v2).
  Definition lv_gr (j : nat) : nat :=
    if decide (j = r) then S H else if decide (j = li) then H else if decide (j = ri) then H else lv j.
  Local Lemma gr_rl : r <> li /\ r <> ri.
  Proof. destruct G. split; intros ->; congruence. Qed.
  Local Lemma gr_lvr : lv r = H.
  Proof. pose proof (wt_root_lv W) as Hr. by rewrite (gr_root _ _ _ _ _ _ _ _ _ G) in Hr. Qed.
  Local Lemma gr_alv a : live t a -> a <> AInt r -> alv lv_gr a = alv lv a.
  Proof.
    destruct a as [x|m]; [done|]. cbn. intros Hm Hr. unfold lv_gr. destruct G.
    rewrite !decide_False; [done| | |congruence]; intros ->; [rewrite gr_ri0 in Hm|rewrite gr_li0 in Hm]; by destruct Hm.
  Qed.
  Local Lemma gr_live a : live t' a <-> live t a \/ a = AInt li \/ a = AInt ri.
  Proof.
    destruct a as [x|m]; cbn.
    - rewrite (gr_el _ _ _ _ _ _ _ _ _ G). naive_solver.
    - destruct G. destruct (decide (m = r)) as [-> |]; [rewrite gr_r'0, gr_r0; split; eauto|].
      destruct (decide (m = li)) as [-> |]; [rewrite gr_li'0; split; eauto|].
      destruct (decide (m = ri)) as [-> |]; [rewrite gr_ri'0; split; eauto|].
      rewrite gr_other0 by done. naive_solver.
  Qed.
  Local Lemma gr_chs_r : chs t r = map c_arena K1 ++ map c_arena K2.
  Proof. rewrite (chs_kids _ _ _ (gr_r _ _ _ _ _ _ _ _ _ G)). by rewrite map_app. Qed.
  (** classification of the children relation of [t'] *)
  Local Lemma gr_cases q k a : chs t' q !! k = Some a ->
    (q = r /\ ((k = 0 /\ a = AInt li) \/ (k = 1 /\ a = AInt ri))) \/
    (q = li /\ chs t r !! k = Some a /\ k < length K1) \/
    (q = ri /\ chs t r !! (length K1 + k) = Some a) \/
    (q <> r /\ q <> li /\ q <> ri /\ chs t q !! k = Some a).
  Proof.
    intros Hc. destruct (decide (q = r)) as [-> |D1].
    - rewrite (chs_kids _ _ _ (gr_r' _ _ _ _ _ _ _ _ _ G)) in Hc. cbn in Hc. left. split; [done|].
      destruct k as [|[|k]]; cbn in Hc; [left|right|]; naive_solver.
    - destruct (decide (q = li)) as [-> |D2].
      { right; left. rewrite (chs_kids _ _ _ (gr_li' _ _ _ _ _ _ _ _ _ G)) in Hc.
        split; [done|]. rewrite gr_chs_r. split; [by apply lookup_app_l_Some|].
        apply lookup_lt_Some in Hc. by rewrite map_length in Hc. }
      destruct (decide (q = ri)) as [-> |D3].
      { right; right; left. rewrite (chs_kids _ _ _ (gr_ri' _ _ _ _ _ _ _ _ _ G)) in Hc.
        split; [done|]. rewrite gr_chs_r. rewrite lookup_app_r; rewrite map_length; [|lia].
        by replace (length K1 + k - length K1) with k by lia. }
      do 3 right. split_and!; try done. unfold chs in *. by rewrite (gr_other _ _ _ _ _ _ _ _ _ G) in Hc.
  Qed.
  Lemma gr_WT : WT E t' (S H) lv_gr.
  Proof.
    pose proof gr_rl as [Hrl Hrr]. pose proof gr_lvr as Hlvr.
    assert (Lr : lv_gr r = S H) by (unfold lv_gr; by rewrite decide_True).
    assert (Lli : lv_gr li = H) by (unfold lv_gr; rewrite decide_False, decide_True by done; done).
    assert (Lri : lv_gr ri = H).
    { unfold lv_gr. rewrite decide_False by done. case_decide; [done|]. by rewrite decide_True. }
    assert (Hch : forall q k a, chs t q !! k = Some a -> a <> AInt r).
    { intros q k a Hc ->. rewrite <- (gr_root _ _ _ _ _ _ _ _ _ G) in Hc. by apply (wt_root_nochild W) in Hc. }
    assert (Hlv : forall m, is_Some (kids t m) -> m <> r -> lv_gr m = lv m).
    { intros m Hm Hmr. pose proof (gr_alv (AInt m) Hm) as Hx. cbn in Hx. specialize (Hx ltac:(congruence)). congruence. }
    constructor.
    - exists r. split; [apply (gr_root' _ _ _ _ _ _ _ _ _ G)|]. split; [|done].
      rewrite (gr_r' _ _ _ _ _ _ _ _ _ G). eauto.
    - intros q k a Hc. destruct (gr_cases _ _ _ Hc) as [(-> & [(-> & ->)|(-> & ->)])|[(-> & Hc' & _)|[(-> & Hc')|(D1 & D2 & D3 & Hc')]]].
      + split; [apply gr_live; auto|]. cbn. lia.
      + split; [apply gr_live; auto|]. cbn. lia.
      + pose proof (Hch _ _ _ Hc'). destruct (wt_ch W _ _ _ Hc') as [Ha Hv]. split; [apply gr_live; auto|].
        rewrite gr_alv by done. lia.
      + pose proof (Hch _ _ _ Hc'). destruct (wt_ch W _ _ _ Hc') as [Ha Hv]. split; [apply gr_live; auto|].
        rewrite gr_alv by done. lia.
      + pose proof (Hch _ _ _ Hc'). pose proof (chs_lookup_live _ _ _ _ Hc').
        destruct (wt_ch W _ _ _ Hc') as [Ha Hv]. split; [apply gr_live; auto|].
        rewrite gr_alv by done. rewrite Hlv; done.
    - assert (Hfresh : forall q k, chs t q !! k = Some (AInt li) \/ chs t q !! k = Some (AInt ri) -> False).
      { intros q k [Hc|Hc]; apply (wt_ch W) in Hc as [Hc _]; cbn in Hc;
          [rewrite (gr_li _ _ _ _ _ _ _ _ _ G) in Hc|rewrite (gr_ri _ _ _ _ _ _ _ _ _ G) in Hc]; by destruct Hc. }
      intros q k q' k' a Hc Hc'.
      pose proof (gr_ne _ _ _ _ _ _ _ _ _ G) as Hne.
      apply gr_cases in Hc, Hc'.
      destruct Hc as [(-> & [(-> & ->)|(-> & ->)])|[(-> & Hc & HK)|[(-> & Hc)|(D1 & D2 & D3 & Hc)]]];
      destruct Hc' as [(-> & [(-> & Ha')|(-> & Ha')])|[(-> & Hc' & HK')|[(-> & Hc')|(D1' & D2' & D3' & Hc')]]];
      try (injection Ha' as Ha'; congruence); subst;
      try (exfalso; eapply Hfresh; eauto; fail);
      try done.
      all: destruct (wt_uniq W _ _ _ _ _ Hc Hc') as [? ?]; subst; try done.
      all: try (split; [done|lia]). all: lia.
    - intros a Ha Hr. apply gr_live in Ha as [Ha|[-> | ->]].
      + rewrite (gr_root' _ _ _ _ _ _ _ _ _ G) in Hr.
        destruct (wt_up W a Ha) as (p & k & Hp); [by rewrite (gr_root _ _ _ _ _ _ _ _ _ G)|].
        destruct (decide (p = r)) as [-> |D].
        * rewrite gr_chs_r in Hp. apply lookup_app_Some in Hp as [Hp|[Hk Hp]].
          -- exists li, k. by rewrite (chs_kids _ _ _ (gr_li' _ _ _ _ _ _ _ _ _ G)).
          -- exists ri, (k - length (map c_arena K1)). by rewrite (chs_kids _ _ _ (gr_ri' _ _ _ _ _ _ _ _ _ G)).
        * exists p, k. unfold chs in *. rewrite (gr_other _ _ _ _ _ _ _ _ _ G); [done|done| |];
            intros ->; [rewrite (gr_li _ _ _ _ _ _ _ _ _ G) in Hp|rewrite (gr_ri _ _ _ _ _ _ _ _ _ G) in Hp]; done.
      + exists r, 0. by rewrite (chs_kids _ _ _ (gr_r' _ _ _ _ _ _ _ _ _ G)).
      + exists r, 1. by rewrite (chs_kids _ _ _ (gr_r' _ _ _ _ _ _ _ _ _ G)).
    - intros m Hm. destruct (gr_live (AInt m)) as [Hx _]. specialize (Hx Hm) as [Hx|[[= ->]|[= ->]]]; [|lia|lia].
      destruct (decide (m = r)) as [-> |]; [lia|]. rewrite Hlv by done. apply (wt_lv W) in Hx. lia.
    - intros m Hm Hr HE. destruct (gr_live (AInt m)) as [Hx _]. specialize (Hx Hm) as [Hx|[[= ->]|[= ->]]].
      + rewrite (gr_root' _ _ _ _ _ _ _ _ _ G) in Hr. unfold chs. cbn in Hx.
        rewrite (gr_other _ _ _ _ _ _ _ _ _ G); [|congruence| |].
        * apply (wt_ne W m); [done| |done]. by rewrite (gr_root _ _ _ _ _ _ _ _ _ G).
        * intros ->. rewrite (gr_li _ _ _ _ _ _ _ _ _ G) in Hx. by destruct Hx.
        * intros ->. rewrite (gr_ri _ _ _ _ _ _ _ _ _ G) in Hx. by destruct Hx.
      + rewrite (chs_kids _ _ _ (gr_li' _ _ _ _ _ _ _ _ _ G)). intros Hn%fmap_nil_inv.
        by apply (gr_n1 _ _ _ _ _ _ _ _ _ G).
      + rewrite (chs_kids _ _ _ (gr_ri' _ _ _ _ _ _ _ _ _ G)). intros Hn%fmap_nil_inv.
        by apply (gr_n2 _ _ _ _ _ _ _ _ _ G).
    - intros m Hm. pose proof (gr_an _ _ _ _ _ _ _ _ _ G). pose proof (gr_anl _ _ _ _ _ _ _ _ _ G).
      destruct (gr_live (AInt m)) as [Hx _]. specialize (Hx Hm) as [Hx|[[= ->]|[= ->]]]; [|lia|lia].
      apply (wt_fresh W) in Hx. lia.
    - intros x. rewrite (gr_el _ _ _ _ _ _ _ _ _ G). intros Hx. apply (wt_lfresh W) in Hx.
      pose proof (gr_al _ _ _ _ _ _ _ _ _ G). lia.
  Qed.
  Lemma gr_gen_below n a : live t a -> a <> AInt r -> gen t' n a = gen t n a.
  Proof.
    revert a. induction n as [|n IH]; intros a Ha Hr; [done|]. cbn.
    assert (achs t' a = achs t a) as ->.
    { destruct a as [x|m]; [done|]. cbn. unfold chs. cbn in Ha.
      rewrite (gr_other _ _ _ _ _ _ _ _ _ G); [done|congruence| |].
      - intros ->. rewrite (gr_li _ _ _ _ _ _ _ _ _ G) in Ha. by destruct Ha.
      - intros ->. rewrite (gr_ri _ _ _ _ _ _ _ _ _ G) in Ha. by destruct Ha. }
    apply bind_ext_in. intros b Hb. apply IH.
    - destruct a as [x|m]; [by apply not_elem_of_nil in Hb|]. by apply (wt_live_child W m).
    - intros ->. destruct a as [x|m]; [by apply not_elem_of_nil in Hb|].
      apply elem_of_list_lookup in Hb as [k Hk]. rewrite <- (gr_root _ _ _ _ _ _ _ _ _ G) in Hk.
      by apply (wt_root_nochild W) in Hk.
  Qed.
  Lemma gr_gen n : gen t' (S (S n)) (root t') = gen t (S n) (root t).
  Proof.
    rewrite (gr_root' _ _ _ _ _ _ _ _ _ G), (gr_root _ _ _ _ _ _ _ _ _ G). cbn [gen achs].
    rewrite (chs_kids _ _ _ (gr_r' _ _ _ _ _ _ _ _ _ G)). cbn.
    rewrite (chs_kids _ _ _ (gr_li' _ _ _ _ _ _ _ _ _ G)), (chs_kids _ _ _ (gr_ri' _ _ _ _ _ _ _ _ _ G)).
    rewrite app_nil_r. rewrite <- bind_app, <- map_app.
    rewrite <- (chs_kids _ _ _ (gr_r _ _ _ _ _ _ _ _ _ G)).
    apply bind_ext_in. intros b Hb. apply gr_gen_below.
    - by apply (wt_live_child W r).
    - intros ->. apply elem_of_list_lookup in Hb as [k Hk]. rewrite <- (gr_root _ _ _ _ _ _ _ _ _ G) in Hk.
      by apply (wt_root_nochild W) in Hk.
  Qed.
  Lemma gr_VA : VA t -> v1 = summ L (map c_cache K1) -> v2 = summ L (map c_cache K2) -> VA t'.
  Proof.
    intros V -> ->. pose proof (VA_kids L _ _ _ V (gr_r _ _ _ _ _ _ _ _ _ G)) as F.
    rewrite map_app, Forall_app in F. destruct F as [F1 F2].
    constructor; [intros x e; rewrite (gr_el _ _ _ _ _ _ _ _ _ G); apply (va_el _ _ V)|].
    intros q cs c Hk Hc. destruct (decide (q = r)) as [-> |D1].
    { rewrite (gr_r' _ _ _ _ _ _ _ _ _ G) in Hk. injection Hk as <-.
      apply elem_of_cons in Hc as [-> |Hc]; [|apply elem_of_list_singleton in Hc as ->]; cbn.
      - apply lw_summ; [done|left]. pose proof (gr_n1 _ _ _ _ _ _ _ _ _ G). by destruct K1.
      - apply lw_summ; [done|left]. pose proof (gr_n2 _ _ _ _ _ _ _ _ _ G). by destruct K2. }
    assert (c ∈ K1 ++ K2 -> cvalid L (c_cache c)) as Hcc.
    { intros Hin. eapply (va_ch _ _ V); [apply (gr_r _ _ _ _ _ _ _ _ _ G)|done]. }
    destruct (decide (q = li)) as [-> |D2].
    { rewrite (gr_li' _ _ _ _ _ _ _ _ _ G) in Hk. injection Hk as <-. apply Hcc. set_solver. }
    destruct (decide (q = ri)) as [-> |D3].
    { rewrite (gr_ri' _ _ _ _ _ _ _ _ _ G) in Hk. injection Hk as <-. apply Hcc. set_solver. }
    rewrite (gr_other _ _ _ _ _ _ _ _ _ G) in Hk by done. by eapply (va_ch _ _ V).
  Qed.
  Lemma gr_CO (D : aidx -> Prop) : CO t D -> v1 = summ L (map c_cache K1) -> v2 = summ L (map c_cache K2) -> CO t' D.
  Proof.
    intros C -> -> q cs c Hk Hc Hd.
    assert (Hx : forall q cs, kids t q = Some cs -> c ∈ cs -> c_cache c = act t' (c_arena c)).
    { intros q0 cs0 Hk0 Hc0. rewrite (C q0 cs0 c Hk0 Hc0 Hd).
      assert (c_arena c <> AInt r) as Hcr.
      { intros Er. apply (root_not_entry W q0 cs0 c Hk0 Hc0). by rewrite (gr_root _ _ _ _ _ _ _ _ _ G). }
      assert (live t (c_arena c)) as Hl.
      { apply (wt_live_child W q0). rewrite (chs_kids _ _ _ Hk0). by apply elem_of_list_fmap_1. }
      destruct (c_arena c) as [x|m]; unfold Law.act; [by rewrite (gr_el _ _ _ _ _ _ _ _ _ G)|].
      cbn in Hl. rewrite (gr_other _ _ _ _ _ _ _ _ _ G); [done|congruence| |].
      - intros ->. rewrite (gr_li _ _ _ _ _ _ _ _ _ G) in Hl. by destruct Hl.
      - intros ->. rewrite (gr_ri _ _ _ _ _ _ _ _ _ G) in Hl. by destruct Hl. }
    destruct (decide (q = r)) as [-> |D1].
    { rewrite (gr_r' _ _ _ _ _ _ _ _ _ G) in Hk. injection Hk as <-.
      apply elem_of_cons in Hc as [-> |Hc]; [|apply elem_of_list_singleton in Hc as ->]; cbn; symmetry; apply act_int.
      - apply (gr_li' _ _ _ _ _ _ _ _ _ G).
      - apply (gr_ri' _ _ _ _ _ _ _ _ _ G). }
    destruct (decide (q = li)) as [-> |D2].
    { rewrite (gr_li' _ _ _ _ _ _ _ _ _ G) in Hk. injection Hk as <-.
      eapply (Hx r); [apply (gr_r _ _ _ _ _ _ _ _ _ G)|set_solver]. }
    destruct (decide (q = ri)) as [-> |D3].
    { rewrite (gr_ri' _ _ _ _ _ _ _ _ _ G) in Hk. injection Hk as <-.
      eapply (Hx r); [apply (gr_r _ _ _ _ _ _ _ _ _ G)|set_solver]. }
    rewrite (gr_other _ _ _ _ _ _ _ _ _ G) in Hk by done. by eapply Hx.
  Qed.
End grow.

(** split_root *)
Lemma split_root_ok E t H lv i cs f :
  WT E t H lv -> LK t -> VA t -> kids t i = Some cs -> 2 <= length cs -> AInt i = root t ->
  let sp := length cs / 2 in let ri := anext (in_nodes t) in let li := S ri in
  let v1 := summ L (map c_cache (take sp cs)) in let v2 := summ L (map c_cache (drop sp cs)) in
  exists t', split_f (S f) t (AInt i) = Ok t' /\ GR t t' i li ri (take sp cs) (drop sp cs) v1 v2
    /\ LK t' /\ root_cache t' = summ L [v1; v2].
Proof.
  intros W K V Hk Hlen Hr.
  destruct (lk_root K i (eq_sym Hr)) as [s Hlk].
  destruct (split_node_ok E t H lv i cs None s W Hk Hlk Hlen V)
    as (t1 & E1 & K1 & El1 & R1 & Rc1 & An1 & Al1 & Lr1 & Lc1 & Lo1).
  set (sp := length cs / 2) in *. set (ri := anext (in_nodes t)) in *.
  assert (Hsp : 1 <= sp < length cs).
  { unfold sp. pose proof (Nat.div_str_pos (length cs) 2 ltac:(lia)). pose proof (Nat.div_lt (length cs) 2 ltac:(lia) ltac:(lia)). lia. }
  intros _sp _ri li v1 v2. subst _ri _sp. clearbody sp.
  assert (Hfr : forall j, ri <= j -> kids t j = None).
  { intros j Hj. destruct (kids t j) eqn:Er; [|done]. pose proof (wt_fresh W j) as H0. rewrite Er in H0. unfold ri in Hj.
    specialize (H0 ltac:(eauto)). lia. }
  assert (Hri : ri <> i) by (intros ->; rewrite Hfr in Hk; done).
  assert (Hli : li <> i) by (intros El; rewrite <- El, Hfr in Hk; [done|unfold li; lia]).
  assert (Hlr : ri <> li) by (unfold li; lia).
  assert (N1 : take sp cs <> []) by (intros HN; apply length_zero_iff_nil in HN; rewrite take_length in HN; lia).
  assert (N2 : drop sp cs <> []) by (intros HN; apply length_zero_iff_nil in HN; rewrite drop_length in HN; lia).
  pose proof (VA_kids L _ _ _ V Hk) as F.
  rewrite <- (take_drop sp cs), map_app, Forall_app in F. destruct F as [F1 F2].
  assert (Hci : forall a, a ∈ map c_arena (take sp cs) \/ a ∈ map c_arena (drop sp cs) ->
    live t a /\ a <> AInt i /\ a <> AInt ri /\ a <> AInt li).
  { intros a Ha. assert (a ∈ chs t i) as Hin.
    { rewrite (chs_kids _ _ _ Hk), <- (take_drop sp cs), map_app. by apply elem_of_app. }
    pose proof (wt_live_child W _ _ Hin) as Hl. split; [done|]. split_and!; intros ->; cbn [live] in Hl.
    - apply elem_of_list_lookup in Hin as [k Hin]. apply (wt_ch W) in Hin as [_ Hin]. cbn in Hin. lia.
    - rewrite Hfr in Hl by lia. by destruct Hl.
    - rewrite Hfr in Hl by (unfold li; lia). by destruct Hl. }
  pose proof (wt_nodup W i) as Hnd. rewrite (chs_kids _ _ _ Hk), <- (take_drop sp cs), map_app in Hnd.
  apply NoDup_app in Hnd as (Hnd1 & Hnd2 & Hnd3).
  cbn [split_f]. rewrite E1. rb. unfold split_root. rb.
  assert (K1r : kids t1 ri = Some (drop sp cs)) by (rewrite K1; repeat case_decide; congruence).
  assert (K1i : kids t1 i = Some (take sp cs)) by (rewrite K1; repeat case_decide; congruence).
  rewrite (get_in_proj t1 ri _ _ _ K1r Lr1). rb.
  rewrite R1, <- Hr. rb. set (t2 := set_in t1 ri _).
  assert (L1i : lnk t1 i = Some (None, s)).
  { pose proof (Lo1 (AInt i)) as Hx. cbn in Hx. rewrite Hx; [done|congruence|].
    intros Hin. destruct (Hci (AInt i)) as (_ & ? & _); [by right|]. done. }
  assert (G2 : get_in t2 i = Ok (mkNode None s (take sp cs))).
  { apply get_in_proj; unfold t2; [rewrite kids_set_in|rewrite lnk_set_in]; rewrite decide_False by done; done. }
  rewrite G2. rb. set (t3 := set_in t2 i _).
  set (nl := mkNode (Some (AInt i)) 0 (take sp cs)).
  assert (A3 : anext (in_nodes t3) = li) by (cbn; unfold li; by rewrite An1).
  rewrite (surjective_pairing (ins_in t3 nl)). change (fst (ins_in t3 nl)) with (anext (in_nodes t3)). rewrite A3.
  set (t4 := snd (ins_in t3 nl)).
  assert (G4 : get_in t4 i = Ok (mkNode None 0 [])).
  { apply get_in_proj; unfold t4; [rewrite kids_ins_in|rewrite lnk_ins_in]; rewrite A3, decide_False by done;
      unfold t3; [rewrite kids_set_in|rewrite lnk_set_in]; by rewrite decide_True. }
  rewrite G4. rb. unfold vec_push. rewrite decide_True by (cbn; lia). rb. cbn [app]. rewrite decide_True by (cbn; lia). rb. cbn [app].
  fold v1 v2. set (c1 := mkChild (AInt li) v1). set (c2 := mkChild (AInt ri) v2).
  unfold with_children. rb. set (t5 := set_in t4 i (mkNode None 0 [c1; c2])).
  assert (Hv : cvalid L v1 /\ cvalid L v2).
  { split; apply lw_summ; try done; left; [by destruct (take sp cs)|by destruct (drop sp cs)]. }
  destruct (lw_calc0 (root_cache t5) [c1; c2]) as [d Ed]; [|done|].
  { destruct Hv. cbn. constructor; [done|]. constructor; [done|constructor]. }
  rewrite Ed. rb. cbn [map c_cache c1 c2].
  assert (K5 : forall j, kids t5 j = if decide (i = j) then Some [c1; c2] else if decide (li = j) then Some (take sp cs)
     else if decide (ri = j) then Some (drop sp cs) else kids t j).
  { intros j. unfold t5. rewrite kids_set_in. case_decide; [done|]. unfold t4. rewrite kids_ins_in, A3. case_decide; [done|].
    unfold t3. rewrite kids_set_in. rewrite decide_False by done. unfold t2. rewrite kids_set_in. case_decide; [done|].
    rewrite K1. by rewrite !decide_False by done. }
  assert (L5 : forall a, a <> AInt i -> a <> AInt li -> a <> AInt ri -> lnk_same t1 t5 a).
  { intros [x|m] D1 D2 D3; cbn; [done|]. unfold t5. rewrite lnk_set_in, decide_False by congruence.
    unfold t4. rewrite lnk_ins_in, A3, decide_False by congruence. unfold t3. rewrite lnk_set_in, decide_False by congruence.
    unfold t2. by rewrite lnk_set_in, decide_False by congruence. }
  assert (L5i : lnk t5 i = Some (None, 0)) by (unfold t5; rewrite lnk_set_in, decide_True by done; done).
  assert (L5l : lnk t5 li = Some (Some (AInt i), 0)).
  { unfold t5. rewrite lnk_set_in, decide_False by done. unfold t4. by rewrite lnk_ins_in, A3, decide_True. }
  assert (L5r : lnk t5 ri = Some (Some (AInt i), 1)).
  { unfold t5. rewrite lnk_set_in, decide_False by done. unfold t4. rewrite lnk_ins_in, A3, decide_False by done.
    unfold t3. rewrite lnk_set_in, decide_False by done. unfold t2. by rewrite lnk_set_in, decide_True. }
  assert (Hl5 : forall a, live t a -> live t5 a).
  { intros [x|m] Hl; cbn in *; [by rewrite <- El1 in Hl|]. rewrite K5. repeat case_decide; eauto. }
  destruct (re_parent_all_ok (take sp cs) t5 li 0) as (t6 & E6 & C6 & Ho6 & Hl6); [|done|].
  { intros a Ha. apply Hl5. by destruct (Hci a) as [? _]; [by left|]. }
  rewrite E6. rb. eexists. split; [done|].
  assert (Hnt : forall m, m = i \/ m = ri \/ m = li -> AInt m ∉ map c_arena (take sp cs)).
  { intros m Hm Hin. destruct (Hci (AInt m)) as (_ & ? & ? & ?); [by left|]. destruct Hm as [-> |[-> | ->]]; done. }
  assert (G : GR t (set_root_cache t6 (summ L [v1; v2])) i li ri (take sp cs) (drop sp cs) v1 v2).
  { constructor; try done.
    - cbn. rewrite (co_root C6). cbn. by rewrite R1.
    - by rewrite take_drop.
    - change (kids t6 i = Some [c1; c2]). rewrite (co_kids C6), K5. by rewrite decide_True.
    - apply Hfr. unfold li; lia.
    - by apply Hfr.
    - change (kids t6 li = Some (take sp cs)). rewrite (co_kids C6), K5. by rewrite decide_False, decide_True by done.
    - change (kids t6 ri = Some (drop sp cs)). rewrite (co_kids C6), K5. repeat case_decide; congruence.
    - intros j D1 D2 D3. change (kids t6 j = kids t j). rewrite (co_kids C6), K5. by rewrite !decide_False.
    - intros x. change (el t6 x = el t x). rewrite (co_el C6). apply El1.
    - cbn. rewrite (co_an C6). change (anext (in_nodes t5)) with (S (anext (in_nodes t1))). lia.
    - cbn. rewrite (co_an C6). change (anext (in_nodes t5)) with (S (anext (in_nodes t1))). rewrite An1. unfold li. lia.
    - cbn. rewrite (co_al C6). change (anext (leaf_nodes t5)) with (anext (leaf_nodes t1)). lia. }
  split; [done|]. split; [|done].
  constructor.
  - intros q k a Hc. pose proof Hc as Hc0. apply (gr_cases G) in Hc.
    change (linked t6 a q k).
    destruct Hc as [(-> & [(-> & ->)|(-> & ->)])|[(-> & Hc & Hlt)|[(-> & Hc)|(D1 & D2 & D3 & Hc)]]].
    + cbn. pose proof (Ho6 (AInt li) (Hnt li ltac:(auto))) as Hx. cbn in Hx. by rewrite Hx.
    + cbn. pose proof (Ho6 (AInt ri) (Hnt ri ltac:(auto))) as Hx. cbn in Hx. by rewrite Hx.
    + apply (Hl6 k). rewrite (chs_kids _ _ _ (gr_li' _ _ _ _ _ _ _ _ _ G)) in Hc0. done.
    + rewrite (chs_kids _ _ _ (gr_ri' _ _ _ _ _ _ _ _ _ G)) in Hc0.
      assert (a ∈ map c_arena (drop sp cs)) as Hin by (by eapply elem_of_list_lookup_2).
      destruct (Hci a) as (Ha & D1 & D2 & D3); [by right|].
      eapply lnk_same_linked; [apply Ho6; intros Hin2; by apply (Hnd2 a)|].
      eapply lnk_same_linked; [by apply L5|]. by apply Lc1.
    + assert (Hai : a ∉ chs t i).
      { intros [k' Hk']%elem_of_list_lookup. by destruct (wt_uniq W _ _ _ _ _ Hc Hk'). }
      rewrite (chs_kids _ _ _ Hk), <- (take_drop sp cs), map_app, elem_of_app in Hai.
      destruct (wt_ch W _ _ _ Hc) as [Ha _].
      assert (a <> AInt i). { intros ->. rewrite Hr in Hc. by apply (wt_root_nochild W) in Hc. }
      assert (a <> AInt ri). { intros ->. cbn in Ha. rewrite Hfr in Ha by lia. by destruct Ha. }
      assert (a <> AInt li). { intros ->. cbn in Ha. rewrite Hfr in Ha by (unfold li; lia). by destruct Ha. }
      eapply lnk_same_linked; [apply Ho6; tauto|].
      eapply lnk_same_linked; [by apply L5|]. eapply lnk_same_linked; [apply Lo1; tauto|]. by apply (lk_ch K).
  - rewrite (gr_root' _ _ _ _ _ _ _ _ _ G). intros x [= <-]. exists 0.
    change (lnk t6 i = Some (None, 0)). pose proof (Ho6 (AInt i) (Hnt i ltac:(auto))) as Hx. cbn in Hx. by rewrite Hx.
Qed.

(** *** the left spine: the root, its first child, the first child of that one, … *)
Inductive SP t : nat -> Prop :=
  | SP_root : SP t (raw (root t))
  | SP_first p m : SP t p -> head (chs t p) = Some (AInt m) -> SP t m.

Lemma head_Some_in (l : list aidx) a : head l = Some a -> a ∈ l.
Proof. destruct l; [done|]. intros [= ->]. left. Qed.

Lemma SP_ext t t' : root t' = root t ->
  (forall j m, SP t j -> head (chs t j) = Some (AInt m) -> head (chs t' j) = Some (AInt m)) -> forall m, SP t m -> SP t' m.
Proof.
  intros Hr Hc m Hm. induction Hm as [|p m Hp IH Hm]; [rewrite <- Hr; constructor|].
  eapply SP_first; [exact IH|]. by apply Hc.
Qed.

(** redistribution below one node keeps the spine, as long as a first child that survives stays first *)
Lemma rd_SP E t t' H lv p l old new r : WT E t H lv -> 0 < lv p -> RD L t t' p l old new r ->
  (forall m, l = [] -> head (map c_arena old) = Some (AInt m) -> AInt m ∈ map c_arena new -> head (map c_arena new) = Some (AInt m)) ->
  (old = [] -> new = []) ->
  forall x, SP t x -> is_Some (kids t' x) -> SP t' x.
Proof.
  intros W Hlp R Hh Ho x Hx.
  enough ((is_Some (kids t' x) -> SP t' x) /\ (AInt x ∈ map c_arena old -> l = [] /\ head (map c_arena old) = Some (AInt x) /\ SP t' p)) by tauto.
  assert (is_Some (kids t' p)) as Hp' by (rewrite (rd_p' _ _ _ _ _ _ _ _ R); eauto).
  induction Hx as [|q m Hq IH Hm].
  - split.
    + intros _. rewrite <- (rd_root _ _ _ _ _ _ _ _ R). constructor.
    + rewrite <- (wt_root_id W). intros Hin. apply (rd_old_in L R) in Hin.
      apply elem_of_list_lookup in Hin as [k Hk]. by apply (wt_root_nochild W) in Hk.
  - pose proof (head_Some_in _ _ Hm) as Hin.
    assert (Ql : is_Some (kids t q)) by (unfold chs in Hin; destruct (kids t q); [eauto|cbn in Hin; by apply elem_of_nil in Hin]).
    destruct IH as [IH1 IH2]. split.
    + intros Hlive. destruct (decide (q = p)) as [-> |Dp].
      { specialize (IH1 Hp'). apply (SP_first _ _ _ IH1). rewrite (rd_chs' L R). rewrite (rd_chs L R) in Hm.
        destruct l as [|c0 l]; cbn in *; [|done]. destruct old as [|c1 old]; cbn in *.
        - by rewrite Ho.
        - injection Hm as Ha. assert (AInt m ∈ map c_arena new) as Hn.
          { destruct (decide (AInt m ∈ map c_arena new)) as [|D]; [done|].
            rewrite (rd_del _ _ _ _ _ _ _ _ R m) in Hlive; [by destruct Hlive| |done]. cbn. rewrite Ha. left. }
          specialize (Hh m eq_refl ltac:(by rewrite Ha) Hn). destruct new; [done|]. done. }
      destruct (decide (AInt q ∈ map c_arena old)) as [Hqo|Dq].
      * destruct (IH2 Hqo) as (-> & Hho & Hsp).
        pose proof (f_equal (map c_arena) (rd_grand _ _ _ _ _ _ _ _ R)) as Hg. rewrite !kidl_chs in Hg.
        destruct old as [|c1 old]; [done|]. cbn in Hho, Hg. injection Hho as Hc1. rewrite Hc1 in Hg. cbn in Hg.
        destruct (chs t q) as [|a0 cq] eqn:Ecq; [done|]. injection Hm as ->.
        destruct new as [|n1 new]; [done|].
        destruct (rd_new _ _ _ _ _ _ _ _ R n1) as (n & K & En & HK & HKn & _); [left|].
        cbn in Hg. rewrite En in Hg. cbn in Hg. rewrite (chs_kids _ _ _ HK) in Hg.
        destruct K as [|k1 K]; [done|]. injection Hg as Hk1 _.
        apply (SP_first _ n). { apply (SP_first _ p _ Hsp). rewrite (rd_chs' L R). cbn. by rewrite En. }
        rewrite (chs_kids _ _ _ HK). cbn. by rewrite Hk1.
      * assert (AInt q ∉ map c_arena new) as Dn by (intros Hn; by apply Dq, (rd_new_old L R)).
        pose proof (rd_other _ _ _ _ _ _ _ _ R q Dp Dq Dn) as Ek.
        apply (SP_first _ q); [apply IH1; by rewrite Ek|]. unfold chs. by rewrite Ek.
    + intros Hmo. pose proof (rd_old_in L R _ Hmo) as Hmp.
      apply elem_of_list_lookup in Hin as [k1 Hk1]. apply elem_of_list_lookup in Hmp as [k2 Hk2].
      destruct (wt_uniq W _ _ _ _ _ Hk1 Hk2) as [-> _]. split; [|split; [|by apply IH1]].
      * destruct l as [|c0 l]; [done|]. rewrite (rd_chs L R) in Hm. cbn in Hm. injection Hm as Hc0.
        pose proof (rd_nodup L W R) as Hnd. cbn in Hnd. apply NoDup_cons in Hnd as [Hn _]. destruct Hn.
        rewrite Hc0. set_solver.
      * rewrite (rd_chs L R) in Hm. destruct l as [|c0 l].
        -- cbn in Hm. destruct old as [|c1 old]; [by apply elem_of_nil in Hmo|]. done.
        -- cbn in Hm. injection Hm as Hc0.
           pose proof (rd_nodup L W R) as Hnd. cbn in Hnd. apply NoDup_cons in Hnd as [Hn _]. destruct Hn.
           rewrite Hc0. set_solver.
Qed.

(** a grown root keeps the spine *)
Lemma gr_SP t t' r li ri K1 K2 v1 v2 : GR t t' r li ri K1 K2 v1 v2 ->
  forall x, SP t x -> is_Some (kids t x) -> SP t' x.
Proof.
  intros G x Hx. induction Hx as [|q m Hq IH Hm]; intros Hl.
  - rewrite (gr_root _ _ _ _ _ _ _ _ _ G), <- (gr_root' _ _ _ _ _ _ _ _ _ G). constructor.
  - assert (Ql : is_Some (kids t q)).
    { pose proof (head_Some_in _ _ Hm) as Hin. unfold chs in Hin; destruct (kids t q); [eauto|cbn in Hin; by apply elem_of_nil in Hin]. }
    specialize (IH Ql). destruct (decide (q = r)) as [-> |D1].
    + apply (SP_first _ li); [apply (SP_first _ r _ IH); by rewrite (chs_kids _ _ _ (gr_r' _ _ _ _ _ _ _ _ _ G))|].
      rewrite (chs_kids _ _ _ (gr_r _ _ _ _ _ _ _ _ _ G)) in Hm. rewrite (chs_kids _ _ _ (gr_li' _ _ _ _ _ _ _ _ _ G)).
      pose proof (gr_n1 _ _ _ _ _ _ _ _ _ G). destruct K1; done.
    + apply (SP_first _ q _ IH). unfold chs. rewrite (gr_other _ _ _ _ _ _ _ _ _ G); [done|done| |].
      * intros ->. rewrite (gr_li _ _ _ _ _ _ _ _ _ G) in Ql. by destruct Ql.
      * intros ->. rewrite (gr_ri _ _ _ _ _ _ _ _ _ G) in Ql. by destruct Ql.
Qed.

(** *** minimum degrees.  [MDw false] ([MD]): six children in every node but the root; [MDw true]: five
    in every node off the left spine. *)
Definition big (w : bool) t m : Prop := if w then SP t m \/ 5 <= length (chs t m) else 6 <= length (chs t m).
Record MDw (w : bool) t : Prop := {
  md_in : forall m, is_Some (kids t m) -> AInt m <> root t -> big w t m;
  md_root : forall m, AInt m ∈ chs t (raw (root t)) -> 2 <= length (chs t (raw (root t)));
}.
Notation MD := (MDw false).

Lemma big_6 (w : bool) t m : 6 <= length (chs t m) -> big w t m.
Proof. destruct w; cbn; [right; lia|done]. Qed.
Lemma big_5 t m : 5 <= length (chs t m) -> big true t m.
Proof. by right. Qed.
Lemma big_mono (w : bool) t t' m : (SP t m -> SP t' m) -> length (chs t m) <= length (chs t' m) -> big w t m -> big w t' m.
Proof. intros Hs Hl. destruct w; cbn; [|lia]. intros [?|?]; [left; auto|right; lia]. Qed.

(** a state with all invariants, of height [H] *)
Record OK t H lv : Prop := {
  ok_wt : WT NoE t H lv;
  ok_lk : LK t;
  ok_sz : SZ t 11;
  ok_co : CO t (fun _ => False);
  ok_rc : RC t;
  ok_va : VA t;
}.

Lemma div2_bounds n : 2 <= n <= 12 -> 1 <= n / 2 <= 6 /\ 1 <= n - n / 2 <= 6.
Proof. intros Hn. do 13 (destruct n as [|n]; [cbn; lia|]). lia. Qed.

Lemma half_big (w : bool) t m n : (if w then 10 else 12) <= n -> length (chs t m) = n / 2 \/ length (chs t m) = n - n / 2 -> big w t m.
Proof.
  intros Hn Hl. pose proof (Nat.div_mod n 2 ltac:(lia)). pose proof (Nat.mod_upper_bound n 2 ltac:(lia)).
  destruct w; cbn; [right|]; destruct Hl as [-> | ->]; lia.
Qed.

Lemma split_ok n : forall t H lv i f,
  WT NoE t H lv -> LK t -> VA t -> CO t (fun _ => False) -> RC t -> is_Some (kids t i) ->
  2 <= length (chs t i) <= 12 -> (forall j, j <> i -> length (chs t j) <= 11) -> H - lv i = n -> n < f ->
  exists t' H' lv', split_f f t (AInt i) = Ok t' /\ OK t' H' lv' /\
    gen t' (S H') (root t') = gen t (S H) (root t) /\ (forall x, el t' x = el t x) /\
    (forall w : bool, MDw w t -> (if w then 10 else 12) <= length (chs t i) -> MDw w t') /\ anext (leaf_nodes t) <= anext (leaf_nodes t') /\
    (forall j, is_Some (kids t j) -> lv j < lv i -> kids t' j = kids t j) /\
    (forall q a, a ∈ chs t i -> a ∈ chs t' q -> length (chs t' q) <= 6) /\ H' <= S H.
Proof.
  induction n as [|n IH]; intros t H lv i f W K V C HR [cs Hk] Hlen Hsz Hn Hf;
    (destruct f as [|f]; [lia|]);
    pose proof (chs_kids _ _ _ Hk) as Hci; rewrite Hci, map_length in Hlen;
    pose proof (div2_bounds _ Hlen) as Hsp.
  - (* the root *)
    assert (Hr : AInt i = root t).
    { destruct (decide (AInt i = root t)) as [|D]; [done|]. pose proof (wt_nonroot_lv W i ltac:(eauto) D). lia. }
    destruct (split_root_ok NoE t H lv i cs f W K V Hk ltac:(lia) Hr) as (t' & Es & G & K' & Hrc).
    set (sp := length cs / 2) in *. set (ri := anext (in_nodes t)) in *.
    pose proof (gr_WT W G) as W'.
    exists t', (S H), (lv_gr (r := i) (li := S ri) (ri := ri) (H := H) (lv := lv)).
    split; [done|]. split; [constructor; try done|split; [|split; [|split; [|split; [|split; [|split; [|lia]]]]]]].
    + intros j. destruct (decide (j = i)) as [-> |D1].
      { rewrite (chs_kids _ _ _ (gr_r' _ _ _ _ _ _ _ _ _ G)). cbn. lia. }
      destruct (decide (j = S ri)) as [-> |D2].
      { rewrite (chs_kids _ _ _ (gr_li' _ _ _ _ _ _ _ _ _ G)), map_length, take_length. lia. }
      destruct (decide (j = ri)) as [-> |D3].
      { rewrite (chs_kids _ _ _ (gr_ri' _ _ _ _ _ _ _ _ _ G)), map_length, drop_length. lia. }
      unfold chs. rewrite (gr_other _ _ _ _ _ _ _ _ _ G) by done. by apply Hsz.
    + by eapply (gr_CO W G).
    + intros _. rewrite Hrc, (gr_root' _ _ _ _ _ _ _ _ _ G). symmetry.
      by rewrite (act_int _ _ _ _ (gr_r' _ _ _ _ _ _ _ _ _ G)).
    + by eapply (gr_VA W G).
    + apply (gr_gen W G).
    + apply (gr_el _ _ _ _ _ _ _ _ _ G).
    + intros w M H12. rewrite Hci, map_length in H12. constructor.
      * intros m Hm Hmr. rewrite (gr_root' _ _ _ _ _ _ _ _ _ G) in Hmr.
        destruct (decide (m = S ri)) as [-> |D2].
        { apply (half_big w _ _ (length cs)); [done|]. left.
          rewrite (chs_kids _ _ _ (gr_li' _ _ _ _ _ _ _ _ _ G)), map_length, take_length. unfold sp in *. lia. }
        destruct (decide (m = ri)) as [-> |D3].
        { apply (half_big w _ _ (length cs)); [done|]. right.
          rewrite (chs_kids _ _ _ (gr_ri' _ _ _ _ _ _ _ _ _ G)), map_length, drop_length. done. }
        pose proof (gr_other _ _ _ _ _ _ _ _ _ G m ltac:(congruence) ltac:(done) ltac:(done)) as Ekm.
        rewrite Ekm in Hm. apply (big_mono w t).
        { intros Hs. by apply (gr_SP _ _ _ _ _ _ _ _ _ G). }
        { unfold chs. by rewrite Ekm. }
        apply (md_in _ _ M); [done|]. by rewrite <- Hr.
      * intros m _. rewrite (gr_root' _ _ _ _ _ _ _ _ _ G). cbn.
        rewrite (chs_kids _ _ _ (gr_r' _ _ _ _ _ _ _ _ _ G)). cbn. lia.
    + apply (gr_al _ _ _ _ _ _ _ _ _ G).
    + intros j Hj Hlj. apply (gr_other _ _ _ _ _ _ _ _ _ G).
      * intros ->. lia.
      * intros ->. rewrite (gr_li _ _ _ _ _ _ _ _ _ G) in Hj. by destruct Hj.
      * intros ->. rewrite (gr_ri _ _ _ _ _ _ _ _ _ G) in Hj. by destruct Hj.
    + intros q a Ha [kq Hq]%elem_of_list_lookup. rewrite Hci, <- (take_drop sp cs), map_app, elem_of_app in Ha.
      destruct Ha as [Ha|Ha]; [rewrite <- (chs_kids _ _ _ (gr_li' _ _ _ _ _ _ _ _ _ G)) in Ha|
        rewrite <- (chs_kids _ _ _ (gr_ri' _ _ _ _ _ _ _ _ _ G)) in Ha]; apply elem_of_list_lookup in Ha as [k Ha];
        destruct (wt_uniq W' _ _ _ _ _ Ha Hq) as [<- _].
      * rewrite (chs_kids _ _ _ (gr_li' _ _ _ _ _ _ _ _ _ G)), map_length, take_length. lia.
      * rewrite (chs_kids _ _ _ (gr_ri' _ _ _ _ _ _ _ _ _ G)), map_length, drop_length. lia.
  - assert (Hr : AInt i <> root t).
    { intros Hr. pose proof (wt_root_lv W) as Hx. rewrite <- Hr in Hx. cbn in Hx. lia. }
    assert (Hns : forall p, AInt i ∈ chs t p -> p <> i).
    { intros p [k Hp]%elem_of_list_lookup ->. apply (wt_ch W) in Hp as [_ Hp]. cbn in Hp. lia. }
    destruct (split_attach_ok NoE t H lv i cs f W K V Hk ltac:(lia) Hr) as (p & l & c & r & t1 & Hca & Hlv & R & Ki & Kr & _ & Es).
    { intros p Hp. specialize (Hsz p (Hns p Hp)). lia. }
    set (sp := length cs / 2) in *. set (ri := anext (in_nodes t)) in *.
    assert (Hlp : 0 < lv p) by lia.
    pose proof (rd_WT L W Hlp R) as W1.
    assert (Hip : i <> p) by (intros ->; lia).
    assert (Kp : kids t1 p = Some (l ++ [mkChild (AInt i) (summ L (map c_cache (take sp cs)));
                       mkChild (AInt ri) (summ L (map c_cache (drop sp cs)))] ++ r)) by apply (rd_p' _ _ _ _ _ _ _ _ R).
    assert (Hcp : chs t1 p = map c_arena l ++ AInt i :: AInt ri :: map c_arena r).
    { by rewrite (chs_kids _ _ _ Kp), !map_app. }
    assert (Hcp0 : chs t p = map c_arena l ++ AInt i :: map c_arena r).
    { rewrite (chs_kids _ _ _ (rd_p _ _ _ _ _ _ _ _ R)), !map_app, <- Hca. done. }
    assert (Hlen1 : length (chs t1 p) = S (length (chs t p))).
    { rewrite Hcp, Hcp0, !app_length. cbn. lia. }
    assert (exists lv1, WT NoE t1 H lv1 /\ forall j, is_Some (kids t j) -> lv1 j = lv j) as (lv1 & W1' & Hlv1).
    { eexists. split; [eapply WT_shrink; [|exact W1]|apply (rd_lv L W Hlp R)].
      intros m _ _ [[]| ->] _. rewrite Hcp. destruct (map c_arena l); done. }
    assert (Hold : forall c0, c0 ∈ [c] -> kidl t c0 <> [] \/ mono L = true).
    { intros c0 ->%elem_of_list_singleton. left. unfold kidl. rewrite Hca, Hk. cbn. by destruct cs; [cbn in Hlen; lia|]. }
    assert (C1 : CO t1 (fun _ => False)).
    { eapply (rd_CO L W Hlp R); [done|done| |done]. intros _ _ []. }
    assert (R1 : RC t1).
    { eapply (rd_RC L W Hlp R); [done|done| |done|left; by destruct l]. eapply CO_mono; [|exact C]. done. }
    assert (V1 : VA t1) by (by eapply (rd_VA L W Hlp R)).
    assert (K1 : LK t1) by (by eapply (rd_LK L W Hlp R)).
    assert (Gn : gen t1 (S H) (root t1) = gen t (S H) (root t)) by (eapply (rd_gen L W Hlp R)).
    assert (Hsz1 : forall j, j <> p -> length (chs t1 j) <= 11).
    { intros j Hj. destruct (decide (j = i)) as [-> |D1].
      { rewrite (chs_kids _ _ _ Ki), map_length, take_length. lia. }
      destruct (decide (j = ri)) as [-> |D2].
      { rewrite (chs_kids _ _ _ Kr), map_length, drop_length. lia. }
      unfold chs. rewrite (rd_other _ _ _ _ _ _ _ _ R); [by apply Hsz|done| |].
      - cbn. rewrite Hca. intros Hx%elem_of_list_singleton. congruence.
      - cbn. intros [?|?%elem_of_list_singleton]%elem_of_cons; congruence. }
    assert (Hszp : length (chs t p) <= 11) by (apply Hsz; done).
    assert (Sp1 : forall x, SP t x -> is_Some (kids t1 x) -> SP t1 x).
    { apply (rd_SP _ _ _ _ _ _ _ _ _ _ W Hlp R); [|done]. cbn. rewrite Hca. by intros m _ [= <-] _. }
    assert (M1 : forall w : bool, MDw w t -> (if w then 10 else 12) <= length (chs t i) -> MDw w t1).
    { intros w M H12. rewrite Hci, map_length in H12. constructor.
      * intros m Hm Hmr. rewrite (rd_root _ _ _ _ _ _ _ _ R) in Hmr.
        destruct (decide (m = i)) as [-> |D2].
        { apply (half_big w _ _ (length cs)); [done|]. left. rewrite (chs_kids _ _ _ Ki), map_length, take_length. unfold sp in *. lia. }
        destruct (decide (m = ri)) as [-> |D3].
        { apply (half_big w _ _ (length cs)); [done|]. right. rewrite (chs_kids _ _ _ Kr), map_length, drop_length. done. }
        destruct (decide (m = p)) as [-> |D4].
        { apply (big_mono w t); [by eauto|lia|]. apply (md_in _ _ M); [|done]. rewrite (rd_p _ _ _ _ _ _ _ _ R). eauto. }
        assert (kids t1 m = kids t m) as Hkm.
        { apply (rd_other _ _ _ _ _ _ _ _ R); [done| |].
          - cbn. rewrite Hca. intros Hx%elem_of_list_singleton. congruence.
          - cbn. intros [?|?%elem_of_list_singleton]%elem_of_cons; congruence. }
        apply (big_mono w t); [by eauto|unfold chs; by rewrite Hkm|]. apply (md_in _ _ M); [|done]. by rewrite <- Hkm.
      * rewrite (rd_root _ _ _ _ _ _ _ _ R). intros m Hm.
        destruct (decide (raw (root t) = p)) as [-> |D].
        { rewrite Hlen1. rewrite Hcp0, app_length. cbn. lia. }
        assert (kids t1 (raw (root t)) = kids t (raw (root t))) as Hkm.
        { apply (rd_other _ _ _ _ _ _ _ _ R); [done| |].
          - cbn. rewrite Hca, <- (wt_root_id W). intros Hx%elem_of_list_singleton. congruence.
          - cbn. rewrite <- (wt_root_id W). intros [?|Hx%elem_of_list_singleton]%elem_of_cons; [congruence|].
            pose proof (wt_root_live W) as Hl. pose proof (wt_fresh W _ Hl) as Hfr. rewrite Hx in Hfr. cbn in Hfr. unfold ri in Hfr. lia. }
        unfold chs in *. rewrite Hkm in *. apply (md_root _ _ M m). done. }
    assert (Hfri : kids t ri = None).
    { destruct (kids t ri) eqn:Er; [|done]. pose proof (wt_fresh W ri) as H0. rewrite Er in H0. unfold ri in H0.
      specialize (H0 ltac:(eauto)). lia. }
    assert (Low1 : forall j, is_Some (kids t j) -> lv j < lv i -> kids t1 j = kids t j).
    { intros j Hj Hlj. apply (rd_other _ _ _ _ _ _ _ _ R).
      - intros ->. lia.
      - cbn. rewrite Hca. intros Hx%elem_of_list_singleton. injection Hx as ->. lia.
      - cbn. intros [Hx|Hx%elem_of_list_singleton]%elem_of_cons; injection Hx as ->; [lia|]. rewrite Hfri in Hj. by destruct Hj. }
    assert (Half1 : forall a, a ∈ chs t i -> exists q, (q = i \/ q = ri) /\ a ∈ chs t1 q /\ length (chs t1 q) <= 6).
    { intros a Ha. rewrite Hci, <- (take_drop sp cs), map_app, elem_of_app in Ha. destruct Ha as [Ha|Ha].
      - exists i. rewrite (chs_kids _ _ _ Ki). split; [by left|]. split; [done|]. rewrite map_length, take_length. lia.
      - exists ri. rewrite (chs_kids _ _ _ Kr). split; [by right|]. split; [done|]. rewrite map_length, drop_length. lia. }
    assert (Hlvq : forall q, q = i \/ q = ri -> is_Some (kids t1 q) /\ lv1 q < lv1 p).
    { intros q Hq. assert (AInt q ∈ chs t1 p) as Hin by (rewrite Hcp; set_solver).
      pose proof (wt_live_child W1' _ _ Hin) as Hl. split; [done|]. apply elem_of_list_lookup in Hin as [k Hin].
      apply (wt_ch W1') in Hin as [_ Hin]. cbn in Hin. lia. }
    rewrite Es. case_bool_decide as Hfull.
    + destruct (IH t1 H _ p f W1' K1 V1 C1 R1) as (t' & H' & lv' & Es' & O & Gn' & El' & M' & Al' & Low' & Half' & HH').
      * rewrite Kp. eauto.
      * rewrite Hlen1. rewrite Hcp0, app_length in *. cbn in *. lia.
      * done.
      * rewrite Hlv1; [lia|]. rewrite (rd_p _ _ _ _ _ _ _ _ R). eauto.
      * lia.
      * assert (Hlp1 : lv1 p = lv p) by (apply Hlv1; rewrite (rd_p _ _ _ _ _ _ _ _ R); eauto).
        exists t', H', lv'. split; [done|]. split; [done|]. split; [congruence|]. split; [|split; [|split; [|split; [|split; [|lia]]]]].
        -- intros x. rewrite El'. apply (rd_el _ _ _ _ _ _ _ _ R).
        -- intros w M H12. apply M'; [by apply M1|]. rewrite Hlen1. destruct w; lia.
        -- pose proof (rd_al _ _ _ _ _ _ _ _ R). lia.
        -- intros j Hj Hlj. rewrite Low'; [by apply Low1| |].
           ++ by rewrite Low1.
           ++ rewrite (Hlv1 j Hj), Hlp1. lia.
        -- intros q a Ha [kq Hq]%elem_of_list_lookup. destruct (Half1 a Ha) as (q1 & Hq1 & Hin1 & Hlen').
           destruct (Hlvq q1 Hq1) as [Hq1l Hq1v].
           assert (chs t' q1 = chs t1 q1) as Heq by (unfold chs; by rewrite Low').
           rewrite <- Heq in Hin1, Hlen'. apply elem_of_list_lookup in Hin1 as [k1 Hin1].
           by destruct (wt_uniq (ok_wt _ _ _ O) _ _ _ _ _ Hin1 Hq) as [<- _].
    + exists t1, H, lv1.
      split; [done|]. split; [|split; [done|split; [apply (rd_el _ _ _ _ _ _ _ _ R)|split; [done|split; [apply (rd_al _ _ _ _ _ _ _ _ R)|split; [done|split; [|lia]]]]]]].
      * constructor; try done. intros j. destruct (decide (j = p)) as [-> |]; [|auto]. lia.
      * intros q a Ha [kq Hq]%elem_of_list_lookup. destruct (Half1 a Ha) as (q1 & Hq1 & Hin1 & Hlen').
        apply elem_of_list_lookup in Hin1 as [k1 Hin1]. by destruct (wt_uniq W1' _ _ _ _ _ Hin1 Hq) as [<- _].
Qed.
End split.
Notation MD := (MDw false).
