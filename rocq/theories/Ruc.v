(** Ruc.v — cache propagation towards the root. *)
From Verif Require Export Law.

Section ruc.
Context {B : BTreeTrait} (L : Lawful B).
Notation btree := (btree B).
Notation child := (child B).
Notation CO := (CO L).
Notation RC := (RC L).
Notation VA := (VA L).
Notation act := (act L).
Implicit Types (t : btree) (i j m p q k s : nat) (a b : aidx) (c : child) (cs : list child).

(** [j] is [i] or an ancestor of [i] *)
Inductive upr t : nat -> nat -> Prop :=
| upr_refl i : upr t i i
| upr_step i p j : AInt i ∈ chs t p -> upr t p j -> upr t i j.

Lemma upr_SH t t' i j : SH t t' -> upr t' i j -> upr t i j.
Proof.
  intros S U. induction U as [i|i p j Hp _ IH]; [constructor|].
  rewrite (sh_chs S) in Hp. by eapply upr_step.
Qed.
Lemma upr_SH2 t t' i j : SH t t' -> upr t i j -> upr t' i j.
Proof.
  intros S U. induction U as [i|i p j Hp _ IH]; [constructor|].
  rewrite <- (sh_chs S) in Hp. by eapply upr_step.
Qed.

Lemma RC_root t : RC t -> VA t -> (chs t (raw (root t)) <> [] \/ mono L = true) -> root t = AInt (raw (root t)) ->
  is_Some (kids t (raw (root t))) -> cvalid L (root_cache t).
Proof.
  intros R V Hne Hr [cs Hk]. rewrite R, Hr, (act_int _ _ _ cs) by done.
  apply lw_summ; [by eapply VA_kids|]. destruct Hne as [Hne|?]; [left|by right].
  rewrite (chs_kids _ _ _ Hk) in Hne. by destruct cs.
Qed.

Lemma root_not_entry {E t H lv} (W : WT E t H lv) p cs c :
  kids t p = Some cs -> c ∈ cs -> c_arena c = root t -> False.
Proof.
  intros Hk [k Hc]%elem_of_list_lookup Ea. apply (wt_root_nochild W p k).
  by rewrite (chs_kids _ _ _ Hk), list_lookup_fmap, Hc, <- Ea.
Qed.
Lemma self_not_entry {E t H lv} (W : WT E t H lv) p cs c :
  kids t p = Some cs -> c ∈ cs -> c_arena c = AInt p -> False.
Proof.
  intros Hk [k Hc]%elem_of_list_lookup Ea.
  assert (chs t p !! k = Some (AInt p)) as Hx by (by rewrite (chs_kids _ _ _ Hk), list_lookup_fmap, Hc, <- Ea).
  apply (wt_ch W) in Hx as [_ Hx]. cbn in Hx. lia.
Qed.

(** recursive_update_cache_with_diff *)
Lemma ruc_diff_ok n : forall E t H lv i d f,
  WT E t H lv -> LK t -> is_Some (kids t i) -> H - lv i = n -> n < f ->
  mono L = true -> CO t (fun a => a = AInt i) -> VA t ->
  (AInt i = root t -> drel L (root_cache t) d (act t (AInt i))) ->
  (forall p cs c, kids t p = Some cs -> c ∈ cs -> c_arena c = AInt i -> drel L (c_cache c) d (act t (AInt i))) ->
  (AInt i <> root t -> root_cache t = act t (root t)) ->
  exists t', ruc_diff_f f t (AInt i) d = Ok t' /\ SH t t' /\ (forall l, el t' l = el t l)
    /\ CO t' (fun _ => False) /\ VA t' /\ root_cache t' = act t' (root t').
Proof.
  induction n as [|n IH]; intros E t H lv i d f W K Hi Hn Hf HM C V Hroot Hent Hrc.
  all: destruct f as [|f]; [lia|]; cbn [ruc_diff_f get_internal].
  - assert (AInt i = root t) as Er.
    { destruct (decide (AInt i = root t)) as [?|Hr]; [done|].
      pose proof (wt_nonroot_lv W i Hi Hr). lia. }
    destruct (live_get_in t i Hi) as [nd Hg]. cbn. rewrite Hg. cbn.
    destruct (lk_root K i (eq_sym Er)) as [s Hl]. apply get_in_inv in Hg as [_ Hl'].
    rewrite Hl in Hl'. injection Hl' as <- _.
    rewrite (lw_apply _ L _ _ _ (Hroot Er)). cbn.
    eexists. split; [done|]. split; [by constructor|]. split; [done|]. split; [|split].
    + intros p cs c Hk Hc _. apply (C p cs c Hk Hc). intros Em.
      apply (root_not_entry W p cs c Hk Hc). congruence.
    + destruct V. by constructor.
    + cbn. by rewrite <- Er.
  - assert (AInt i <> root t) as Er.
    { intros Er. pose proof (wt_root_lv W) as Hr. rewrite <- Er in Hr. cbn in Hr. lia. }
    destruct (live_get_in t i Hi) as [nd Hg]. cbn. rewrite Hg. cbn.
    destruct (parent_of W K i Hi Er) as (p & s & cs & c & pn & Hl & Hgp & Hkp & Hcs & Hc & Ha & Hlv & Hpi).
    apply get_in_inv in Hg as [_ Hl']. rewrite Hl in Hl'. injection Hl' as <- <-.
    cbn. rewrite Hgp. cbn. rewrite Hcs. unfold apply_child_cache, vec_get. rewrite Hc. cbn.
    assert (Hin : c ∈ cs) by (by eapply elem_of_list_lookup_2).
    pose proof (Hent p cs c Hkp Hin Ha) as Hd.
    rewrite (lw_apply _ L _ _ _ Hd). cbn. unfold with_children.
    set (cs' := <[s:=mkChild (c_arena c) (act t (AInt i))]> cs).
    set (t1 := set_in t p _).
    assert (S1 : SH t t1). { apply setcs_SH; [done|]. unfold cs'. by rewrite (entry_arena _ _ _ _ Hc), Hcs. }
    assert (C1 : CO t1 (fun a => a = AInt p)).
    { eapply CO_mono; [|eapply (entry_CO L W p cs s c (AInt i) pn); try done; congruence]. intros m [[-> ?]| ->]; done. }
    assert (V1 : VA t1).
    { eapply (entry_VA L p cs s c pn); try done. destruct Hi as [csi Hki]. rewrite (act_int _ _ _ _ Hki).
      apply lw_summ; [by eapply VA_kids|by right]. }
    assert (Hact : drel L (act t (AInt p)) d (act t1 (AInt p))).
    { rewrite (act_int _ _ _ _ Hkp). rewrite (act_int L t1 p cs') by (unfold t1; rewrite setcs_kids; by rewrite decide_True).
      unfold cs'. destruct (insert_split cs s c (mkChild (c_arena c) (act t (AInt i))) Hc) as (l1 & l2 & -> & -> & _).
      rewrite !map_app. cbn. by apply lw_cong. }
    destruct (IH E t1 H lv p d f) as (t' & Et & S' & El' & C' & V' & R'); try done.
    + by eapply SH_WT.
    + by eapply SH_LK.
    + apply (SH_kids _ _ S1). eauto.
    + lia.
    + lia.
    + intros Er'. cbn in Er'. cbn. rewrite (Hrc Er). by rewrite <- Er'.
    + intros q cs1 c1 Hk1 Hc1 Ha1. unfold t1 in Hk1. rewrite setcs_kids in Hk1. case_decide as Hpq.
      * subst q. exfalso. apply elem_of_list_lookup in Hc1 as [k Hc1].
        assert (chs t1 p !! k = Some (AInt p)) as Hx.
        { rewrite (chs_kids _ _ cs1), list_lookup_fmap, Hc1; [cbn; by rewrite Ha1|].
          unfold t1. rewrite setcs_kids. by rewrite decide_True. }
        rewrite (sh_chs S1) in Hx. apply (wt_ch W) in Hx as [_ Hx]. cbn in Hx. lia.
      * rewrite (C q cs1 c1 Hk1 Hc1).
        { by rewrite Ha1. }
        congruence.
    + intros Er'. cbn in Er'. cbn. rewrite (Hrc Er). symmetry. apply setcs_act; [done|congruence].
    + exists t'. split; [done|]. split; [by eapply SH_trans|]. split; [done|]. done.
Qed.

(** [calc_into_parent] *)
Lemma calc_into_parent_ok E t H lv i nd (D : aidx -> Prop) :
  WT E t H lv -> LK t -> is_Some (kids t i) -> AInt i <> root t -> get_in t i = Ok nd ->
  (chs t i <> [] \/ mono L = true) -> CO t D -> VA t ->
  exists p cs c d t1, n_parent nd = Some (AInt p) /\ kids t p = Some cs /\ c ∈ cs /\ c_arena c = AInt i /\ lv p = S (lv i) /\
    calc_into_parent t p i nd None = Ok (d, t1) /\ SH t t1 /\ (forall l, el t1 l = el t l)
    /\ CO t1 (fun a => (D a /\ a <> AInt i) \/ a = AInt p) /\ VA t1 /\ root_cache t1 = root_cache t
    /\ (@USE_DIFF B = true -> drel L (act t (AInt p)) d (act t1 (AInt p)))
    /\ (forall a, a <> AInt p -> act t1 a = act t a)
    /\ (forall q, q <> p -> kids t1 q = kids t q).
Proof.
  intros W K Hi Er Hg Hne C V.
  destruct (parent_of W K i Hi Er) as (p & s & cs & c & pn & Hl & Hgp & Hkp & Hcs & Hc & Ha & Hlv & Hpi).
  pose proof (get_in_inv _ _ _ Hg) as [Hki Hl']. rewrite Hl in Hl'. injection Hl' as Ep Es.
  assert (Hin : c ∈ cs) by (by eapply elem_of_list_lookup_2).
  destruct (lw_calc _ L (c_cache c) (map c_cache (n_children nd))) as (d & Ed & Hd).
  { by eapply VA_kids. }
  { destruct Hne as [Hne|?]; [left|by right]. rewrite (chs_kids _ _ _ Hki) in Hne. by destruct (n_children nd). }
  rewrite <- (act_int L t i _ Hki) in Ed, Hd.
  exists p, cs, c, d. eexists. split; [done|]. split; [done|]. split; [done|]. split; [done|]. split; [done|].
  split.
  { unfold calc_into_parent. rewrite bool_decide_eq_false_2 by done. cbn. rewrite Hgp. cbn.
    rewrite <- Es, Hcs. unfold vec_get. rewrite Hc. cbn. rewrite Ed. cbn. unfold with_children. done. }
  split. { apply setcs_SH; [done|]. by rewrite (entry_arena _ _ _ _ Hc), Hcs. }
  split; [done|].
  split. { eapply (entry_CO L W p cs s c (AInt i) pn); try done; congruence. }
  split.
  { eapply (entry_VA L p cs s c pn); try done. rewrite (act_int _ _ _ _ Hki).
    apply lw_summ; [by eapply VA_kids|]. destruct Hne as [Hne|?]; [left|by right].
    rewrite (chs_kids _ _ _ Hki) in Hne. by destruct (n_children nd). }
  split; [done|].
  split.
  { intros HU. rewrite (act_int L t p cs Hkp).
    rewrite (act_int L _ p (<[s:=mkChild (c_arena c) (act t (AInt i))]> cs))
      by (rewrite setcs_kids; by rewrite decide_True).
    destruct (insert_split cs s c (mkChild (c_arena c) (act t (AInt i))) Hc) as (l1 & l2 & -> & -> & _).
    rewrite !map_app. cbn [map c_cache]. apply lw_cong. auto. }
  split; [intros a Hap; apply setcs_act; done|].
  intros q Hq. rewrite setcs_kids. by rewrite decide_False.
Qed.

(** the loop without diffs, for an arbitrary set [D] of stale entries *)
Lemma ruc_loop_ok n : forall E t H lv i (D : aidx -> Prop) f,
  WT E t H lv -> LK t -> is_Some (kids t i) -> H - lv i = n -> n < f ->
  (chs t i <> [] \/ mono L = true) -> CO t D -> VA t ->
  exists t', ruc_loop_f f t i = Ok t' /\ SH t t' /\ (forall l, el t' l = el t l)
    /\ CO t' (fun a => D a /\ forall m, a = AInt m -> ~ upr t i m) /\ VA t' /\ root_cache t' = root_cache t
    /\ (forall m, m ≠ i -> ~ upr t i m -> kids t' m = kids t m).
Proof.
  induction n as [|n IH]; intros E t H lv i D f W K Hi Hn Hf Hne C V.
  all: destruct f as [|f]; [lia|]; cbn [ruc_loop_f].
  - assert (AInt i = root t) as Er.
    { destruct (decide (AInt i = root t)) as [?|Hr]; [done|].
      pose proof (wt_nonroot_lv W i Hi Hr). lia. }
    destruct (live_get_in t i Hi) as [nd Hg]. rewrite Hg. cbn.
    destruct (lk_root K i (eq_sym Er)) as [s Hl]. apply get_in_inv in Hg as [_ Hl'].
    rewrite Hl in Hl'. injection Hl' as <- _.
    exists t. split; [done|]. split; [apply SH_refl|]. split; [done|]. split; [|done].
    intros p cs c Hk Hc Hd. apply (C p cs c Hk Hc). intros Hm. apply Hd.
    split; [done|]. intros m Em U. inversion U as [|? q ? Hq]; subst.
    + apply (root_not_entry W p cs c Hk Hc). congruence.
    + apply elem_of_list_lookup in Hq as [k Hq]. rewrite Er in Hq. by apply (wt_root_nochild W) in Hq.
  - assert (AInt i <> root t) as Er.
    { intros Er. pose proof (wt_root_lv W) as Hr. rewrite <- Er in Hr. cbn in Hr. lia. }
    destruct (live_get_in t i Hi) as [nd Hg]. rewrite Hg. cbn.
    destruct (calc_into_parent_ok E t H lv i nd D W K Hi Er Hg Hne C V)
      as (p & cs & c & d & t1 & -> & Hkp & Hc & Ha & Hlv & Ec & S1 & El1 & C1 & V1 & R1 & _ & _ & Hk1).
    cbn. rewrite Ec. cbn.
    assert (Hip : AInt i ∈ chs t p).
    { rewrite (chs_kids _ _ _ Hkp), <- Ha. by apply elem_of_list_fmap_1. }
    destruct (IH E t1 H lv p (fun a => (D a /\ a <> AInt i) \/ a = AInt p) f) as (t' & Et & S' & El' & C' & V' & R' & K').
    + by eapply SH_WT.
    + by eapply SH_LK.
    + apply (SH_kids _ _ S1). eauto.
    + lia.
    + lia.
    + left. rewrite (sh_chs S1). by destruct (chs t p); [apply not_elem_of_nil in Hip|].
    + done.
    + done.
    + exists t'. split; [done|]. split; [by eapply SH_trans|]. split; [intros l; by rewrite El', El1|].
      split; [|split; [done|split; [congruence|]]].
      * eapply CO_mono; [|done]. intros a [[[Hm Hmi]| ->] Hu]; [|destruct (Hu p eq_refl); constructor].
        split; [done|]. intros m -> U. apply (Hu m eq_refl). apply (upr_SH2 _ _ _ _ S1).
        inversion U as [|? q ? Hq Uq]; subst; [done|].
        apply elem_of_list_lookup in Hq as [k Hq]. apply elem_of_list_lookup in Hip as [k' Hip].
        by destruct (wt_uniq W _ _ _ _ _ Hq Hip) as [-> _].
      * intros m Hm Hu. assert (m <> p) as Hmp by (intros ->; apply Hu; by eapply upr_step, upr_refl).
        rewrite K', Hk1; try done. intros U. apply Hu. eapply upr_step; [done|]. by eapply upr_SH.
Qed.

(** calc_root *)
Lemma calc_root_ok E t H lv : WT E t H lv -> VA t ->
  (chs t (raw (root t)) <> [] \/ mono L = true) ->
  exists t', calc_root t None = Ok t' /\ t' = set_root_cache t (act t (root t)).
Proof.
  intros W V Hne. unfold calc_root. rewrite (wt_root_id W). cbn.
  destruct (live_get_in t _ (wt_root_live W)) as [nd Hg]. rewrite Hg. cbn.
  apply get_in_inv in Hg as [Hk _].
  destruct (lw_calc _ L (root_cache t) (map c_cache (n_children nd))) as (d & Ed & _).
  { by eapply VA_kids. }
  { destruct Hne as [Hne|?]; [left|by right]. rewrite (chs_kids _ _ _ Hk) in Hne. by destruct (n_children nd). }
  rewrite Ed. cbn. eexists. split; [done|]. by rewrite (act_int _ _ _ _ Hk).
Qed.
Lemma calc_root_nil E t H lv : WT E t H lv -> chs t (raw (root t)) = [] ->
  exists t' v, calc_root t None = Ok t' /\ t' = set_root_cache t v.
Proof.
  intros W Hne. unfold calc_root. rewrite (wt_root_id W). cbn.
  destruct (live_get_in t _ (wt_root_live W)) as [nd Hg]. rewrite Hg. cbn.
  apply get_in_inv in Hg as [Hk _]. rewrite (chs_kids _ _ _ Hk) in Hne. apply fmap_nil_inv in Hne. rewrite Hne.
  destruct (lw_calc_nil _ L (root_cache t)) as (c & d & Ed). cbn. rewrite Ed. cbn. eauto.
Qed.
Lemma set_rc_SH t v : SH t (set_root_cache t v).
Proof. by constructor. Qed.
Lemma set_rc_CO t v D : CO t D -> CO (set_root_cache t v) D.
Proof. done. Qed.
Lemma set_rc_VA t v : VA t -> VA (set_root_cache t v).
Proof. intros []. by constructor. Qed.

(** the general statement used by the operations: the children of [i] were edited, the
    entries elsewhere are right, [d] (if given) is the diff of [i]'s aggregate *)
Definition RC1 t i : Prop := AInt i <> root t -> RC t.
Lemma ruc_int_gen (u : bool) E t H lv i (od : option (Diff B)) : (u = true -> USE_DIFF (b := B) = true) ->
  WT E t H lv -> LK t -> is_Some (kids t i) -> CO t (fun a => a = AInt i) -> VA t -> RC1 t i ->
  (chs t i <> [] \/ mono L = true \/ AInt i = root t) ->
  (forall d, od = Some d -> u = true ->
     (AInt i = root t -> drel L (root_cache t) d (act t (AInt i))) /\
     (forall p cs c, kids t p = Some cs -> c ∈ cs -> c_arena c = AInt i -> drel L (c_cache c) d (act t (AInt i)))) ->
  exists t', recursive_update_cache t (AInt i) u od = Ok t' /\ SH t t'
    /\ (forall l, el t' l = el t l) /\ CO t' (fun _ => False) /\ VA t' /\ RC t'.
Proof.
  intros Hfl W K Hi C V R Hne Hd. unfold recursive_update_cache. cbn [rbind].
  assert (Hfuel : H - lv i < fuel t).
  { unfold fuel. pose proof (wt_depth_bound W i Hi). lia. }
  assert (Hempty : chs t i = [] -> mono L = true \/ AInt i = root t).
  { intros He. rewrite He in Hne. by destruct Hne as [?|?]. }
  destruct u.
  - pose proof (Hfl eq_refl) as EU. pose proof (lw_diff_mono _ L EU) as HM.
    assert (HR : AInt i <> root t -> root_cache t = act t (root t)) by (intros Hr; apply R; [done|by right]).
    destruct od as [d|].
    + destruct (Hd d eq_refl eq_refl) as [Hd1 Hd2].
      destruct (ruc_diff_ok (H - lv i) E t H lv i d (fuel t)) as (t' & E' & S' & El' & C' & V' & R'); try done.
      exists t'. split; [done|]. split; [done|]. split; [done|]. split; [done|]. split; [done|]. by intros _.
    + destruct (live_get_in t i Hi) as [nd Hg]. rewrite Hg. cbn [rbind].
      destruct (decide (AInt i = root t)) as [Er|Er].
      * destruct (lk_root K i (eq_sym Er)) as [s Hl]. pose proof (get_in_inv _ _ _ Hg) as [_ Hl'].
        rewrite Hl in Hl'. injection Hl' as <- _.
        destruct (calc_root_ok E t H lv W V) as (t' & Ec & ->); [by right|].
        eexists. split; [done|]. split; [apply set_rc_SH|]. split; [done|]. split; [|split].
        -- apply set_rc_CO. intros p cs c Hk Hc _. apply (C p cs c Hk Hc). intros Em.
           apply (root_not_entry W p cs c Hk Hc). congruence.
        -- by apply set_rc_VA.
        -- by intros _.
      * destruct (calc_into_parent_ok E t H lv i nd _ W K Hi Er Hg (or_intror HM) C V)
          as (p & cs & c & d & t1 & -> & Hkp & Hc & Ha & Hlv & Ec & S1 & El1 & C1 & V1 & R1 & Hdr & Hact & Hk1).
        cbn [unwrap_internal rbind]. rewrite Ec. cbn [rbind].
        specialize (Hdr EU).
        unfold recursive_update_cache_with_diff.
        destruct (ruc_diff_ok (H - lv p) E t1 H lv p d (fuel t1)) as (t' & E' & S' & El' & C' & V' & R'); try done.
        -- by eapply SH_WT.
        -- by eapply SH_LK.
        -- apply (SH_kids _ _ S1). eauto.
        -- rewrite (SH_fuel _ _ S1). lia.
        -- eapply CO_mono; [|exact C1]. intros m [[-> ?]| ->]; done.
        -- intros Er'. rewrite R1, (HR Er). rewrite (sh_root S1) in Er'. by rewrite <- Er'.
        -- intros q cs1 c1 Hq Hc1 Ha1.
           assert (q <> p).
           { intros ->. apply elem_of_list_lookup in Hc1 as [k Hc1].
             assert (chs t1 p !! k = Some (AInt p)) as Hx.
             { rewrite (chs_kids _ _ cs1), list_lookup_fmap, Hc1; [cbn; by rewrite Ha1|done]. }
             rewrite (sh_chs S1) in Hx. apply (wt_ch W) in Hx as [_ Hx]. cbn in Hx. lia. }
           rewrite Hk1 in Hq by done. rewrite (C q cs1 c1 Hq Hc1).
           { by rewrite Ha1. }
           rewrite Ha1. intros [= ->]. lia.
        -- intros Er'. rewrite R1, (HR Er). rewrite (sh_root S1) in *. symmetry. apply Hact. congruence.
        -- exists t'. split; [done|]. split; [by eapply SH_trans|]. split; [intros l; by rewrite El', El1|].
           split; [done|]. split; [done|]. by intros _.
  - assert (exists t1, ruc_loop_f (fuel t) t i = Ok t1 /\ SH t t1 /\ (forall l, el t1 l = el t l)
       /\ CO t1 (fun _ => False) /\ VA t1) as (t1 & -> & S1 & El1 & C1 & V1).
    { destruct (decide (AInt i = root t)) as [Er|Er].
      - unfold fuel. cbn [ruc_loop_f]. destruct (live_get_in t i Hi) as [nd Hg]. rewrite Hg. cbn.
        destruct (lk_root K i (eq_sym Er)) as [s Hl]. pose proof (get_in_inv _ _ _ Hg) as [_ Hl'].
        rewrite Hl in Hl'. injection Hl' as <- _.
        exists t. split; [done|]. split; [apply SH_refl|]. split; [done|]. split; [|done].
        intros p cs c Hk Hc _. apply (C p cs c Hk Hc). intros Em.
        apply (root_not_entry W p cs c Hk Hc). congruence.
      - destruct (ruc_loop_ok (H - lv i) E t H lv i (fun a => a = AInt i) (fuel t) W K Hi eq_refl) as (t1 & E1 & S1 & El1 & C1 & V1 & _).
        + done.
        + destruct Hne as [?|[?|?]]; [by left|by right|done].
        + exact C.
        + done.
        + exists t1. split; [done|]. split; [done|]. split; [done|]. split; [|done].
          eapply CO_mono; [|exact C1]. intros a [-> Hu]. apply (Hu i eq_refl). constructor. }
    cbn [rbind].
    pose proof (SH_WT _ _ _ _ _ S1 W) as W1.
    assert (Hdec : chs t1 (raw (root t1)) = [] /\ mono L = false \/ (chs t1 (raw (root t1)) <> [] \/ mono L = true)).
    { destruct (chs t1 (raw (root t1))), (mono L); [right; by right|by left|right; by left..]. }
    destruct Hdec as [[He Hm]|Hr].
    + destruct (calc_root_nil E t1 H lv W1 He) as (t' & c & Ec & ->).
      exists (set_root_cache t1 c). split; [done|]. split; [eapply SH_trans; [done|apply set_rc_SH]|].
      split; [done|]. split; [done|]. split; [by apply set_rc_VA|].
      intros [Hx|Hx]; [done|congruence].
    + destruct (calc_root_ok E t1 H lv W1 V1 Hr) as (t' & Ec & ->).
      exists (set_root_cache t1 (act t1 (root t1))). split; [done|]. split; [eapply SH_trans; [done|apply set_rc_SH]|].
      split; [done|]. split; [done|]. split; [by apply set_rc_VA|]. by intros _.
Qed.

(** get_leaf_slot *)
Lemma ruc_int_ok E t H lv i (od : option (Diff B)) :
  WT E t H lv -> LK t -> is_Some (kids t i) -> CO t (fun a => a = AInt i) -> VA t -> RC1 t i ->
  (chs t i <> [] \/ mono L = true \/ AInt i = root t) ->
  (forall d, od = Some d -> USE_DIFF (b := B) = true ->
     (AInt i = root t -> drel L (root_cache t) d (act t (AInt i))) /\
     (forall p cs c, kids t p = Some cs -> c ∈ cs -> c_arena c = AInt i -> drel L (c_cache c) d (act t (AInt i)))) ->
  exists t', recursive_update_cache t (AInt i) (USE_DIFF (b := B)) od = Ok t' /\ SH t t'
    /\ (forall l, el t' l = el t l) /\ CO t' (fun _ => False) /\ VA t' /\ RC t'.
Proof. by apply ruc_int_gen. Qed.

Lemma leaf_slot_ok cs l : forall k i, (forall c, c ∈ cs -> exists x, c_arena c = ALeaf x) ->
  NoDup (map c_arena cs) -> map c_arena cs !! k = Some (ALeaf l) -> leaf_slot_from cs l i = Ok (i + k).
Proof.
  induction cs as [|c cs IH]; intros k i Hl Hnd Hk; [done|]. cbn [leaf_slot_from].
  destruct (Hl c) as [x Ex]; [left|]. rewrite Ex. cbn. cbn in Hnd, Hk.
  inversion Hnd as [|? ? Hc Hnd']; subst. destruct k as [|k]; cbn in Hk.
  - assert (x = l) as -> by congruence. rewrite decide_True by done. f_equal. lia.
  - rewrite decide_False.
    + rewrite (IH k (S i)); [f_equal; lia| |done|done]. intros c' Hc'. apply Hl. by right.
    + intros ->. apply Hc. rewrite Ex. by eapply elem_of_list_lookup_2.
Qed.
Lemma wt_leaf_slot {E t H lv} (W : WT E t H lv) p cs k l :
  kids t p = Some cs -> chs t p !! k = Some (ALeaf l) -> leaf_slot_from cs l 0 = Ok k.
Proof.
  intros Hk Hc. rewrite (leaf_slot_ok cs l k 0); [done| | |].
  - intros c Hcin. destruct (wt_ch W _ _ _ Hc) as [_ Hlv]. cbn in Hlv.
    apply (wt_leaf_child W p); [|done]. rewrite (chs_kids _ _ _ Hk). by apply elem_of_list_fmap_1.
  - by apply (wt_nodup_cs W p).
  - by rewrite <- (chs_kids _ _ _ Hk).
Qed.

Lemma ruc_leaf_gen (u : bool) E t H lv l e p cs k c (od : option (Diff B)) : (u = true -> USE_DIFF (b := B) = true) ->
  WT E t H lv -> LK t -> el t l = Some e -> kids t p = Some cs -> cs !! k = Some c -> c_arena c = ALeaf l ->
  CO t (fun a => a = ALeaf l \/ a = AInt p) -> VA t -> RC1 t p ->
  (forall d, od = Some d -> u = true ->
     let v' := summ L (map c_cache (<[k := mkChild (ALeaf l) (get_elem_cache e)]> cs)) in
     (AInt p = root t -> drel L (root_cache t) d v') /\
     (forall q cs c, kids t q = Some cs -> c ∈ cs -> c_arena c = AInt p -> drel L (c_cache c) d v')) ->
  exists t', recursive_update_cache t (ALeaf l) u od = Ok t' /\ SH t t'
    /\ (forall l, el t' l = el t l) /\ CO t' (fun _ => False) /\ VA t' /\ RC t'.
Proof.
  intros Hfl W K He Hk Hc Ha C V R Hd.
  assert (Hck : chs t p !! k = Some (ALeaf l)).
  { by rewrite (chs_kids _ _ _ Hk), list_lookup_fmap, Hc, <- Ha. }
  pose proof (lk_ch K _ _ _ Hck) as Hlk. cbn in Hlk.
  destruct (get_in_kids t p cs Hk) as (po & s & Hg & Hl).
  set (cs' := <[k := mkChild (ALeaf l) (get_elem_cache e)]> cs) in *.
  set (t1 := set_in t p (mkNode po s cs')).
  assert (Hred : recursive_update_cache t (ALeaf l) u od
                 = recursive_update_cache t1 (AInt p) u od).
  { unfold recursive_update_cache at 1. rewrite (get_lf_proj _ _ _ _ He Hlk). cbn [rbind l_parent].
    rewrite Hg. cbn [rbind n_children]. unfold set_leaf_cache.
    rewrite (wt_leaf_slot W p cs k l) by done. cbn [rbind]. unfold set_child_cache, vec_get.
    rewrite Hc. cbn [rbind ropt l_elem]. rewrite Ha. done. }
  rewrite Hred.
  assert (Hcs' : cs' = <[k := mkChild (c_arena c) (get_elem_cache e)]> cs) by (unfold cs'; by rewrite Ha).
  assert (S1 : SH t t1).
  { apply (setcs_SH t p (mkNode po s cs) cs'); [done|]. cbn. rewrite Hcs'. by rewrite (entry_arena _ _ _ _ Hc). }
  assert (Hk1 : kids t1 p = Some cs') by (unfold t1; rewrite kids_set_in; by rewrite decide_True).
  assert (Hk2 : forall q, q <> p -> kids t1 q = kids t q)
    by (intros q Hq; unfold t1; rewrite kids_set_in; by rewrite decide_False).
  destruct (ruc_int_gen u E t1 H lv p od) as (t' & Et & S' & El' & C' & V' & R').
  - done.
  - by eapply SH_WT.
  - by eapply SH_LK.
  - by rewrite Hk1.
  - pose proof (entry_CO L W p cs k c (ALeaf l) (mkNode po s cs) (get_elem_cache e)
      (fun a => a = ALeaf l \/ a = AInt p) Hg Hk Hc Ha) as X.
    cbn [n_parent n_slot] in X. rewrite <- Hcs' in X.
    eapply CO_mono; [|apply X; [done|done|by rewrite (act_leaf _ _ _ _ He)]].
    intros a [[[->| ->] ?]| ->]; done.
  - pose proof (entry_VA L p cs k c (mkNode po s cs) (get_elem_cache e) Hg Hk Hc V) as X.
    cbn [n_parent n_slot] in X. rewrite <- Hcs' in X. apply X. apply lw_get. by eapply va_el.
  - intros Hr. rewrite (sh_root S1) in Hr. intros Hne. rewrite (sh_chs S1), (sh_root S1) in Hne.
    change (root_cache t1) with (root_cache t). rewrite (R Hr Hne), (sh_root S1).
    symmetry. apply (setcs_act L t p (mkNode po s cs)); [done|congruence].
  - left. rewrite (sh_chs S1). intros E0. by rewrite E0 in Hck.
  - intros d -> HU. destruct (Hd d eq_refl HU) as [Hd1 Hd2]. rewrite (act_int L t1 p cs' Hk1). split; [exact Hd1|].
    intros q cs1 c1 Hq Hc1 Ha1. destruct (decide (q = p)) as [->|Hqp].
    + exfalso. rewrite Hk1 in Hq. injection Hq as <-.
      apply (self_not_entry (SH_WT _ _ _ _ _ S1 W) p cs' c1); done.
    + rewrite Hk2 in Hq by done. by eapply Hd2.
  - exists t'. split; [done|]. split; [by eapply SH_trans|]. split; [intros x; by rewrite El'|]. done.
Qed.
Lemma ruc_leaf_ok E t H lv l e p cs k c (od : option (Diff B)) :
  WT E t H lv -> LK t -> el t l = Some e -> kids t p = Some cs -> cs !! k = Some c -> c_arena c = ALeaf l ->
  CO t (fun a => a = ALeaf l \/ a = AInt p) -> VA t -> RC1 t p ->
  (forall d, od = Some d -> USE_DIFF (b := B) = true ->
     let v' := summ L (map c_cache (<[k := mkChild (ALeaf l) (get_elem_cache e)]> cs)) in
     (AInt p = root t -> drel L (root_cache t) d v') /\
     (forall q cs c, kids t q = Some cs -> c ∈ cs -> c_arena c = AInt p -> drel L (c_cache c) d v')) ->
  exists t', recursive_update_cache t (ALeaf l) (USE_DIFF (b := B)) od = Ok t' /\ SH t t'
    /\ (forall l, el t' l = el t l) /\ CO t' (fun _ => False) /\ VA t' /\ RC t'.
Proof. by apply ruc_leaf_gen. Qed.
End ruc.
