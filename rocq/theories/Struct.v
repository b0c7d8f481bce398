(** Struct.v — preservation of the structural invariant by the elementary reshapings. *)
From Verif Require Export Seq.

Section struct.
Context {B : BTreeTrait}.
Notation btree := (btree B).
Implicit Types (t : btree) (i j m p q k n : nat) (a b : aidx).

Lemma aint_bind t (ms : list nat) : map AInt ms ≫= achs t = ms ≫= chs t.
Proof. induction ms as [|m ms IH]; [done|]. cbn. by rewrite <- IH. Qed.
Lemma aint_lookup (ms : list nat) k a : map AInt ms !! k = Some a ->
  exists m, a = AInt m /\ ms !! k = Some m.
Proof.
  rewrite list_lookup_fmap. destruct (ms !! k) as [m|]; cbn; [|done]. intros [= <-]. eauto.
Qed.
Lemma gen_2 t a : gen t 2 a = achs t a ≫= achs t.
Proof. rewrite gen_S_r. cbn [gen]. by rewrite bind_singleton_id. Qed.

(** The children [ms] of [p] are replaced by [ms'] (old children or new nodes) having
    together the same grandchildren in the same order. *)
Section redistribute.
  Context {E E' : nat -> Prop} {t t' : btree} {H : nat} {lv : nat -> nat} {p : nat} {ms ms' : list nat}.
  Context (W : WT E t H lv).
  Context (Hp : is_Some (kids t p)) (Hlp : 0 < lv p).
  Context (Hms : chs t p = map AInt ms) (Hms' : chs t' p = map AInt ms') (Hp' : is_Some (kids t' p)).
  Context (Hroot : root t' = root t) (Hel : forall l, is_Some (el t' l) <-> is_Some (el t l)).
  Context (Han : anext (in_nodes t) <= anext (in_nodes t')).
  Context (Hal : anext (leaf_nodes t) <= anext (leaf_nodes t')).
  Context (Hnd : NoDup ms').
  Context (Hnew : forall m, m ∈ ms' -> is_Some (kids t' m) /\ (m ∈ ms \/ kids t m = None)
                     /\ m < anext (in_nodes t') /\ (chs t' m <> [] \/ E' m)).
  Context (Hdel : forall m, m ∈ ms -> m ∉ ms' -> kids t' m = None).
  Context (Hgrand : ms' ≫= chs t' = ms ≫= chs t).
  Context (Hother : forall j, j <> p -> j ∉ ms -> j ∉ ms' ->
            chs t' j = chs t j /\ (is_Some (kids t' j) <-> is_Some (kids t j))).
  Context (HE : forall j, j ∉ ms' -> E j -> E' j).
  Context (Hpe : AInt p = root t \/ ms' <> [] \/ E' p).

  Definition lv_re (j : nat) : nat := if decide (j ∈ ms') then pred (lv p) else lv j.

  Local Lemma re_ms_lv m : m ∈ ms -> is_Some (kids t m) /\ lv p = S (lv m).
  Proof.
    intros Hm. assert (AInt m ∈ chs t p) as Hin by (rewrite Hms; by apply elem_of_list_fmap_1).
    apply elem_of_list_lookup in Hin as [k Hk]. by apply (wt_ch W) in Hk.
  Qed.
  Local Lemma re_live_ms m : is_Some (kids t m) -> m ∈ ms' -> m ∈ ms.
  Proof. intros [? Hl] Hm. destruct (Hnew m Hm) as (_ & [?|?] & _); [done|congruence]. Qed.
  Local Lemma re_p_notin : p ∉ ms'.
  Proof. intros Hin. apply re_live_ms in Hin; [|done]. apply re_ms_lv in Hin as [_ ?]. lia. Qed.
  Local Lemma re_p_notin0 : p ∉ ms.
  Proof. intros Hin. apply re_ms_lv in Hin as [_ ?]. lia. Qed.
  Local Lemma re_lv_other j : is_Some (kids t j) -> lv_re j = lv j.
  Proof.
    intros Hj. unfold lv_re. case_decide as D; [|done].
    apply re_live_ms in D; [|done]. apply re_ms_lv in D as [_ ?]. lia.
  Qed.
  Local Lemma re_alv a : live t a -> alv lv_re a = alv lv a.
  Proof. destruct a as [l|m]; [done|]. intros Hm. cbn. by rewrite re_lv_other. Qed.
  Local Lemma re_kids_other j : is_Some (kids t j) -> j ∉ ms -> is_Some (kids t' j).
  Proof.
    intros Hj Hn. destruct (decide (j = p)) as [->|Hjp]; [done|].
    destruct (decide (j ∈ ms')) as [D|D].
    - apply re_live_ms in D; done.
    - by apply (Hother j).
  Qed.
  (** classification of the children relation of [t'] *)
  Local Lemma re_cases q k a : chs t' q !! k = Some a ->
    (q = p /\ exists m, a = AInt m /\ ms' !! k = Some m) \/
    (q ∈ ms' /\ exists m k', m ∈ ms /\ chs t m !! k' = Some a) \/
    (q <> p /\ q ∉ ms /\ q ∉ ms' /\ chs t q !! k = Some a).
  Proof.
    intros Hc. destruct (decide (q = p)) as [->|Hqp].
    - left. split; [done|]. rewrite Hms' in Hc. by apply aint_lookup.
    - right. destruct (decide (q ∈ ms')) as [D|D].
      + left. split; [done|].
        assert (a ∈ ms' ≫= chs t') as Hin.
        { apply elem_of_list_bind. exists q. split; [by eapply elem_of_list_lookup_2|done]. }
        rewrite Hgrand in Hin. apply elem_of_list_bind in Hin as (m & Ha & Hm).
        apply elem_of_list_lookup in Ha as [k' Hk']. eauto.
      + right. destruct (decide (q ∈ ms)) as [D2|D2].
        * exfalso. apply chs_lookup_live in Hc. rewrite (Hdel q) in Hc by done. by destruct Hc.
        * split; [done|]. split; [done|]. split; [done|]. by destruct (Hother q) as [<- _].
  Qed.
  Local Lemma re_grand_live m k a : m ∈ ms -> chs t m !! k = Some a ->
    live t a /\ live t' a /\ pred (lv p) = alv lv a /\ (forall g, a = AInt g -> g ∉ ms /\ g ∉ ms').
  Proof.
    intros Hm Hk. pose proof (wt_ch W _ _ _ Hk) as [Ha Hlv]. apply re_ms_lv in Hm as [_ Hlm].
    assert (Hg : forall g, a = AInt g -> g ∉ ms /\ g ∉ ms').
    { intros g ->. cbn in *. assert (g ∉ ms) by (intros D; apply re_ms_lv in D as [_ ?]; lia).
      split; [done|]. intros D. apply re_live_ms in D; done. }
    split; [done|]. split; [|split; [lia|done]].
    destruct a as [l|g]; cbn in *; [by apply Hel|].
    destruct (Hg g eq_refl). apply re_kids_other; done.
  Qed.

  Lemma wt_redistribute : WT E' t' H lv_re.
  Proof.
    constructor.
    - destruct (wt_root W) as (r & Hr & Hrl & Hrv). exists r. rewrite Hroot.
      assert (r ∉ ms).
      { intros D. assert (AInt r ∈ chs t p) as [k Hk]%elem_of_list_lookup
          by (rewrite Hms; by apply elem_of_list_fmap_1).
        rewrite <- Hr in Hk. by apply (wt_root_nochild W) in Hk. }
      split; [done|]. split; [by apply re_kids_other|]. by rewrite re_lv_other.
    - intros q k a Hc. apply re_cases in Hc as [(-> & m & -> & Hm)|[(Hq & m & k' & Hm & Hk')|(Hqp & Hq & Hq' & Hc)]].
      + apply elem_of_list_lookup_2 in Hm. destruct (Hnew m Hm) as (Hml & _). split; [done|].
        cbn. rewrite re_lv_other by done. unfold lv_re. rewrite decide_True by done. lia.
      + destruct (re_grand_live _ _ _ Hm Hk') as (Ha & Ha' & Hlv & _). split; [done|].
        rewrite re_alv by done. unfold lv_re. by rewrite decide_True.
      + pose proof (chs_lookup_live _ _ _ _ Hc) as Hql.
        pose proof (wt_ch W _ _ _ Hc) as [Ha Hlv]. rewrite re_alv, re_lv_other by done.
        split; [|done]. destruct a as [l|g]; cbn in *; [by apply Hel|].
        apply re_kids_other; [done|]. intros D.
        assert (AInt g ∈ chs t p) as [k2 Hk2]%elem_of_list_lookup
          by (rewrite Hms; by apply elem_of_list_fmap_1).
        destruct (wt_uniq W _ _ _ _ _ Hc Hk2) as [? _]. done.
    - intros q k q' k' a Hc1 Hc2.
      assert (Hndg : NoDup (ms' ≫= chs t')).
      { rewrite Hgrand, <- aint_bind, <- Hms. change (chs t p) with (achs t (AInt p)).
        rewrite <- gen_2. by apply (gen_nodup W). }
      pose proof Hc1 as R1. pose proof Hc2 as R2.
      apply re_cases in R1 as [(-> & m1 & -> & Hm1)|[(Hq1 & m1 & k1 & Hm1 & Hk1)|(Hqp1 & Hqn1 & Hq1' & Hd1)]];
      apply re_cases in R2 as [(-> & m2 & E2 & Hm2)|[(Hq2 & m2 & k2 & Hm2 & Hk2)|(Hqp2 & Hqn2 & Hq2' & Hd2)]].
      + injection E2 as ->. split; [done|]. exact (NoDup_lookup _ _ _ _ Hnd Hm1 Hm2).
      + exfalso. apply elem_of_list_lookup_2 in Hm1.
        destruct (re_grand_live _ _ _ Hm2 Hk2) as (_ & _ & _ & Hg). by destruct (Hg m1 eq_refl).
      + exfalso. apply elem_of_list_lookup_2 in Hm1.
        apply re_live_ms in Hm1; [|by apply (wt_ch W) in Hd2 as [? _]].
        assert (AInt m1 ∈ chs t p) as [k3 Hk3]%elem_of_list_lookup
          by (rewrite Hms; by apply elem_of_list_fmap_1).
        destruct (wt_uniq W _ _ _ _ _ Hd2 Hk3) as [? _]. done.
      + subst. exfalso. apply elem_of_list_lookup_2 in Hm2.
        destruct (re_grand_live _ _ _ Hm1 Hk1) as (_ & _ & _ & Hg). by destruct (Hg m2 eq_refl).
      + apply elem_of_list_lookup in Hq1 as [i1 Hi1]. apply elem_of_list_lookup in Hq2 as [i2 Hi2].
        destruct (NoDup_bind_inv _ _ _ _ _ _ _ _ _ Hndg Hi1 Hc1 Hi2 Hc2) as [-> ->].
        rewrite Hi1 in Hi2. by injection Hi2 as ->.
      + exfalso. destruct (wt_uniq W _ _ _ _ _ Hk1 Hd2) as [-> _]. done.
      + subst. exfalso. apply elem_of_list_lookup_2 in Hm2.
        apply re_live_ms in Hm2; [|by apply (wt_ch W) in Hd1 as [? _]].
        assert (AInt m2 ∈ chs t p) as [k3 Hk3]%elem_of_list_lookup
          by (rewrite Hms; by apply elem_of_list_fmap_1).
        destruct (wt_uniq W _ _ _ _ _ Hd1 Hk3) as [? _]. done.
      + exfalso. destruct (wt_uniq W _ _ _ _ _ Hk2 Hd1) as [-> _]. done.
      + apply (wt_uniq W _ _ _ _ _ Hd1 Hd2).
    - intros a Ha Hnr. rewrite Hroot in Hnr.
      assert ((exists g, a = AInt g /\ g ∈ ms') \/ (forall g, a = AInt g -> g ∉ ms')) as [(g & -> & D)|D].
      { destruct a as [l|g]; [by right|]. destruct (decide (g ∈ ms')); [left; eauto|].
        right. by intros ? [= <-]. }
      { apply elem_of_list_lookup in D as [k Hk].
        exists p, k. rewrite Hms', list_lookup_fmap, Hk. done. }
      assert (live t a /\ (forall g, a = AInt g -> g ∉ ms)) as [Ha0 Hgn].
      { destruct a as [l|g]; cbn in *; [split; [by apply Hel|done]|].
        specialize (D g eq_refl).
        assert (g ∉ ms) by (intros D2; rewrite (Hdel g) in Ha by done; by destruct Ha).
        split; [|by intros ? [= <-]]. destruct (decide (g = p)) as [->|Hgp]; [done|].
        by apply (Hother g). }
      destruct (wt_up W a Ha0 Hnr) as (q & k & Hk).
      destruct (decide (q = p)) as [->|Hqp].
      { exfalso. rewrite Hms in Hk. apply aint_lookup in Hk as (g & -> & Hg).
        apply elem_of_list_lookup_2 in Hg. by apply (Hgn g). }
      destruct (decide (q ∈ ms)) as [Dq|Dq].
      + assert (a ∈ ms ≫= chs t) as Hin.
        { apply elem_of_list_bind. exists q. split; [by eapply elem_of_list_lookup_2|done]. }
        rewrite <- Hgrand in Hin. apply elem_of_list_bind in Hin as (m & Hin & Hm).
        apply elem_of_list_lookup in Hin as [k' Hk']. eauto.
      + exists q, k. destruct (Hother q) as [-> _]; [done|done| |done].
        intros Dq'. apply re_live_ms in Dq'; [done|]. by eapply chs_lookup_live.
    - intros m Hm. unfold lv_re. case_decide as D.
      + pose proof (wt_lv W p Hp). lia.
      + destruct (decide (m = p)) as [->|Hmp]; [by apply (wt_lv W)|].
        destruct (decide (m ∈ ms)) as [D2|D2].
        * rewrite (Hdel m) in Hm by done. by destruct Hm.
        * apply (wt_lv W). by apply (Hother m).
    - intros m Hm Hnr HnE. rewrite Hroot in Hnr.
      destruct (decide (m ∈ ms')) as [D|D].
      { destruct (Hnew m D) as (_ & _ & _ & [?|?]); done. }
      destruct (decide (m = p)) as [->|Hmp].
      { destruct Hpe as [?|[?|?]]; [done| |done]. rewrite Hms'. by destruct ms'. }
      destruct (decide (m ∈ ms)) as [D2|D2].
      { rewrite (Hdel m) in Hm by done. by destruct Hm. }
      destruct (Hother m) as [-> Hl]; [done..|]. apply (wt_ne W); [by apply Hl|done|].
      intros He. apply HnE. by apply HE.
    - intros m Hm. destruct (decide (m ∈ ms')) as [D|D]; [by destruct (Hnew m D) as (_ & _ & ? & _)|].
      destruct (decide (m = p)) as [->|Hmp]; [pose proof (wt_fresh W _ Hp); lia|].
      destruct (decide (m ∈ ms)) as [D2|D2].
      { rewrite (Hdel m) in Hm by done. by destruct Hm. }
      assert (is_Some (kids t m)) as Hm0 by (by apply (Hother m)).
      pose proof (wt_fresh W _ Hm0). lia.
    - intros l Hl. apply Hel in Hl. pose proof (wt_lfresh W _ Hl). lia.
  Qed.

  Lemma gen_redistribute : gen t' (S H) (root t') = gen t (S H) (root t).
  Proof.
    pose proof (wt_lv W p Hp) as HpH.
    replace (S H) with ((H - lv p) + (2 + pred (lv p))) by lia.
    rewrite !(gen_app _ (H - lv p)).
    assert (Hhigh : forall j, is_Some (kids t j) -> lv j >= lv p -> j <> p -> chs t' j = chs t j).
    { intros j Hj Hk Hjp. assert (j ∉ ms) by (intros D; apply re_ms_lv in D as [_ ?]; lia).
      apply Hother; [done|done|]. intros D. by apply re_live_ms in D. }
    rewrite (gen_rows W t' (lv p) Hroot); [|intros j Hj Hk; apply Hhigh; [done|lia|intros ->; lia]|lia].
    apply bind_ext_in. intros a Ha.
    apply (gen_live W) in Ha as [Ha Hlv]; [|apply (root_live W)].
    rewrite (alv_root W) in Hlv.
    rewrite !(gen_app _ 2). rewrite !gen_2.
    assert (achs t' a ≫= achs t' = achs t a ≫= achs t) as ->.
    { destruct a as [l|j]; [done|]. cbn [achs alv] in *.
      destruct (decide (j = p)) as [->|Hjp].
      - by rewrite Hms, Hms', !aint_bind.
      - rewrite Hhigh by (done || lia). apply bind_ext_in. intros [l|g] Hb; [done|]. cbn.
        pose proof (wt_live_child W _ _ Hb) as Hg. cbn in Hg.
        assert (g ∉ ms).
        { intros D. apply elem_of_list_lookup in Hb as [k1 Hk1].
          assert (AInt g ∈ chs t p) as [k2 Hk2]%elem_of_list_lookup
            by (rewrite Hms; by apply elem_of_list_fmap_1).
          destruct (wt_uniq W _ _ _ _ _ Hk1 Hk2) as [? _]. done. }
        apply Hother; [|done|].
        + intros ->. apply elem_of_list_lookup in Hb as [k1 Hk1].
          apply (wt_ch W) in Hk1 as [_ Hk1]. cbn in Hk1. lia.
        + intros D. by apply re_live_ms in D. }
    apply bind_ext_in. intros b Hb.
    assert (b ∈ gen t 2 a) as Hb2 by by rewrite gen_2.
    apply (gen_live W) in Hb2 as [Hbl Hblv]; [|done].
    apply (gen_below W t' (pred (lv p))); [|done|lia].
    intros j Hj Hk. assert (j ∉ ms) by (intros D; apply re_ms_lv in D as [_ ?]; lia).
    apply Hother; [intros ->; lia|done|]. intros D. by apply re_live_ms in D.
  Qed.
End redistribute.

(** ** Edit of a leaf parent: its children become [L'] (leaves), the leaves that
    disappear are removed, new ones are fresh. *)
Section edit.
  Context {E E' : nat -> Prop} {t t' : btree} {H : nat} {lv : nat -> nat} {p : nat} {L' : list nat}.
  Context (W : WT E t H lv).
  Context (Hp : is_Some (kids t p)) (Hlp : lv p = 0).
  Context (HL' : chs t' p = map ALeaf L') (Hp' : is_Some (kids t' p)).
  Context (Hroot : root t' = root t).
  Context (Han : anext (in_nodes t) <= anext (in_nodes t')).
  Context (Hal : anext (leaf_nodes t) <= anext (leaf_nodes t')).
  Context (Hnd : NoDup L').
  Context (Hnew : forall l, l ∈ L' -> is_Some (el t' l) /\ (ALeaf l ∈ chs t p \/ el t l = None)
                     /\ l < anext (leaf_nodes t')).
  Context (Hdel : forall l, ALeaf l ∈ chs t p -> l ∉ L' -> el t' l = None).
  Context (Hel : forall l, ALeaf l ∉ chs t p -> l ∉ L' -> is_Some (el t' l) <-> is_Some (el t l)).
  Context (Hother : forall j, j <> p -> chs t' j = chs t j /\ (is_Some (kids t' j) <-> is_Some (kids t j))).
  Context (HE : forall j, j <> p -> E j -> E' j).
  Context (Hpe : AInt p = root t \/ L' <> [] \/ E' p).

  Lemma wt_edit : WT E' t' H lv.
  Proof.
    assert (Hk : forall j, is_Some (kids t' j) <-> is_Some (kids t j)).
    { intros j. destruct (decide (j = p)) as [->|Hj]; [done|]. by apply Hother. }
    assert (Hlive : forall l, ALeaf l ∉ chs t p -> is_Some (el t l) -> is_Some (el t' l)).
    { intros l Hl He. destruct (decide (l ∈ L')) as [D|D]; [by apply Hnew|]. by apply Hel. }
    constructor.
    - destruct (wt_root W) as (r & Hr & Hrl & Hrv). exists r. rewrite Hroot.
      split; [done|]. split; [by apply Hk|done].
    - intros q k a Hc. destruct (decide (q = p)) as [->|Hq].
      + rewrite HL', list_lookup_fmap in Hc. destruct (L' !! k) as [l|] eqn:El; [|done].
        injection Hc as <-. apply elem_of_list_lookup_2 in El.
        cbn. split; [by apply Hnew|done].
      + destruct (Hother q Hq) as [E0 _]. rewrite E0 in Hc. pose proof (wt_ch W _ _ _ Hc) as [Ha Hlv].
        split; [|done]. destruct a as [l|g]; cbn in *; [|by apply Hk].
        apply Hlive; [|done]. intros [k' Hk']%elem_of_list_lookup.
        by destruct (wt_uniq W _ _ _ _ _ Hc Hk').
    - intros q k q' k' a Hc1 Hc2.
      destruct (decide (q = p)) as [->|Hq], (decide (q' = p)) as [->|Hq'].
      + split; [done|]. rewrite HL' in Hc1, Hc2.
        refine (NoDup_lookup _ _ _ _ _ Hc1 Hc2).
        by apply NoDup_fmap; [intros ? ? [= ->]|].
      + exfalso. rewrite HL', list_lookup_fmap in Hc1. destruct (L' !! k) as [l|] eqn:El; [|done].
        injection Hc1 as <-. apply elem_of_list_lookup_2 in El.
        destruct (Hother q' Hq') as [E0 _]. rewrite E0 in Hc2.
        destruct (Hnew l El) as (_ & [Hin|Hn] & _).
        * apply elem_of_list_lookup in Hin as [k2 Hk2]. by destruct (wt_uniq W _ _ _ _ _ Hc2 Hk2).
        * apply (wt_ch W) in Hc2 as [[? Hc2] _]. congruence.
      + exfalso. rewrite HL', list_lookup_fmap in Hc2. destruct (L' !! k') as [l|] eqn:El; [|done].
        injection Hc2 as <-. apply elem_of_list_lookup_2 in El.
        destruct (Hother q Hq) as [E0 _]. rewrite E0 in Hc1.
        destruct (Hnew l El) as (_ & [Hin|Hn] & _).
        * apply elem_of_list_lookup in Hin as [k2 Hk2]. by destruct (wt_uniq W _ _ _ _ _ Hc1 Hk2).
        * apply (wt_ch W) in Hc1 as [[? Hc1] _]. congruence.
      + destruct (Hother q Hq) as [E1 _], (Hother q' Hq') as [E2 _]. rewrite E1 in Hc1. rewrite E2 in Hc2.
        apply (wt_uniq W _ _ _ _ _ Hc1 Hc2).
    - intros a Ha Hnr. rewrite Hroot in Hnr.
      assert ((exists l k, a = ALeaf l /\ L' !! k = Some l) \/ (live t a /\ a ∉ chs t p)) as
        [(l & k & -> & Hl)|[Ha0 Hna]].
      { destruct a as [l|g].
        - destruct (decide (l ∈ L')) as [[k Hl]%elem_of_list_lookup|D]; [left; eauto|].
          right. cbn in *. assert (ALeaf l ∉ chs t p).
          { intros D2. rewrite (Hdel l) in Ha by done. by destruct Ha. }
          split; [by apply Hel|done].
        - right. cbn in *. split; [by apply Hk|]. intros D.
          by destruct (wt_leaf_child W _ _ D Hlp). }
      + exists p, k. by rewrite HL', list_lookup_fmap, Hl.
      + destruct (wt_up W a Ha0 Hnr) as (q & k & Hq). exists q, k.
        destruct (Hother q) as [-> _]; [|done]. intros ->. apply Hna. by eapply elem_of_list_lookup_2.
    - intros m Hm. apply (wt_lv W). by apply Hk.
    - intros m Hm Hnr HnE. rewrite Hroot in Hnr. destruct (decide (m = p)) as [->|Hmp].
      + destruct Hpe as [?|[?|?]]; [done| |done]. rewrite HL'. by destruct L'.
      + destruct (Hother m Hmp) as [-> ?]. apply (wt_ne W); [by apply Hk|done|].
        intros He. by apply HnE, HE.
    - intros m Hm. apply Hk in Hm. pose proof (wt_fresh W _ Hm). lia.
    - intros l Hl. destruct (decide (l ∈ L')) as [D|D]; [by apply Hnew|].
      destruct (decide (ALeaf l ∈ chs t p)) as [D2|D2].
      + rewrite (Hdel l) in Hl by done. by destruct Hl.
      + apply Hel in Hl; [|done..]. pose proof (wt_lfresh W _ Hl). lia.
  Qed.
End edit.
End struct.
