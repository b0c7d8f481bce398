(** Edit.v — editing the children of one leaf parent: consequences for all invariants and
    for the sequence of elements, and the common tail of the inserting operations
    (propagate the cache upwards, split if the node became full). *)
From Verif Require Export Split.

Section edit.
Context {B : BTreeTrait} (L : Lawful B).
Notation btree := (btree B).
Notation child := (child B).
Notation CO := (CO L).
Notation RC := (RC L).
Notation VA := (VA L).
Notation act := (act L).
Notation OK := (OK L).
Implicit Types (t : btree) (i j m p q k s : nat) (a b : aidx) (c : child) (cs : list child).

(** the (id, element) pairs of a row of leaves *)
Definition pel t (r : list aidx) : list (nat * Elem B) :=
  omap (fun a => match a with ALeaf l => (fun e => (l, e)) <$> el t l | AInt _ => None end) r.
Definition cont t (H : nat) : list (nat * Elem B) := pel t (gen t (S H) (root t)).

Lemma pel_app t (r1 r2 : list aidx) : pel t (r1 ++ r2) = pel t r1 ++ pel t r2.
Proof. apply omap_app. Qed.
Lemma pel_ext t t' (r : list aidx) : (forall l, ALeaf l ∈ r -> el t' l = el t l) -> pel t' r = pel t r.
Proof.
  intros He. induction r as [|a r IH]; [done|]. cbn.
  assert (Hr : forall l, ALeaf l ∈ r -> el t' l = el t l) by (intros; apply He; by right).
  specialize (IH Hr). unfold pel in IH. destruct a as [l|m]; [|done].
  rewrite He by left. destruct (el t l); cbn; [|done]. by f_equal.
Qed.
Lemma pel_cons t l e (r : list aidx) : el t l = Some e -> pel t (ALeaf l :: r) = (l, e) :: pel t r.
Proof. intros He. unfold pel. cbn. by rewrite He. Qed.
Lemma elems_cont t H lv : WT NoE t H lv -> elems t = cont t H.
Proof.
  intros W. unfold cont. rewrite <- (leaves_gen W). unfold elems, pel.
  induction (leaves t) as [|l r IH]; [done|]. cbn. rewrite IH. done.
Qed.
Lemma cont_same t t' H H' : gen t' (S H') (root t') = gen t (S H) (root t) -> (forall l, el t' l = el t l) ->
  cont t' H' = cont t H.
Proof. intros Hg He. unfold cont. rewrite Hg. apply pel_ext. intros; apply He. Qed.

Record ED t t' p cs cs' : Prop := {
  ed_p : kids t p = Some cs;
  ed_p' : kids t' p = Some cs';
  ed_leaf : forall c, c ∈ cs' -> exists l, c_arena c = ALeaf l /\ is_Some (el t' l) /\
     (ALeaf l ∈ map c_arena cs \/ el t l = None) /\ l < anext (leaf_nodes t') /\ llnk t' l = Some p;
  ed_nd : NoDup (map c_arena cs');
  ed_del : forall l, ALeaf l ∈ map c_arena cs -> ALeaf l ∉ map c_arena cs' -> el t' l = None;
  ed_el : forall l, ALeaf l ∉ map c_arena cs -> ALeaf l ∉ map c_arena cs' -> el t' l = el t l /\ llnk t' l = llnk t l;
  ed_other : forall j, j <> p -> kids t' j = kids t j;
  ed_lnk : forall j, lnk t' j = lnk t j;
  ed_root : root t' = root t;
  ed_rc : root_cache t' = root_cache t;
  ed_an : anext (in_nodes t) <= anext (in_nodes t');
  ed_al : anext (leaf_nodes t) <= anext (leaf_nodes t');
}.

Section ed.
  Context {E : nat -> Prop} {t t' : btree} {H : nat} {lv : nat -> nat} {p : nat} {cs cs' : list child}.
  Context (W : WT E t H lv) (Hlp : lv p = 0) (D : ED t t' p cs cs').
  Local Lemma ed_chs : chs t p = map c_arena cs. Proof. exact (chs_kids _ _ _ (ed_p _ _ _ _ _ D)). Qed.
  Local Lemma ed_chs' : chs t' p = map c_arena cs'. Proof. exact (chs_kids _ _ _ (ed_p' _ _ _ _ _ D)). Qed.
  Local Lemma ed_L : map c_arena cs' = map ALeaf (map raw (map c_arena cs')).
  Proof.
    assert (G : forall c, c ∈ cs' -> exists l, c_arena c = ALeaf l).
    { intros c Hc. destruct (ed_leaf _ _ _ _ _ D c Hc) as (l & ? & _). eauto. }
    clear -G. induction cs' as [|c r IH]; [done|]. cbn. f_equal.
    - by destruct (G c) as [l ->]; [left|].
    - apply IH. intros c' Hc'. apply G. by right.
  Qed.
  Local Lemma ed_in l : l ∈ map raw (map c_arena cs') <-> ALeaf l ∈ map c_arena cs'.
  Proof.
    rewrite ed_L at 2. split; intros Hl; [by apply elem_of_list_fmap_1|].
    by apply elem_of_list_fmap in Hl as (? & [= ->] & ?).
  Qed.
  Lemma ed_WT : WT (fun m => E m \/ (cs' = [] /\ m = p)) t' H lv.
  Proof.
    pose proof ed_chs as ed_chs. pose proof ed_chs' as ed_chs'. destruct D. refine (wt_edit (L' := map raw (map c_arena cs')) W _ Hlp _ _ _ _ _ _ _ _ _ _ _ _); try done.
    - rewrite ed_chs'. apply ed_L.
    - rewrite ed_L in ed_nd0. by apply NoDup_fmap_1 in ed_nd0.
    - intros l Hl. apply ed_in in Hl. apply elem_of_list_fmap in Hl as (c & Ec & Hc).
      destruct (ed_leaf0 c Hc) as (l' & El' & ? & ? & ? & _). rewrite <- Ec in El'. injection El' as <-.
      rewrite ed_chs. done.
    - intros l. rewrite ed_chs, ed_in. apply ed_del0.
    - intros l. rewrite ed_chs, ed_in. intros H1 H2. by destruct (ed_el0 l H1 H2) as [-> _].
    - intros j Hj. unfold chs. by rewrite ed_other0.
    - tauto.
    - destruct cs'; [right; right; right; done|right; left; done].
  Qed.
  Lemma ed_WT_ne : cs' <> [] -> WT E t' H lv.
  Proof. intros Hne. eapply WT_shrink; [|exact ed_WT]. intros m _ _ [?|[? _]] ?; done. Qed.
  Lemma ed_LK : LK t -> LK t'.
  Proof.
    intros K. pose proof ed_chs as ed_chs. pose proof ed_chs' as ed_chs'. destruct D. constructor.
    - intros q k a Hc. destruct (decide (q = p)) as [-> |Hq].
      + rewrite ed_chs', list_lookup_fmap in Hc. destruct (cs' !! k) as [c|] eqn:Ec; [|done]. cbn in Hc. injection Hc as <-.
        destruct (ed_leaf0 c) as (l & -> & _ & _ & _ & Hl); [by eapply elem_of_list_lookup_2|]. done.
      + unfold chs in Hc. rewrite ed_other0 in Hc by done. pose proof (lk_ch K _ _ _ Hc) as Hl.
        destruct a as [l|m]; cbn in *; [|by rewrite ed_lnk0].
        assert (ALeaf l ∉ map c_arena cs) as Hn.
        { rewrite <- ed_chs. intros [k' Hk']%elem_of_list_lookup. by destruct (wt_uniq W _ _ _ _ _ Hc Hk'). }
        destruct (ed_el0 l) as [_ ->]; try done.
        intros Hin. apply elem_of_list_fmap in Hin as (c & Ec & Hcin).
        destruct (ed_leaf0 c Hcin) as (l' & El' & _ & [?|Hnone] & _); rewrite <- Ec in El'; injection El' as <-; [done|].
        apply (wt_ch W) in Hc as [Hc _]. cbn in Hc. rewrite Hnone in Hc. by destruct Hc.
    - rewrite ed_root0. intros r Hr. rewrite ed_lnk0. by apply (lk_root K).
  Qed.
  Lemma ed_gen : exists X Y, gen t (S H) (root t) = X ++ map c_arena cs ++ Y /\
              gen t' (S H) (root t') = X ++ map c_arena cs' ++ Y /\
              (forall l, ALeaf l ∈ X \/ ALeaf l ∈ Y -> el t' l = el t l).
  Proof.
    destruct (gen_edit W t' p (ed_root _ _ _ _ _ D)) as (X & Y & G1 & G2).
    - rewrite (ed_p _ _ _ _ _ D). eauto.
    - done.
    - intros j _ Hj. unfold chs. by rewrite (ed_other _ _ _ _ _ D).
    - exists X, Y. rewrite <- ed_chs, <- ed_chs'. split; [done|]. split; [done|].
      intros l Hl. assert (live t (ALeaf l)) as Hlive.
      { apply (gen_live W (S H) (root t)); [apply (root_live W)|]. rewrite G1, !elem_of_app. tauto. }
      assert (ALeaf l ∉ map c_arena cs) as Hn.
      { rewrite <- ed_chs. intros Hin.
        pose proof (gen_nodup W (S H) (root t) (root_live W)) as Hnd. rewrite G1 in Hnd.
        apply NoDup_app in Hnd as (_ & H1 & Hnd). apply NoDup_app in Hnd as (_ & H2 & _).
        destruct Hl as [Hl|Hl]; [apply (H1 _ Hl); apply elem_of_app; by left|by apply (H2 _ Hin)]. }
      apply (ed_el _ _ _ _ _ D); [done|]. intros Hin. apply elem_of_list_fmap in Hin as (c & Ec & Hcin).
      destruct (ed_leaf _ _ _ _ _ D c Hcin) as (l' & El' & _ & [?|Hnone] & _); rewrite <- Ec in El'; injection El' as <-; [done|].
      cbn in Hlive. rewrite Hnone in Hlive. by destruct Hlive.
  Qed.
  (** the sequence of elements changes at [p] only *)
  Lemma ed_cont : exists X Y, cont t H = X ++ pel t (map c_arena cs) ++ Y /\
              cont t' H = X ++ pel t' (map c_arena cs') ++ Y.
  Proof.
    destruct ed_gen as (X & Y & G1 & G2 & G3). exists (pel t X), (pel t Y). unfold cont.
    rewrite G1, G2, !pel_app. rewrite (pel_ext t t' X), (pel_ext t t' Y); [done| |]; intros; apply G3; auto.
  Qed.
  Lemma ed_act a : a <> AInt p -> (forall l, a = ALeaf l -> a ∉ map c_arena cs /\ a ∉ map c_arena cs') -> act t' a = act t a.
  Proof.
    intros Ha Hl. destruct a as [l|m]; unfold Law.act.
    - destruct (Hl l eq_refl). by destruct (ed_el _ _ _ _ _ D l) as [-> _].
    - rewrite (ed_other _ _ _ _ _ D); [done|congruence].
  Qed.
  Lemma ed_not_new l q k : chs t q !! k = Some (ALeaf l) -> q <> p -> ALeaf l ∉ map c_arena cs /\ ALeaf l ∉ map c_arena cs'.
  Proof.
    intros Hc Hq. assert (ALeaf l ∉ map c_arena cs) as Hn.
    { rewrite <- ed_chs. intros [k' Hk']%elem_of_list_lookup. by destruct (wt_uniq W _ _ _ _ _ Hc Hk'). }
    split; [done|]. intros Hin. apply elem_of_list_fmap in Hin as (c & Ec & Hcin).
    destruct (ed_leaf _ _ _ _ _ D c Hcin) as (l' & El' & _ & [?|Hnone] & _); rewrite <- Ec in El'; injection El' as <-; [done|].
    apply (wt_ch W) in Hc as [Hc _]. cbn in Hc. rewrite Hnone in Hc. by destruct Hc.
  Qed.
  Lemma ed_CO (D0 D1 : aidx -> Prop) : CO t D0 -> (forall c, c ∈ cs' -> ~ D1 (c_arena c) -> c_cache c = act t' (c_arena c)) ->
    CO t' (fun a => D0 a \/ D1 a \/ a = AInt p).
  Proof.
    intros C Hc' q cs1 c Hk Hc Hd. destruct (decide (q = p)) as [-> |Hq].
    - rewrite (ed_p' _ _ _ _ _ D) in Hk. injection Hk as <-. apply Hc'; tauto.
    - rewrite (ed_other _ _ _ _ _ D) in Hk by done. rewrite (C q cs1 c Hk Hc) by tauto.
      symmetry. apply ed_act; [tauto|]. intros l El. rewrite El.
      apply elem_of_list_lookup in Hc as [k Hc].
      apply (ed_not_new l q k); [|done]. by rewrite (chs_kids _ _ _ Hk), list_lookup_fmap, Hc, <- El.
  Qed.
  Lemma ed_VA : VA t -> (forall c l e, c ∈ cs' -> c_arena c = ALeaf l -> el t' l = Some e -> evalid L e) ->
    (forall c, c ∈ cs' -> cvalid L (c_cache c)) -> VA t'.
  Proof.
    intros V Ve Vc. constructor.
    - intros l e He. destruct (decide (ALeaf l ∈ map c_arena cs')) as [Hin|Hin].
      { apply elem_of_list_fmap in Hin as (c & Ec & Hcin). by eapply (Ve c l e). }
      destruct (decide (ALeaf l ∈ map c_arena cs)) as [Hin2|Hin2].
      { by rewrite (ed_del _ _ _ _ _ D) in He. }
      destruct (ed_el _ _ _ _ _ D l) as [Hx _]; [done|done|]. rewrite Hx in He. by eapply (va_el _ _ V).
    - intros q cs1 c Hk Hc. destruct (decide (q = p)) as [-> |Hq].
      + rewrite (ed_p' _ _ _ _ _ D) in Hk. injection Hk as <-. by apply Vc.
      + rewrite (ed_other _ _ _ _ _ D) in Hk by done. by eapply (va_ch _ _ V).
  Qed.
  Lemma ed_RC1 : RC t -> RC1 L t' p.
  Proof.
    intros R Hr Hne. rewrite (ed_root _ _ _ _ _ D) in Hr |- *. rewrite (ed_rc _ _ _ _ _ D).
    rewrite ed_act; [|congruence|].
    - apply R. destruct Hne as [Hne|?]; [left|by right]. intros Hx. apply Hne. rewrite (ed_root _ _ _ _ _ D).
      unfold chs. rewrite (ed_other _ _ _ _ _ D); [done|]. intros Hy. apply Hr. by rewrite <- Hy, <- (wt_root_id W).
    - intros l El. pose proof (wt_root_id W) as Hx. rewrite El in Hx. done.
  Qed.
  Lemma ed_SZ n : (forall j, length (chs t j) <= n) -> forall j, j <> p -> length (chs t' j) <= n.
  Proof. intros Z j Hj. unfold chs. rewrite (ed_other _ _ _ _ _ D) by done. apply Z. Qed.
End ed.

(** ** Common tail of the inserting operations *)
Lemma SP_SH t t' : SH t t' -> forall m, SP t m -> SP t' m.
Proof. intros S. apply SP_ext; [apply (sh_root S)|]. intros j m _. by rewrite (sh_chs S). Qed.
Lemma MD_SH w t t' : SH t t' -> MDw w t -> MDw w t'.
Proof.
  intros S M. constructor.
  - intros m Hm Hr. apply (big_mono w t); [by apply SP_SH|by rewrite (sh_chs S)|].
    apply (md_in _ _ M); [by apply (SH_kids _ _ S)|]. by rewrite <- (sh_root S).
  - intros m. rewrite (sh_root S), (sh_chs S). apply (md_root _ _ M).
Qed.
Lemma SH_cont t t' H : SH t t' -> (forall l, el t' l = el t l) -> cont t' H = cont t H.
Proof. intros S He. apply cont_same; [|done]. rewrite (sh_root S). apply (SH_gen _ _ S). Qed.

Lemma tail_ok t H lv p (full : bool) :
  WT NoE t H lv -> LK t -> VA t -> CO t (fun _ => False) -> RC t -> is_Some (kids t p) ->
  (forall j, j <> p -> length (chs t j) <= 11) ->
  (full = true -> 2 <= length (chs t p) <= 12) -> (full = false -> length (chs t p) <= 11) ->
  exists t' H' lv', (if full then split t (AInt p) else Ok t) = Ok t' /\ OK t' H' lv' /\ cont t' H' = cont t H /\
    (forall x, el t' x = el t x) /\ (forall w : bool, MDw w t -> (full = true -> (if w then 10 else 12) <= length (chs t p)) -> MDw w t') /\
    anext (leaf_nodes t) <= anext (leaf_nodes t').
Proof.
  intros W K V C R Hp Hsz Hf1 Hf2. destruct full.
  - destruct (split_ok L (H - lv p) t H lv p (fuel t) W K V C R Hp (Hf1 eq_refl) Hsz eq_refl)
      as (t' & H' & lv' & Es & O & Hg & He & M & Al & _).
    { pose proof (wt_depth_bound W p Hp). unfold fuel. lia. }
    exists t', H', lv'. split_and!; try done; [by apply cont_same|]. intros w HM H12. apply M; auto.
  - exists t, H, lv. split; [done|]. split; [|done]. constructor; try done.
    intros j. destruct (decide (j = p)) as [-> |Hj]; auto.
Qed.

Lemma finish_leaf t H lv l e p cs k c (od : option (Diff B)) (full : bool) :
  WT NoE t H lv -> LK t -> el t l = Some e -> kids t p = Some cs -> cs !! k = Some c -> c_arena c = ALeaf l ->
  CO t (fun a => a = ALeaf l \/ a = AInt p) -> VA t -> RC1 L t p ->
  (forall d, od = Some d -> USE_DIFF (b := B) = true ->
     let v' := summ L (map c_cache (<[k := mkChild (ALeaf l) (get_elem_cache e)]> cs)) in
     (AInt p = root t -> drel L (root_cache t) d v') /\
     (forall q cs c, kids t q = Some cs -> c ∈ cs -> c_arena c = AInt p -> drel L (c_cache c) d v')) ->
  (forall j, j <> p -> length (chs t j) <= 11) ->
  (full = true -> 2 <= length cs <= 12) -> (full = false -> length cs <= 11) ->
  exists t' H' lv',
    (let? t := recursive_update_cache t (ALeaf l) (USE_DIFF (b := B)) od in
     if full then split t (AInt p) else Ok t) = Ok t' /\ OK t' H' lv' /\ cont t' H' = cont t H /\
    (forall x, el t' x = el t x) /\ (forall w : bool, MDw w t -> (full = true -> (if w then 10 else 12) <= length cs) -> MDw w t') /\
    anext (leaf_nodes t) <= anext (leaf_nodes t').
Proof.
  intros W K He Hk Hc Ha C V R1 Hd Hsz Hf1 Hf2.
  destruct (ruc_leaf_ok L NoE t H lv l e p cs k c od W K He Hk Hc Ha C V R1 Hd) as (t1 & E1 & S1 & El1 & C1 & V1 & R).
  rewrite E1. cbn [rbind].
  assert (Hlen : length (chs t1 p) = length cs) by (by rewrite (sh_chs S1), (chs_kids _ _ _ Hk), map_length).
  destruct (tail_ok t1 H lv p full) as (t' & H' & lv' & Es & O & Hg & He' & M & Al); try done.
  - by eapply SH_WT.
  - by eapply SH_LK.
  - apply (SH_kids _ _ S1). eauto.
  - intros j Hj. rewrite (sh_chs S1). auto.
  - by rewrite Hlen.
  - by rewrite Hlen.
  - exists t', H', lv'. split; [done|]. split; [done|]. split; [rewrite Hg; by apply SH_cont|]. split; [|split].
    + intros x. by rewrite He'.
    + intros w HM H12. apply M; [by eapply MD_SH|]. by rewrite Hlen.
    + by rewrite <- (sh_al S1).
Qed.
Lemma finish_int t H lv p (od : option (Diff B)) (full : bool) :
  WT NoE t H lv -> LK t -> is_Some (kids t p) -> chs t p <> [] ->
  CO t (fun a => a = AInt p) -> VA t -> RC1 L t p ->
  (forall d, od = Some d -> USE_DIFF (b := B) = true ->
     (AInt p = root t -> drel L (root_cache t) d (act t (AInt p))) /\
     (forall q cs c, kids t q = Some cs -> c ∈ cs -> c_arena c = AInt p -> drel L (c_cache c) d (act t (AInt p)))) ->
  (forall j, j <> p -> length (chs t j) <= 11) ->
  (full = true -> 2 <= length (chs t p) <= 12) -> (full = false -> length (chs t p) <= 11) ->
  exists t' H' lv',
    (let? t := recursive_update_cache t (AInt p) (USE_DIFF (b := B)) od in
     if full then split t (AInt p) else Ok t) = Ok t' /\ OK t' H' lv' /\ cont t' H' = cont t H /\
    (forall x, el t' x = el t x) /\ (forall w : bool, MDw w t -> (full = true -> (if w then 10 else 12) <= length (chs t p)) -> MDw w t') /\
    anext (leaf_nodes t) <= anext (leaf_nodes t').
Proof.
  intros W K Hp Hne C V R1 Hd Hsz Hf1 Hf2.
  destruct (ruc_int_ok L NoE t H lv p od W K Hp C V R1 (or_introl Hne) Hd) as (t1 & E1 & S1 & El1 & C1 & V1 & R).
  rewrite E1. cbn [rbind].
  destruct (tail_ok t1 H lv p full) as (t' & H' & lv' & Es & O & Hg & He' & M & Al); try done.
  - by eapply SH_WT.
  - by eapply SH_LK.
  - by apply (SH_kids _ _ S1).
  - intros j Hj. rewrite (sh_chs S1). auto.
  - by rewrite (sh_chs S1).
  - by rewrite (sh_chs S1).
  - exists t', H', lv'. split; [done|]. split; [done|]. split; [rewrite Hg; by apply SH_cont|]. split; [|split].
    + intros x. by rewrite He'.
    + intros w HM H12. apply M; [by eapply MD_SH|]. by rewrite (sh_chs S1).
    + by rewrite <- (sh_al S1).
Qed.
End edit.
