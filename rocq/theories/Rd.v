(** Rd.v — redistribution: some internal children [old] of [p] are replaced by [new] ones
    holding together the same grandchildren in the same order.  Splitting, borrowing,
    merging and dropping empty nodes are all of this form. *)
From Verif Require Export Ruc.

Section rd.
Context {B : BTreeTrait} (L : Lawful B).
Notation btree := (btree B).
Notation child := (child B).
Notation CO := (CO L).
Notation RC := (RC L).
Notation VA := (VA L).
Notation act := (act L).
Implicit Types (t : btree) (i j m p q k s : nat) (a b : aidx) (c : child) (cs : list child).

Definition kidl t c : list child :=
  match c_arena c with AInt m => default [] (kids t m) | ALeaf _ => [] end.

Lemma WT_shrink (E E' : nat -> Prop) t H lv :
  (forall m, is_Some (kids t m) -> AInt m <> root t -> E m -> ~ E' m -> chs t m <> []) -> WT E t H lv -> WT E' t H lv.
Proof.
  intros HE W. constructor; try apply W. intros m Hm Hr Hn He.
  apply (wt_ne W m); [done|done| |done]. intros HEm. by apply (HE m Hm Hr HEm).
Qed.

Record RD t t' p (l old new r : list child) : Prop := {
  rd_p : kids t p = Some (l ++ old ++ r);
  rd_p' : kids t' p = Some (l ++ new ++ r);
  rd_new : forall c, c ∈ new -> exists m K, c_arena c = AInt m /\ kids t' m = Some K /\ K <> [] /\
    c_cache c = summ L (map c_cache K) /\ (AInt m ∈ map c_arena old \/ kids t m = None) /\
    m < anext (in_nodes t');
  rd_nd : NoDup (map c_arena new);
  rd_del : forall m, AInt m ∈ map c_arena old -> AInt m ∉ map c_arena new -> kids t' m = None;
  rd_grand : new ≫= kidl t' = old ≫= kidl t;
  rd_other : forall j, j <> p -> AInt j ∉ map c_arena old -> AInt j ∉ map c_arena new -> kids t' j = kids t j;
  rd_el : forall x, el t' x = el t x;
  rd_root : root t' = root t;
  rd_rc : root_cache t' = root_cache t;
  rd_an : anext (in_nodes t) <= anext (in_nodes t');
  rd_al : anext (leaf_nodes t) <= anext (leaf_nodes t');
  rd_lnk_p : forall k a, chs t' p !! k = Some a -> linked t' a p k;
  rd_lnk_new : forall m k a, AInt m ∈ map c_arena new -> chs t' m !! k = Some a -> linked t' a m k;
  rd_lnk_other : forall a, live t' a -> a ∉ chs t' p ->
    (forall m, AInt m ∈ map c_arena new -> a ∉ chs t' m) -> lnk_same t t' a;
}.

Definition unA (a : aidx) : nat := match a with AInt m => m | ALeaf l => l end.

Lemma kidl_chs t (cs : list child) : map c_arena (cs ≫= kidl t) = map c_arena cs ≫= achs t.
Proof.
  induction cs as [|c cs IH]; [done|]. cbn. rewrite map_app. f_equal; [|exact IH].
  unfold kidl. destruct (c_arena c) as [x|m]; [done|]. cbn. unfold chs. by destruct (kids t m).
Qed.

Section rd_facts.
  Context {E : nat -> Prop} {t t' : btree} {H : nat} {lv : nat -> nat} {p : nat} {l old new r : list child}.
  Context (W : WT E t H lv) (Hlp : 0 < lv p) (R : RD t t' p l old new r).

  Lemma rd_chs : chs t p = map c_arena l ++ map c_arena old ++ map c_arena r.
  Proof. rewrite (chs_kids _ _ _ (rd_p _ _ _ _ _ _ _ R)). by rewrite !map_app. Qed.
  Lemma rd_chs' : chs t' p = map c_arena l ++ map c_arena new ++ map c_arena r.
  Proof. rewrite (chs_kids _ _ _ (rd_p' _ _ _ _ _ _ _ R)). by rewrite !map_app. Qed.
  Lemma rd_old_in x : x ∈ map c_arena old -> x ∈ chs t p.
  Proof. intros Hx. rewrite rd_chs, !elem_of_app. tauto. Qed.
  Lemma rd_nodup : NoDup (map c_arena l ++ map c_arena old ++ map c_arena r).
  Proof. rewrite <- rd_chs. apply (wt_nodup W). Qed.
  Lemma rd_old_int a : a ∈ map c_arena old -> exists m, a = AInt m /\ lv p = S (lv m) /\ is_Some (kids t m).
  Proof.
    intros Ha. assert (a ∈ chs t p) as Hin by (by apply rd_old_in).
    destruct (wt_int_child W _ _ Hin Hlp) as (m & -> & Hm). exists m. split; [done|]. split; [done|].
    by apply (wt_live_child W _ _ Hin).
  Qed.
  Lemma rd_lr_int a : a ∈ map c_arena l \/ a ∈ map c_arena r -> exists m, a = AInt m /\ lv p = S (lv m) /\ is_Some (kids t m).
  Proof.
    intros Ha. assert (a ∈ chs t p) as Hin by (rewrite rd_chs; set_solver).
    destruct (wt_int_child W _ _ Hin Hlp) as (m & -> & Hm). exists m. split; [done|]. split; [done|].
    by apply (wt_live_child W _ _ Hin).
  Qed.
  Lemma rd_new_int a : a ∈ map c_arena new -> exists m, a = AInt m.
  Proof. intros (c & -> & Hc)%elem_of_list_fmap. destruct (rd_new _ _ _ _ _ _ _ R c Hc) as (m & K & -> & _). eauto. Qed.
  Lemma rd_new_old m : AInt m ∈ map c_arena new -> is_Some (kids t m) -> AInt m ∈ map c_arena old.
  Proof.
    intros (c & Ec & Hc)%elem_of_list_fmap [? Hm]. destruct (rd_new _ _ _ _ _ _ _ R c Hc) as (m' & K & Ea & _ & _ & _ & [Ho|Ho] & _).
    - congruence.
    - assert (m' = m) by congruence. subst. congruence.
  Qed.
  Lemma rd_lr_notnew m : AInt m ∈ map c_arena l \/ AInt m ∈ map c_arena r ->
    AInt m ∉ map c_arena old /\ AInt m ∉ map c_arena new /\ m <> p.
  Proof.
    intros Hm. destruct (rd_lr_int _ Hm) as (m' & [= <-] & Hlv & Hl).
    assert (AInt m ∉ map c_arena old) as Ho.
    { pose proof rd_nodup as Hnd. apply NoDup_app in Hnd as (_ & H1 & Hnd). apply NoDup_app in Hnd as (_ & H2 & _).
      intros Ho. destruct Hm as [Hm|Hm]; [|by apply (H2 _ Ho)]. apply (H1 _ Hm). set_solver. }
    split; [done|]. split; [|intros ->; lia]. intros Hn. by apply Ho, rd_new_old.
  Qed.
  Lemma rd_lr_kids m : AInt m ∈ map c_arena l \/ AInt m ∈ map c_arena r -> kids t' m = kids t m.
  Proof. intros Hm. destruct (rd_lr_notnew m Hm) as (? & ? & ?). by apply (rd_other _ _ _ _ _ _ _ R). Qed.
  Lemma rd_p_notnew : AInt p ∉ map c_arena new.
  Proof.
    intros Hin. apply rd_new_old in Hin; [|rewrite (rd_p _ _ _ _ _ _ _ R); eauto].
    apply rd_old_int in Hin as (m & [= <-] & ? & _). lia.
  Qed.
  Lemma rd_p_notold : AInt p ∉ map c_arena old.
  Proof. intros Hin. apply rd_old_int in Hin as (m & [= <-] & ? & _). lia. Qed.

  Let ms := map unA (map c_arena (l ++ old ++ r)).
  Let ms' := map unA (map c_arena (l ++ new ++ r)).
  Local Lemma map_unA (as_ : list aidx) : (forall a, a ∈ as_ -> exists m, a = AInt m) -> map AInt (map unA as_) = as_.
  Proof.
    induction as_ as [|a as_ IH]; intros Ha; [done|]. cbn. rewrite IH by (intros b Hb; apply Ha; by right).
    destruct (Ha a) as [m ->]; [left|done].
  Qed.
  Local Lemma ms_ok : map AInt ms = chs t p.
  Proof.
    unfold ms. rewrite map_unA, <- (chs_kids _ _ _ (rd_p _ _ _ _ _ _ _ R)); [done|].
    rewrite <- (chs_kids _ _ _ (rd_p _ _ _ _ _ _ _ R)).
    intros a Ha. destruct (wt_int_child W _ _ Ha Hlp) as (m & -> & _). eauto.
  Qed.
  Local Lemma ms_ok' : map AInt ms' = chs t' p.
  Proof.
    unfold ms'. rewrite map_unA, <- (chs_kids _ _ _ (rd_p' _ _ _ _ _ _ _ R)); [done|].
    rewrite !map_app. intros a [Ha|[Ha|Ha]%elem_of_app]%elem_of_app.
    - destruct (rd_lr_int a) as (m & -> & _); eauto.
    - by apply rd_new_int.
    - destruct (rd_lr_int a) as (m & -> & _); eauto.
  Qed.
  Local Lemma in_ms m : m ∈ ms <-> AInt m ∈ map c_arena l \/ AInt m ∈ map c_arena old \/ AInt m ∈ map c_arena r.
  Proof.
    assert (m ∈ ms <-> AInt m ∈ map AInt ms) as ->.
    { split; [apply elem_of_list_fmap_1|]. intros (x & [= ->] & ?)%elem_of_list_fmap. done. }
    rewrite ms_ok, rd_chs. set_solver.
  Qed.
  Local Lemma in_ms' m : m ∈ ms' <-> AInt m ∈ map c_arena l \/ AInt m ∈ map c_arena new \/ AInt m ∈ map c_arena r.
  Proof.
    assert (m ∈ ms' <-> AInt m ∈ map AInt ms') as ->.
    { split; [apply elem_of_list_fmap_1|]. intros (x & [= ->] & ?)%elem_of_list_fmap. done. }
    rewrite ms_ok', rd_chs'. set_solver.
  Qed.
  Lemma rd_nodup' : NoDup (map c_arena l ++ map c_arena new ++ map c_arena r).
  Proof.
    pose proof rd_nodup as Hnd. apply NoDup_app in Hnd as (H1 & H2 & Hnd). apply NoDup_app in Hnd as (H3 & H4 & H5).
    assert (X : forall a, a ∈ map c_arena new -> a ∈ map c_arena l \/ a ∈ map c_arena r -> False).
    { intros a Hn Hm. destruct (rd_lr_int a Hm) as (m & -> & _). by destruct (rd_lr_notnew m Hm) as (_ & ? & _). }
    apply NoDup_app. split; [done|]. split.
    - intros a Ha [Hn|Hr]%elem_of_app; [by apply (X a Hn); left|]. apply (H2 a Ha). set_solver.
    - apply NoDup_app. split; [apply (rd_nd _ _ _ _ _ _ _ R)|]. split; [|done].
      intros a Hn Hr. apply (X a Hn). by right.
  Qed.

  Lemma rd_grand_chs : chs t' p ≫= achs t' = chs t p ≫= achs t.
  Proof.
    rewrite rd_chs, rd_chs'. rewrite !bind_app.
    pose proof (f_equal (map c_arena) (rd_grand _ _ _ _ _ _ _ R)) as G. rewrite !kidl_chs in G. rewrite G.
    assert (X : forall as_, (forall a, a ∈ as_ -> a ∈ map c_arena l \/ a ∈ map c_arena r) -> as_ ≫= achs t' = as_ ≫= achs t).
    { intros as_ Hs. apply bind_ext_in. intros a Ha. apply Hs in Ha.
      destruct (rd_lr_int a Ha) as (m & -> & _). cbn. unfold chs. by rewrite rd_lr_kids. }
    rewrite (X (map c_arena l)), (X (map c_arena r)); [done|eauto|eauto].
  Qed.
  Lemma rd_p_live : is_Some (kids t p).
  Proof. rewrite (rd_p _ _ _ _ _ _ _ R). eauto. Qed.
  Local Lemma rd_prem :
    is_Some (kids t p) /\ chs t p = map AInt ms /\ chs t' p = map AInt ms' /\ is_Some (kids t' p) /\ NoDup ms'
    /\ (forall m, m ∈ ms' -> is_Some (kids t' m) /\ (m ∈ ms \/ kids t m = None)
                     /\ m < anext (in_nodes t') /\ (chs t' m <> [] \/ (~ ~ E m \/ m = p)))
    /\ (forall m, m ∈ ms -> m ∉ ms' -> kids t' m = None)
    /\ (ms' ≫= chs t' = ms ≫= chs t)
    /\ (forall j, j <> p -> j ∉ ms -> j ∉ ms' ->
            chs t' j = chs t j /\ (is_Some (kids t' j) <-> is_Some (kids t j))).
  Proof.
    pose proof rd_p_live as Hp.
    split; [done|]. split; [by rewrite ms_ok|]. split; [by rewrite ms_ok'|].
    split. { rewrite (rd_p' _ _ _ _ _ _ _ R). eauto. }
    split. { apply (NoDup_fmap_1 AInt). change (NoDup (map AInt ms')). rewrite ms_ok', rd_chs'. apply rd_nodup'. }
    split; [|split; [|split]].
    - intros m Hm. apply in_ms' in Hm.
      assert (AInt m ∈ map c_arena new \/ (AInt m ∈ map c_arena l \/ AInt m ∈ map c_arena r)) as [Hn|Hlr] by tauto.
      + apply elem_of_list_fmap in Hn as (c & Ec & Hc).
        destruct (rd_new _ _ _ _ _ _ _ R c Hc) as (m' & K & Ea & Hk & Hne & _ & Ho & Hf).
        assert (m' = m) as -> by congruence. split; [eauto|].
        split; [destruct Ho; [left; apply in_ms; tauto|by right]|]. split; [done|]. left.
        rewrite (chs_kids _ _ _ Hk). by destruct K.
      + destruct (rd_lr_int _ Hlr) as (m' & [= <-] & Hlv & Hl). rewrite (rd_lr_kids m Hlr).
        split; [done|]. split; [left; apply in_ms; tauto|].
        split; [pose proof (wt_fresh W _ Hl); pose proof (rd_an _ _ _ _ _ _ _ R); lia|].
        unfold chs. rewrite (rd_lr_kids m Hlr). change (chs t m <> [] \/ ~ ~ E m \/ m = p).
        destruct (decide (chs t m = [])) as [He|He]; [|by left]. right. left.
        destruct (decide (AInt m = root t)) as [Hr|Hr].
        { pose proof (wt_root_lv W) as Hrl. rewrite <- Hr in Hrl. cbn in Hrl.
          pose proof (wt_lv W p Hp). lia. }
        intros HE. by apply (wt_ne W m).
    - intros m Hm Hm'. apply in_ms in Hm. rewrite in_ms' in Hm'. apply (rd_del _ _ _ _ _ _ _ R); tauto.
    - rewrite <- !aint_bind, ms_ok, ms_ok'. apply rd_grand_chs.
    - intros j Hj Hm Hm'. rewrite in_ms in Hm. rewrite in_ms' in Hm'.
      unfold chs. rewrite (rd_other _ _ _ _ _ _ _ R j) by tauto. done.
  Qed.
  Definition lv_rd : nat -> nat := lv_re (lv := lv) (p := p) (ms' := ms').
  Lemma rd_lv j : is_Some (kids t j) -> lv_rd j = lv j.
  Proof.
    intros Hj. unfold lv_rd, lv_re. case_decide as D; [|done].
    apply in_ms' in D.
    assert (AInt j ∈ chs t p) as Hin.
    { rewrite rd_chs. destruct D as [?|[Hn|?]]; [set_solver| |set_solver].
      apply rd_new_old in Hn; [set_solver|done]. }
    destruct (wt_int_child W _ _ Hin Hlp) as (m & [= <-] & Hm). lia.
  Qed.
  Lemma rd_WT : WT (fun m => E m \/ m = p) t' H lv_rd.
  Proof.
    destruct rd_prem as (P1 & P2 & P3 & P4 & P5 & P6 & P7 & P8 & P9).
    assert (WT (fun m => ~ ~ E m \/ m = p) t' H lv_rd) as W'.
    { refine (wt_redistribute W P1 Hlp P2 P3 P4 _ _ _ _ P5 P6 P7 P8 P9 _ _).
      - apply (rd_root _ _ _ _ _ _ _ R).
      - intros x. by rewrite (rd_el _ _ _ _ _ _ _ R).
      - apply (rd_an _ _ _ _ _ _ _ R).
      - apply (rd_al _ _ _ _ _ _ _ R).
      - intros j _ HE. left. tauto.
      - right. right. by right. }
    eapply WT_shrink; [|exact W']. intros m _ _ [HE|HE] Hn; tauto.
  Qed.
  Lemma rd_gen : gen t' (S H) (root t') = gen t (S H) (root t).
  Proof.
    destruct rd_prem as (P1 & P2 & P3 & P4 & P5 & P6 & P7 & P8 & P9).
    refine (gen_redistribute W P1 Hlp P2 P3 (rd_root _ _ _ _ _ _ _ R) (rd_an _ _ _ _ _ _ _ R) (rd_al _ _ _ _ _ _ _ R) P6 P8 P9).
  Qed.
  (** who is in a child list of [t'] *)
  Lemma rd_grand_new a m : AInt m ∈ map c_arena new -> a ∈ chs t' m ->
    exists m0, AInt m0 ∈ map c_arena old /\ a ∈ chs t m0.
  Proof.
    intros Hm Ha.
    pose proof (f_equal (map c_arena) (rd_grand _ _ _ _ _ _ _ R)) as G. rewrite !kidl_chs in G.
    assert (a ∈ map c_arena new ≫= achs t') as Hin.
    { apply elem_of_list_bind. exists (AInt m). done. }
    rewrite G in Hin. apply elem_of_list_bind in Hin as (b & Hb & Hbo).
    destruct (rd_old_int b Hbo) as (m0 & -> & _). eauto.
  Qed.
  Lemma rd_LK : LK t -> LK t'.
  Proof.
    intros K. pose proof rd_WT as W'. constructor.
    - intros q k a Hc. destruct (decide (q = p)) as [->|Hq]; [by apply (rd_lnk_p _ _ _ _ _ _ _ R)|].
      destruct (decide (AInt q ∈ map c_arena new)) as [Hn|Hn]; [by apply (rd_lnk_new _ _ _ _ _ _ _ R)|].
      eapply lnk_same_linked.
      + apply (rd_lnk_other _ _ _ _ _ _ _ R).
        * by apply (wt_ch W') in Hc as [? _].
        * intros [k' Hk']%elem_of_list_lookup. by destruct (wt_uniq W' _ _ _ _ _ Hc Hk').
        * intros m Hm [k' Hk']%elem_of_list_lookup. destruct (wt_uniq W' _ _ _ _ _ Hc Hk') as [-> _]. done.
      + apply (lk_ch K). pose proof (chs_lookup_live _ _ _ _ Hc) as Hql.
        destruct (decide (AInt q ∈ map c_arena old)) as [Ho|Ho].
        { rewrite (rd_del _ _ _ _ _ _ _ R q) in Hql by done. by destruct Hql. }
        unfold chs in Hc. rewrite (rd_other _ _ _ _ _ _ _ R q) in Hc by done. exact Hc.
    - intros x Hx. assert (lnk_same t t' (AInt x)) as Hs.
      { apply (rd_lnk_other _ _ _ _ _ _ _ R).
        - rewrite <- Hx, (wt_root_id W'). apply (wt_root_live W').
        - rewrite <- Hx. intros [k Hk]%elem_of_list_lookup. by apply (wt_root_nochild W') in Hk.
        - intros m _. rewrite <- Hx. intros [k Hk]%elem_of_list_lookup. by apply (wt_root_nochild W') in Hk. }
      cbn in Hs. rewrite Hs. apply (lk_root K). by rewrite <- (rd_root _ _ _ _ _ _ _ R).
  Qed.
  Lemma rd_SZ n : SZ t n -> length (l ++ new ++ r) <= n -> (forall m, AInt m ∈ map c_arena new -> length (chs t' m) <= n) -> SZ t' n.
  Proof.
    intros Z Hp Hn j. destruct (decide (j = p)) as [->|Hj].
    { rewrite (chs_kids _ _ _ (rd_p' _ _ _ _ _ _ _ R)). by rewrite map_length. }
    destruct (decide (AInt j ∈ map c_arena new)) as [D|D]; [auto|].
    unfold chs. destruct (decide (AInt j ∈ map c_arena old)) as [D2|D2].
    - rewrite (rd_del _ _ _ _ _ _ _ R) by done. cbn. lia.
    - rewrite (rd_other _ _ _ _ _ _ _ R j) by done. apply Z.
  Qed.

  (** *** caches *)
  Lemma rd_VA : VA t -> VA t'.
  Proof.
    intros V. 
    assert (G : forall m K c, AInt m ∈ map c_arena new -> kids t' m = Some K -> c ∈ K -> cvalid L (c_cache c)).
    { intros m K c Hm Hk Hc.
      assert (c ∈ new ≫= kidl t') as Hin.
      { apply elem_of_list_bind. apply elem_of_list_fmap in Hm as (x & Ex & Hx). exists x. split; [|done].
        unfold kidl. by rewrite <- Ex, Hk. }
      rewrite (rd_grand _ _ _ _ _ _ _ R) in Hin. apply elem_of_list_bind in Hin as (x & Hcx & Hx).
      unfold kidl in Hcx. destruct (c_arena x) as [?|m0]; [by apply not_elem_of_nil in Hcx|].
      destruct (kids t m0) as [K0|] eqn:E0; [|by apply not_elem_of_nil in Hcx]. by eapply (va_ch _ _ V). }
    constructor.
    - intros x e. rewrite (rd_el _ _ _ _ _ _ _ R). apply (va_el _ _ V).
    - intros q cs c Hk Hc. destruct (decide (q = p)) as [->|Hq].
      + rewrite (rd_p' _ _ _ _ _ _ _ R) in Hk. injection Hk as <-.
        assert (c ∈ new \/ c ∈ l ++ old ++ r) as [Hn|Ho] by set_solver.
        * destruct (rd_new _ _ _ _ _ _ _ R c Hn) as (m & K & Ea & Hk & Hne & -> & _).
          apply lw_summ; [|left; by destruct K].
          apply Forall_forall. intros v (y & -> & Hy)%elem_of_list_fmap. eapply (G m); try done.
          rewrite <- Ea. by apply elem_of_list_fmap_1.
        * eapply (va_ch _ _ V); [apply (rd_p _ _ _ _ _ _ _ R)|done].
      + destruct (decide (AInt q ∈ map c_arena new)) as [D|D]; [by eapply G|].
        destruct (decide (AInt q ∈ map c_arena old)) as [D2|D2].
        * by rewrite (rd_del _ _ _ _ _ _ _ R q) in Hk.
        * rewrite (rd_other _ _ _ _ _ _ _ R q) in Hk by done. by eapply (va_ch _ _ V).
  Qed.
  Lemma rd_act a : a <> AInt p -> (forall m, a = AInt m -> AInt m ∉ map c_arena new /\ AInt m ∉ map c_arena old) ->
    act t' a = act t a.
  Proof.
    intros Hp Hn. destruct a as [x|m]; unfold Law.act; [by rewrite (rd_el _ _ _ _ _ _ _ R)|].
    destruct (Hn m eq_refl). rewrite (rd_other _ _ _ _ _ _ _ R m); try done. congruence.
  Qed.
  (** all entries except those that were wrong before and that of [p] *)
  Lemma rd_CO0 (D : aidx -> Prop) : CO t D -> CO t' (fun a => (D a /\ a ∉ map c_arena new) \/ a = AInt p).
  Proof.
    intros C q cs c Hk Hc Hd.
    assert (Hcp : c_arena c <> AInt p) by tauto.
    assert (G : forall q cs, kids t q = Some cs -> c ∈ cs -> c_arena c ∉ map c_arena old -> c_arena c ∉ map c_arena new ->
       c_cache c = act t' (c_arena c)).
    { intros q0 cs0 Hk0 Hc0 Ho Hn. rewrite rd_act; [|done|intros m Em; rewrite <- Em; done].
      apply (C q0 cs0 c Hk0 Hc0). tauto. }
    assert (Hown : forall q k x, chs t q !! k = Some x -> x ∈ map c_arena old \/ x ∈ map c_arena new -> q = p).
    { intros q0 k0 x Hx Hon. assert (x ∈ map c_arena old) as Ho.
      { destruct Hon as [?|Hn]; [done|]. destruct (rd_new_int x Hn) as [m ->]. apply rd_new_old; [done|].
        by apply (wt_ch W) in Hx as [? _]. }
      assert (x ∈ chs t p) as [k1 Hk1]%elem_of_list_lookup by (by apply rd_old_in).
      by destruct (wt_uniq W _ _ _ _ _ Hx Hk1). }
    assert (Hchs : forall q cs k, kids t q = Some cs -> cs !! k = Some c -> chs t q !! k = Some (c_arena c)).
    { intros q0 cs0 k0 H0 H1. by rewrite (chs_kids _ _ _ H0), list_lookup_fmap, H1. }
    destruct (decide (q = p)) as [->|Hq].
    - rewrite (rd_p' _ _ _ _ _ _ _ R) in Hk. injection Hk as <-.
      assert (c ∈ new \/ (c ∈ l \/ c ∈ r)) as [Hn|Hlr] by set_solver.
      + destruct (rd_new _ _ _ _ _ _ _ R c Hn) as (m & K & Ea & Hk & Hne & -> & _). rewrite Ea.
        symmetry. by apply act_int.
      + assert (c_arena c ∈ map c_arena l \/ c_arena c ∈ map c_arena r) as Hlr'.
        { destruct Hlr; [left|right]; by apply elem_of_list_fmap_1. }
        destruct (rd_lr_int _ Hlr') as (m & Em & _). rewrite Em in Hlr'.
        destruct (rd_lr_notnew m Hlr') as (? & ? & _).
        eapply (G p); [apply (rd_p _ _ _ _ _ _ _ R)|set_solver|congruence|congruence].
    - destruct (decide (AInt q ∈ map c_arena new)) as [Dn|Dn].
      + (* a grandchild *)
        assert (c ∈ new ≫= kidl t') as Hin.
        { apply elem_of_list_bind. apply elem_of_list_fmap in Dn as (x & Ex & Hx). exists x. split; [|done].
          unfold kidl. by rewrite <- Ex, Hk. }
        rewrite (rd_grand _ _ _ _ _ _ _ R) in Hin. apply elem_of_list_bind in Hin as (x & Hcx & Hx).
        unfold kidl in Hcx. destruct (c_arena x) as [?|m0] eqn:Ex; [by apply not_elem_of_nil in Hcx|].
        destruct (kids t m0) as [K0|] eqn:E0; [|by apply not_elem_of_nil in Hcx]. cbn in Hcx.
        assert (m0 <> p).
        { intros ->. apply rd_p_notold. rewrite <- Ex. by apply elem_of_list_fmap_1. }
        pose proof Hcx as Hcx'. apply elem_of_list_lookup in Hcx' as [k0 Hcx'].
        eapply (G m0 K0); [done|done| |]; intros Hbad; apply H0; eapply (Hown m0 k0); eauto.
      + destruct (decide (AInt q ∈ map c_arena old)) as [D2|D2].
        { by rewrite (rd_del _ _ _ _ _ _ _ R q) in Hk. }
        rewrite (rd_other _ _ _ _ _ _ _ R q) in Hk by done.
        pose proof Hc as Hc'. apply elem_of_list_lookup in Hc' as [k0 Hc'].
        eapply (G q cs); [done|done| |]; intros Hbad; apply Hq; eapply (Hown q k0); eauto.
  Qed.

  (** the aggregate of [p] does not change when the replaced entries were right *)
  Lemma rd_flat (cs : list child) (K : child -> list child) v1 v2 :
    Forall (cvalid L) (v1 ++ map c_cache cs ++ v2) -> 
    Forall (cvalid L) (v1 ++ map c_cache (cs ≫= K) ++ v2) ->
    (forall c, c ∈ cs -> c_cache c = summ L (map c_cache (K c)) /\ (K c <> [] \/ mono L = true)) ->
    summ L (v1 ++ map c_cache cs ++ v2) = summ L (v1 ++ map c_cache (cs ≫= K) ++ v2).
  Proof.
    revert v1. induction cs as [|c cs IH]; intros v1 F1 F2 Hc; [done|].
    cbn [mbind list_bind map] in *. change (list_bind _ _ K cs) with (cs ≫= K) in *.
    rewrite map_app in *.
    assert (Ev : forall x y z : list (Cache B), x ++ (y ++ z) = (x ++ y) ++ z) by (intros; by rewrite app_assoc).
    destruct (Hc c) as [Hcc Hne]; [left|].
    rewrite <- !app_assoc in F2. 
    assert (F3 : Forall (cvalid L) (map c_cache (K c))).
    { apply Forall_app in F2 as [_ F2]. by apply Forall_app in F2 as [F2 _]. }
    rewrite <- (app_assoc (map c_cache (K c))).
    transitivity (summ L (v1 ++ c_cache c :: map c_cache (cs ≫= K) ++ v2)).
    - specialize (IH (v1 ++ [c_cache c])). rewrite <- !app_assoc in IH. apply IH; clear IH.
      + exact F1.
      + rewrite !Forall_app in F1, F2. rewrite !Forall_app. cbn in F1. rewrite !Forall_cons in F1. 
        destruct F1 as (? & [? ?] & ?), F2 as (? & ? & F2). apply Forall_app in F2 as [? ?]. split_and!; try done. by apply Forall_singleton.
      + intros c' Hc'. apply Hc. by right.
    - rewrite Hcc. cbn [app]. apply lw_flat; [|].
      + rewrite app_assoc in F2. rewrite app_assoc. done.
      + destruct Hne as [Hne|?]; [left; by destruct (K c)|by right].
  Qed.
  Lemma rd_act_p : VA t -> (forall c, c ∈ old -> c_cache c = act t (c_arena c)) ->
    (forall c, c ∈ old -> kidl t c <> [] \/ mono L = true) -> act t' (AInt p) = act t (AInt p).
  Proof.
    intros V Ho Hne. pose proof (rd_VA V) as V'.
    rewrite (act_int _ _ _ _ (rd_p' _ _ _ _ _ _ _ R)), (act_int _ _ _ _ (rd_p _ _ _ _ _ _ _ R)).
    rewrite !map_app.
    assert (Fl : Forall (cvalid L) (map c_cache l) /\ Forall (cvalid L) (map c_cache old) /\ Forall (cvalid L) (map c_cache r)).
    { pose proof (VA_kids L _ _ _ V (rd_p _ _ _ _ _ _ _ R)) as F. by rewrite !map_app, !Forall_app in F. }
    assert (Fl' : Forall (cvalid L) (map c_cache new)).
    { pose proof (VA_kids L _ _ _ V' (rd_p' _ _ _ _ _ _ _ R)) as F. rewrite !map_app, !Forall_app in F. tauto. }
    assert (Fg : Forall (cvalid L) (map c_cache (old ≫= kidl t))).
    { apply Forall_forall. intros v (c & -> & Hc)%elem_of_list_fmap.
      apply elem_of_list_bind in Hc as (x & Hcx & Hx). unfold kidl in Hcx.
      destruct (c_arena x) as [?|m0]; [by apply not_elem_of_nil in Hcx|].
      destruct (kids t m0) as [K0|] eqn:E0; [|by apply not_elem_of_nil in Hcx]. by eapply (va_ch _ _ V). }
    destruct Fl as (F1 & F2 & F3).
    rewrite (rd_flat old (kidl t)), (rd_flat new (kidl t')).
    - by rewrite (rd_grand _ _ _ _ _ _ _ R).
    - by rewrite !Forall_app.
    - rewrite (rd_grand _ _ _ _ _ _ _ R). by rewrite !Forall_app.
    - intros c Hc. destruct (rd_new _ _ _ _ _ _ _ R c Hc) as (m & K & Ea & Hk & HK & -> & _).
      unfold kidl. rewrite Ea, Hk. cbn. auto.
    - by rewrite !Forall_app.
    - by rewrite !Forall_app.
    - intros c Hc. split; [|auto]. rewrite (Ho c Hc). unfold kidl.
      destruct (rd_old_int (c_arena c)) as (m & -> & _); [by apply elem_of_list_fmap_1|]. done.
  Qed.
  Lemma rd_CO (D : aidx -> Prop) : CO t D -> VA t -> (forall c, c ∈ old -> ~ D (c_arena c)) ->
    (forall c, c ∈ old -> kidl t c <> [] \/ mono L = true) -> CO t' D.
  Proof.
    intros C V Ho Hne q cs c Hk Hc Hd.
    assert (Ho' : forall c, c ∈ old -> c_cache c = act t (c_arena c)).
    { intros c' Hc'. eapply C; [apply (rd_p _ _ _ _ _ _ _ R)|set_solver|auto]. }
    destruct (decide (c_arena c = AInt p)) as [Ep|Ep].
    - assert (q <> p) as Hq.
      { intros ->. by apply (self_not_entry rd_WT p cs c). }
      rewrite Ep, rd_act_p by done.
      destruct (decide (AInt q ∈ map c_arena new)) as [Dn|Dn].
      { exfalso. assert (c_arena c ∈ chs t' q) as Hin.
        { rewrite (chs_kids _ _ _ Hk). by apply elem_of_list_fmap_1. }
        destruct (rd_grand_new _ _ Dn Hin) as (m0 & Hm0 & Hin0). rewrite Ep in Hin0.
        apply rd_old_int in Hm0 as (m1 & [= <-] & Hlv & _).
        apply elem_of_list_lookup in Hin0 as [k0 Hin0]. apply (wt_ch W) in Hin0 as [_ Hin0]. cbn in Hin0. lia. }
      destruct (decide (AInt q ∈ map c_arena old)) as [D2|D2].
      { by rewrite (rd_del _ _ _ _ _ _ _ R q) in Hk. }
      rewrite (rd_other _ _ _ _ _ _ _ R q) in Hk by done.
      rewrite <- Ep in *. by apply (C q cs c).
    - eapply (rd_CO0 D C q cs c Hk Hc). tauto.
  Qed.
  Lemma rd_RC : RC t -> VA t -> CO t (fun a => a ∉ map c_arena old) ->
    (forall c, c ∈ old -> kidl t c <> [] \/ mono L = true) -> (l ++ old ++ r <> [] \/ mono L = true) -> RC t'.
  Proof.
    intros HR V C Hne Hp Hne'. rewrite (rd_rc _ _ _ _ _ _ _ R), (rd_root _ _ _ _ _ _ _ R).
    destruct (decide (root t = AInt p)) as [Er|Er].
    - rewrite Er, rd_act_p; [|done| |done].
      + rewrite <- Er. apply HR. rewrite Er. cbn. rewrite (chs_kids _ _ _ (rd_p _ _ _ _ _ _ _ R)).
        destruct Hp as [Hp|?]; [left|by right]. intros Hx. by apply fmap_nil_inv in Hx.
      + intros c Hc. eapply C; [apply (rd_p _ _ _ _ _ _ _ R)|set_solver|].
        intros Hx. apply Hx. by apply elem_of_list_fmap_1.
    - rewrite rd_act; [|done|].
      + apply HR. rewrite <- (rd_root _ _ _ _ _ _ _ R). destruct Hne' as [Hx|?]; [left|by right].
        intros Hy. apply Hx. revert Hy.
        rewrite (rd_root _ _ _ _ _ _ _ R). 
        assert (kids t' (raw (root t)) = kids t (raw (root t))) as Ek.
        { apply (rd_other _ _ _ _ _ _ _ R).
          - intros Ep. apply Er. rewrite (wt_root_id W). by rewrite Ep.
          - rewrite <- (wt_root_id W). intros Hin.
            assert (root t ∈ chs t p) as [k Hk]%elem_of_list_lookup by (by apply rd_old_in).
            by apply (wt_root_nochild W) in Hk.
          - rewrite <- (wt_root_id W). intros Hin. rewrite (wt_root_id W) in Hin.
            apply rd_new_old in Hin; [|apply (wt_root_live W)]. rewrite <- (wt_root_id W) in Hin.
            assert (root t ∈ chs t p) as [k Hk]%elem_of_list_lookup by (by apply rd_old_in).
            by apply (wt_root_nochild W) in Hk. }
        unfold chs. by rewrite Ek.
      + intros m Em. rewrite <- Em. split.
        * intros Hin. rewrite Em in Hin. apply rd_new_old in Hin.
          -- rewrite <- Em in Hin.
             assert (root t ∈ chs t p) as [k Hk]%elem_of_list_lookup by (by apply rd_old_in).
             by apply (wt_root_nochild W) in Hk.
          -- pose proof (wt_root_live W) as Hl. by rewrite Em in Hl.
        * intros Hin. assert (root t ∈ chs t p) as [k Hk]%elem_of_list_lookup by (by apply rd_old_in).
          by apply (wt_root_nochild W) in Hk.
  Qed.
End rd_facts.
End rd.
