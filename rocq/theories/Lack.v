(** Lack.v — under-full nodes: borrowing, merging, dropping empty nodes, reducing levels. *)
From Verif Require Export Insert.

Ltac inl := rewrite ?elem_of_app, ?elem_of_cons; intuition congruence.

Section lack.
Context {B : BTreeTrait} (L : Lawful B).
Notation btree := (btree B).
Notation child := (child B).
Notation CO := (CO L).
Notation RC := (RC L).
Notation VA := (VA L).
Notation act := (act L).
Notation RD := (RD L).
Implicit Types (t : btree) (i j m p q k s : nat) (a b : aidx) (c : child) (cs : list child).

(** the structural part of a redistribution *)
Record RS t t' p (l old new r : list child) : Prop := {
  rs_p : kids t p = Some (l ++ old ++ r);
  rs_p' : kids t' p = Some (l ++ new ++ r);
  rs_new : forall c, c ∈ new -> exists m K, c_arena c = AInt m /\ kids t' m = Some K /\ K <> [] /\
    c_cache c = summ L (map c_cache K) /\ AInt m ∈ map c_arena old;
  rs_nd : NoDup (map c_arena new);
  rs_del : forall m, AInt m ∈ map c_arena old -> AInt m ∉ map c_arena new -> kids t' m = None;
  rs_grand : new ≫= kidl t' = old ≫= kidl t;
  rs_other : forall j, j <> p -> AInt j ∉ map c_arena old -> kids t' j = kids t j;
  rs_el : forall x, el t' x = el t x;
  rs_root : root t' = root t;
  rs_rc : root_cache t' = root_cache t;
  rs_an : anext (in_nodes t') = anext (in_nodes t);
  rs_al : anext (leaf_nodes t') = anext (leaf_nodes t);
}.

Lemma rd_intro E t t3 H lv p l old new r re :
  WT E t H lv -> LK t -> 0 < lv p ->
  RS t t3 p l old new r ->
  (forall k a, chs t3 p !! k = Some a -> linked t3 a p k) ->
  (forall a, live t3 a -> a ∉ chs t3 p -> lnk_same t t3 a) ->
  (forall a q s, (a, q, s) ∈ re -> AInt q ∈ map c_arena new /\ chs t3 q !! s = Some a) ->
  (forall a q k, AInt q ∈ map c_arena new -> chs t3 q !! k = Some a -> (a, q, k) ∈ re \/ chs t q !! k = Some a) ->
  exists t4, apply_re_parent t3 re = Ok t4 /\ CORE t3 t4 /\ RD t t4 p l old new r.
Proof.
  intros W K Hlp R Hpk Hoth Hs Hc.
  assert (Hcp : chs t p = map c_arena l ++ map c_arena old ++ map c_arena r).
  { rewrite (chs_kids _ _ _ (rs_p _ _ _ _ _ _ _ R)). by rewrite !map_app. }
  assert (Hcp3 : chs t3 p = map c_arena l ++ map c_arena new ++ map c_arena r).
  { rewrite (chs_kids _ _ _ (rs_p' _ _ _ _ _ _ _ R)). by rewrite !map_app. }
  assert (Hold : forall a, a ∈ map c_arena old -> exists m, a = AInt m /\ lv p = S (lv m) /\ is_Some (kids t m)).
  { intros a Ha. assert (a ∈ chs t p) as Hin by (rewrite Hcp; set_solver).
    destruct (wt_int_child W _ _ Hin Hlp) as (m & -> & Hm). exists m. split_and!; [done|done|].
    by apply (wt_live_child W _ _ Hin). }
  assert (Hno : forall a, a ∈ map c_arena new -> a ∈ map c_arena old).
  { intros a (x & -> & Hx)%elem_of_list_fmap. destruct (rs_new _ _ _ _ _ _ _ R x Hx) as (m & K0 & -> & _ & _ & _ & ?). done. }
  assert (Hg : map c_arena new ≫= achs t3 = map c_arena old ≫= achs t).
  { pose proof (f_equal (map c_arena) (rs_grand _ _ _ _ _ _ _ R)) as G. by rewrite !kidl_chs in G. }
  assert (Hnd : NoDup (map c_arena old ≫= achs t)).
  { assert (live t (AInt p)) as Hl. { cbn. rewrite (rs_p _ _ _ _ _ _ _ R). eauto. }
    pose proof (gen_nodup W 2 (AInt p) Hl) as G. rewrite gen_S_r in G. 
    assert (gen t 1 (AInt p) = chs t p) as Eg.
    { cbn [gen achs]. apply bind_singleton_id. }
    rewrite Eg, Hcp, !bind_app in G. apply NoDup_app in G as (_ & _ & G). by apply NoDup_app in G as (? & _). }
  assert (Hgr : forall q a, AInt q ∈ map c_arena new -> a ∈ chs t3 q -> exists m0, AInt m0 ∈ map c_arena old /\ a ∈ chs t m0).
  { intros q a Hq Ha. assert (a ∈ map c_arena new ≫= achs t3) as Hin.
    { apply elem_of_list_bind. exists (AInt q). done. }
    rewrite Hg in Hin. apply elem_of_list_bind in Hin as (b & Hb & Hbo).
    destruct (Hold b Hbo) as (m0 & -> & _). eauto. }
  assert (Hglv : forall q a, AInt q ∈ map c_arena new -> a ∈ chs t3 q -> live t3 a /\ a ∉ chs t3 p /\ a ∉ chs t p).
  { intros q a Hq Ha. destruct (Hgr q a Hq Ha) as (m0 & Hm0 & Ha0).
    destruct (Hold _ Hm0) as (? & [= <-] & Hlv & _).
    pose proof (wt_live_child W _ _ Ha0) as Hal.
    assert (alv lv a <= lv m0 /\ (forall j, a = AInt j -> lv j < lv m0)) as [Hle Hlt].
    { apply elem_of_list_lookup in Ha0 as [k Ha0]. apply (wt_ch W) in Ha0 as [_ Ha0].
      split; [lia|]. intros j ->. cbn in Ha0. lia. }
    assert (a ∉ chs t p) as Hnp.
    { intros Hin. destruct (wt_int_child W _ _ Hin Hlp) as (j & -> & Hj). specialize (Hlt j eq_refl). lia. }
    split_and!; [| |done].
    - destruct a as [x|j]; cbn in *; [by rewrite (rs_el _ _ _ _ _ _ _ R)|].
      specialize (Hlt j eq_refl). rewrite (rs_other _ _ _ _ _ _ _ R j); [done|intros ->; lia|].
      intros Hin. destruct (Hold _ Hin) as (? & [= <-] & ? & _). lia.
    - rewrite Hcp3. intros Hin. apply Hnp. rewrite Hcp. rewrite !elem_of_app in *. 
      destruct Hin as [?|[?|?]]; auto. }
  assert (Huq : forall a q k q' k', AInt q ∈ map c_arena new -> AInt q' ∈ map c_arena new ->
    chs t3 q !! k = Some a -> chs t3 q' !! k' = Some a -> q = q' /\ k = k').
  { intros a q k q' k' Hq Hq' Hk Hk'. rewrite <- Hg in Hnd.
    assert (q = q') as <-.
    { destruct (decide (q = q')) as [|Hne]; [done|exfalso].
      assert (G : forall X, NoDup X -> NoDup (X ≫= achs t3) -> AInt q ∈ X -> AInt q' ∈ X -> False).
      { induction X as [|x X IH]; intros N1 N2 X1 X2; [by apply not_elem_of_nil in X1|].
        cbn in N2. apply NoDup_app in N2 as (N2 & N3 & N4). apply NoDup_cons in N1 as [N0 N1].
        apply elem_of_cons in X1 as [<-|X1], X2 as [X2|X2].
        - congruence.
        - apply (N3 a); [by eapply elem_of_list_lookup_2|]. apply elem_of_list_bind. exists (AInt q'). split; [|done].
          by eapply elem_of_list_lookup_2.
        - apply (N3 a); [subst x; by eapply elem_of_list_lookup_2|]. apply elem_of_list_bind. exists (AInt q). split; [|done].
          by eapply elem_of_list_lookup_2.
        - by apply IH. }
      apply (G (map c_arena new)); auto. apply (rs_nd _ _ _ _ _ _ _ R). }
    split; [done|].
    apply elem_of_list_split in Hq as (X1 & X2 & HX). rewrite HX in Hnd.
    rewrite bind_app in Hnd. apply NoDup_app in Hnd as (_ & _ & Hnd). cbn in Hnd. apply NoDup_app in Hnd as (Hnd & _).
    by eapply NoDup_lookup. }
  destruct (apply_re_parent_ok re t3) as (t4 & E4 & C4 & Ho4 & Hl4).
  { intros a q s Hin. destruct (Hs _ _ _ Hin) as [Hq Hk]. by apply (Hglv q a Hq), elem_of_list_lookup_2 with s. }
  { intros a q s q' s' H1 H2. apply Hs in H1 as [? ?], H2 as [? ?]. by eapply Huq. }
  exists t4. split; [done|]. split; [done|]. pose proof (CORE_chs _ _ C4) as Hch4.
  assert (Hnre : forall a, a ∉ map c_arena new ≫= achs t3 -> lnk_same t3 t4 a).
  { intros a Ha. apply Ho4. intros q s Hin. destruct (Hs _ _ _ Hin) as [Hq Hk]. apply Ha.
    apply elem_of_list_bind. exists (AInt q). split; [|done]. by eapply elem_of_list_lookup_2. }
  assert (Hkl : forall c, kidl t4 c = kidl t3 c).
  { intros c. unfold kidl. destruct (c_arena c); [done|]. by rewrite (co_kids C4). }
  constructor.
  - apply R.
  - rewrite (co_kids C4). apply R.
  - intros c Hin. destruct (rs_new _ _ _ _ _ _ _ R c Hin) as (m & K0 & ? & ? & ? & ? & ?).
    exists m, K0. rewrite (co_kids C4). split_and!; try done; [by left|].
    rewrite (co_an C4), (rs_an _ _ _ _ _ _ _ R). apply (wt_fresh W).
    by destruct (Hold (AInt m)) as (? & [= <-] & _ & ?).
  - apply R.
  - intros m. rewrite (co_kids C4). apply R.
  - rewrite <- (rs_grand _ _ _ _ _ _ _ R). by apply bind_ext_in.
  - intros j ? ? ?. rewrite (co_kids C4). by apply R.
  - intros x. rewrite (co_el C4). apply R.
  - rewrite (co_root C4). apply R.
  - rewrite (co_rc C4). apply R.
  - by rewrite (co_an C4), (rs_an _ _ _ _ _ _ _ R).
  - by rewrite (co_al C4), (rs_al _ _ _ _ _ _ _ R).
  - intros k a. rewrite Hch4. intros Hk. eapply lnk_same_linked; [|by apply Hpk].
    apply Hnre. intros (b & Hb & Hbn)%elem_of_list_bind. destruct (Hold b (Hno b Hbn)) as (q & -> & _).
    destruct (Hglv q a Hbn Hb) as (_ & Hx & _). apply Hx. by eapply elem_of_list_lookup_2.
  - intros q k a Hq. rewrite Hch4. intros Hk.
    destruct (Hc a q k Hq Hk) as [Hin|Hk0]; [by apply Hl4|].
    destruct (decide (Exists (fun x => x.1.1 = a) re)) as [He|He].
    + apply Exists_exists in He as ([[a' q'] s'] & Hin & [= ->]).
      destruct (Hs _ _ _ Hin) as [Hq' Hk']. destruct (Huq a q k q' s') as [-> ->]; auto.
    + eapply lnk_same_linked; [|by apply (lk_ch K)].
      assert (a ∈ chs t3 q) as Ha by (by eapply elem_of_list_lookup_2).
      destruct (Hglv q a Hq Ha) as (? & ? & _).
      eapply lnk_same_trans; [by apply Hoth|]. apply Ho4. intros q' s' Hin. apply He.
      apply Exists_exists. by eexists.
  - intros a Hl Hap Hn. rewrite Hch4 in Hap. rewrite (CORE_live _ _ C4) in Hl.
    eapply lnk_same_trans; [by apply Hoth|]. apply Hnre.
    intros (b & Hb & Hbn)%elem_of_list_bind. destruct (Hold b (Hno b Hbn)) as (q & -> & _).
    apply (Hn q Hbn). by rewrite Hch4.
Qed.

Lemma ups_ok t t2 p (pre suf : list child) : LK t ->
  kids t2 p = Some (pre ++ suf) -> NoDup (map c_arena (pre ++ suf)) ->
  (forall a, a ∈ map c_arena (pre ++ suf) -> exists m, a = AInt m /\ is_Some (kids t2 m) /\ a ∈ chs t p) ->
  (forall m, is_Some (kids t2 m) -> lnk t2 m = lnk t m) ->
  (forall k a, map c_arena pre !! k = Some a -> chs t p !! k = Some a) ->
  exists t3, update_children_parent_slot_from t2 (AInt p) (length pre) = Ok t3 /\ CORE t2 t3 /\
    (forall k a, chs t3 p !! k = Some a -> linked t3 a p k) /\
    (forall a, a ∉ chs t2 p -> lnk_same t2 t3 a).
Proof.
  intros K Hk Hnd Hin Hl Hpre.
  destruct (get_in_kids t2 p _ Hk) as (po & s & Hg & _).
  rewrite map_app in Hin, Hnd. 
  assert (Hpl : forall k a, map c_arena pre !! k = Some a -> linked t2 a p k).
  { intros k a Hka. destruct (Hin a) as (m & -> & Hm & _); [apply elem_of_app; left; by eapply elem_of_list_lookup_2|].
    apply Hpre, (lk_ch K) in Hka. cbn in *. by rewrite Hl. }
  unfold update_children_parent_slot_from, get_internal. rb. rewrite Hg. rb.
  destruct (bool_decide (length (pre ++ suf) <= length pre)) eqn:Eb.
  { cbn [orb]. apply bool_decide_eq_true in Eb. rewrite app_length in Eb.
    assert (suf = []) as -> by (apply length_zero_iff_nil; lia).
    exists t2. split; [done|]. split; [apply CORE_refl|]. split; [|intros; apply lnk_same_refl].
    intros k a. rewrite (chs_kids _ _ _ Hk), app_nil_r. apply Hpl. }
  apply bool_decide_eq_false in Eb. rewrite app_length in Eb. cbn [orb].
  unfold is_child_leaf. rb.
  assert (match pre ++ suf with [] => true | c0 :: _ => is_leaf (c_arena c0) end = false) as ->.
  { destruct (pre ++ suf) as [|c0 l'] eqn:El; [apply (f_equal length) in El; rewrite app_length in El; cbn in El; lia|].
    destruct (Hin (c_arena c0)) as (m & -> & _); [|done].
    rewrite <- map_app, El. left. }
  rewrite drop_app_alt by done.
  destruct (set_slots_ok suf t2 (length pre)) as (t3 & E3 & C3 & Ho3 & Hs3).
  { intros a Ha. destruct (Hin a) as (m & -> & ? & _); [apply elem_of_app; by right|]. eauto. }
  { by apply NoDup_app in Hnd as (_ & _ & ?). }
  exists t3. split; [done|]. split; [done|]. split.
  - intros k a. rewrite (CORE_chs _ _ C3), (chs_kids _ _ _ Hk), map_app. intros Hka.
    destruct (decide (k < length pre)) as [D|D].
    + rewrite lookup_app_l in Hka by (by rewrite map_length).
      eapply lnk_same_linked; [|by apply Hpl]. apply Ho3. apply NoDup_app in Hnd as (_ & Hd & _).
      apply Hd. by eapply elem_of_list_lookup_2.
    + rewrite lookup_app_r in Hka by (rewrite map_length; lia). rewrite map_length in Hka.
      destruct (Hin a) as (m & -> & Hm & Hc); [apply elem_of_app; right; by eapply elem_of_list_lookup_2|].
      apply elem_of_list_lookup in Hc as [k0 Hc]. apply (lk_ch K) in Hc. cbn in Hc. rewrite <- Hl in Hc by done.
      cbn. rewrite (Hs3 _ _ _ _ Hka Hc). do 2 f_equal. lia.
  - intros a Ha. apply Ho3. intros Hx. apply Ha. rewrite (chs_kids _ _ _ Hk), map_app. set_solver.
Qed.

Lemma RS_core t t2 t3 p l old new r : CORE t2 t3 -> RS t t2 p l old new r -> RS t t3 p l old new r.
Proof.
  intros C R. 
  assert (Hkl : forall c, kidl t3 c = kidl t2 c).
  { intros c. unfold kidl. destruct (c_arena c); [done|]. by rewrite (co_kids C). }
  constructor; try (intros; rewrite ?(co_kids C), ?(co_el C), ?(co_root C), ?(co_rc C), ?(co_an C), ?(co_al C); by apply R).
  - intros c Hc. destruct (rs_new _ _ _ _ _ _ _ R c Hc) as (m & K & ?). exists m, K. by rewrite (co_kids C).
  - rewrite <- (rs_grand _ _ _ _ _ _ _ R). by apply bind_ext_in.
Qed.

Lemma re_in cs q from a p s : (a, p, s) ∈ re_entries cs q from <->
  p = q /\ from <= s /\ map c_arena cs !! (s - from) = Some a.
Proof.
  unfold re_entries. rewrite elem_of_list_lookup. split.
  - intros [k Hk]. rewrite list_lookup_imap in Hk. destruct (cs !! k) as [c|] eqn:Ec; cbn in Hk; [|done].
    injection Hk as <- <- <-. split; [done|]. split; [lia|].
    replace (from + k - from) with k by lia. rewrite list_lookup_fmap, Ec. done.
  - intros (-> & Hle & Hl). rewrite list_lookup_fmap in Hl. destruct (cs !! (s - from)) as [c|] eqn:Ec; cbn in Hl; [|done].
    injection Hl as <-. exists (s - from). rewrite list_lookup_imap, Ec. cbn. do 2 f_equal. lia.
Qed.

Lemma calc_ok (n : node B) K (c0 : Cache B) : Forall (cvalid L) (map c_cache K) -> n_children n = K -> K <> [] ->
  exists d, calc_cache n c0 None = Ok (summ L (map c_cache K), d).
Proof.
  intros HF Hn Hne. destruct (lw_calc _ L c0 (map c_cache K)) as (d & Ed & _); [done| |].
  - left. by destruct K.
  - exists d. unfold calc_cache. by rewrite Hn.
Qed.

(** two adjacent children [ca], [cb] of [p] *)
Section pair.
  Context {E : nat -> Prop} {t : btree} {H : nat} {lv : nat -> nat} {p ai bi : nat} {l r : list child} {ca cb : child}
    {A Bc : list child}.
  Context (W : WT E t H lv) (K : LK t) (V : VA t) (Hkp : kids t p = Some (l ++ [ca; cb] ++ r)) (Hlp : 0 < lv p)
    (Ea : c_arena ca = AInt ai) (Eb : c_arena cb = AInt bi) (HA : kids t ai = Some A) (HB : kids t bi = Some Bc).

  Lemma pr_chs : chs t p = map c_arena l ++ [AInt ai; AInt bi] ++ map c_arena r.
  Proof using All. rewrite (chs_kids _ _ _ Hkp), !map_app. cbn. by rewrite Ea, Eb. Qed.
  Lemma pr_nd : NoDup (map c_arena l ++ [AInt ai; AInt bi] ++ map c_arena r).
  Proof using All. rewrite <- pr_chs. apply (wt_nodup W). Qed.
  Lemma pr_ne : ai <> bi /\ ai <> p /\ bi <> p.
  Proof using All.
    pose proof pr_nd as Hn. apply NoDup_app in Hn as (_ & _ & Hn). apply NoDup_app in Hn as (Hn & _).
    apply NoDup_cons in Hn as [Hn _].
    assert (AInt ai ∈ chs t p /\ AInt bi ∈ chs t p) as [Hi1 Hi2] by (rewrite pr_chs; set_solver).
    destruct (wt_int_child W _ _ Hi1 Hlp) as (? & [= <-] & ?), (wt_int_child W _ _ Hi2 Hlp) as (? & [= <-] & ?).
    split_and!; [|intros ->; lia|intros ->; lia]. intros ->. apply Hn. left.
  Qed.
  Lemma pr_val : Forall (cvalid L) (map c_cache (A ++ Bc)).
  Proof using All. rewrite map_app. apply Forall_app. split; by eapply VA_kids. Qed.
  Lemma pr_int a : a ∈ map c_arena l \/ a ∈ map c_arena r \/ a = AInt ai \/ a = AInt bi ->
    exists m, a = AInt m /\ is_Some (kids t m) /\ a ∈ chs t p /\ m <> p.
  Proof using All.
    intros Ha. assert (a ∈ chs t p) as Hin by (rewrite pr_chs; set_solver).
    destruct (wt_int_child W _ _ Hin Hlp) as (m & -> & Hm). exists m.
    pose proof (wt_live_child W _ _ Hin). split_and!; try done. intros ->. lia.
  Qed.

  (** moving children between the two *)
  Lemma borrow_ok A' B' re (na nb np : node B) :
    get_in t ai = Ok na -> get_in t bi = Ok nb -> get_in t p = Ok np ->
    A' ++ B' = A ++ Bc -> A' <> [] -> B' <> [] ->
    let ca' := mkChild (AInt ai) (summ L (map c_cache A')) in
    let cb' := mkChild (AInt bi) (summ L (map c_cache B')) in
    (forall a q s, (a, q, s) ∈ re -> (q = ai /\ map c_arena A' !! s = Some a) \/ (q = bi /\ map c_arena B' !! s = Some a)) ->
    (forall a k, map c_arena A' !! k = Some a -> (a, ai, k) ∈ re \/ map c_arena A !! k = Some a) ->
    (forall a k, map c_arena B' !! k = Some a -> (a, bi, k) ∈ re \/ map c_arena Bc !! k = Some a) ->
    let t2 := set_in (set_in (set_in t ai (with_children na A')) bi (with_children nb B')) p
                 (with_children np (l ++ [ca'; cb'] ++ r)) in
    exists t4, apply_re_parent t2 re = Ok t4 /\ RD t t4 p l [ca; cb] [ca'; cb'] r /\
      kids t4 ai = Some A' /\ kids t4 bi = Some B'.
  Proof using All.
    intros Ga Gb Gp HAB HA' HB' ca' cb' Hs HcA HcB t2.
    destruct pr_ne as (N1 & N2 & N3).
    apply get_in_inv in Ga as [Ka La], Gb as [Kb Lb], Gp as [Kp Lp].
    assert (K2 : forall j, kids t2 j = if decide (p = j) then Some (l ++ [ca'; cb'] ++ r) else
       if decide (bi = j) then Some B' else if decide (ai = j) then Some A' else kids t j).
    { intros j. unfold t2. rewrite !kids_set_in. done. }
    assert (L2 : forall j, lnk t2 j = lnk t j).
    { intros j. unfold t2. rewrite !lnk_set_in. repeat case_decide; subst; cbn; congruence. }
    assert (K2a : kids t2 ai = Some A') by (rewrite K2; by dds).
    assert (K2b : kids t2 bi = Some B') by (rewrite K2; by dds).
    assert (Hcp2 : chs t2 p = chs t p).
    { rewrite pr_chs. rewrite (chs_kids t2 p (l ++ [ca'; cb'] ++ r)) by (rewrite K2; by dds). by rewrite !map_app. }
    assert (R : RS t t2 p l [ca; cb] [ca'; cb'] r).
    { constructor; cbn [map]; rewrite ?Ea, ?Eb.
      - done.
      - rewrite K2. by dds.
      - intros c [-> |[-> |?%not_elem_of_nil]%elem_of_cons]%elem_of_cons; [| |done].
        + exists ai, A'. split_and!; try done. left.
        + exists bi, B'. split_and!; try done. right. left.
      - cbn. constructor; [|apply NoDup_singleton]. intros [= ?]%elem_of_list_singleton. done.
      - cbn. intros m Hm Hn. done.
      - cbn. unfold kidl. rewrite Ea, Eb. cbn. rewrite K2a, K2b, HA, HB. cbn. rewrite !app_nil_r. done.
      - intros j Hj Hn. rewrite K2. rewrite !decide_False; [done| | |done]; intros ->; apply Hn; inl.
      - done.
      - done.
      - done.
      - done.
      - done. }
    destruct (rd_intro E t t2 H lv p l [ca; cb] [ca'; cb'] r re W K Hlp R) as (t4 & E4 & C4 & R4).
    - intros k a. rewrite Hcp2. intros Hk. apply (lk_ch K) in Hk. destruct a; cbn in *; [done|]. by rewrite L2.
    - intros [x|m] _ _; cbn; [done|]. apply L2.
    - intros a q s [[-> Hx]|[-> Hx]]%Hs; cbn; (split; [inl|]).
      + by rewrite (chs_kids _ _ _ K2a).
      + by rewrite (chs_kids _ _ _ K2b).
    - cbn. intros a q k [[= ->]|[= ->]%elem_of_list_singleton]%elem_of_cons.
      + rewrite (chs_kids _ _ _ K2a), (chs_kids _ _ _ HA). apply HcA.
      + rewrite (chs_kids _ _ _ K2b), (chs_kids _ _ _ HB). apply HcB.
    - exists t4. split; [done|]. split; [done|]. by rewrite !(co_kids C4).
  Qed.

  (** moving all children into one of them, [y], and dropping the other, [z] *)
  Lemma merge_ok y z re pre suf (ny np : node B) :
    (y = ai /\ z = bi) \/ (y = bi /\ z = ai) ->
    get_in t y = Ok ny -> get_in t p = Ok np -> A ++ Bc <> [] ->
    let c' := mkChild (AInt y) (summ L (map c_cache (A ++ Bc))) in
    pre ++ suf = l ++ [c'] ++ r -> (pre = l \/ (pre = l ++ [c'] /\ y = ai)) ->
    (forall a q s, (a, q, s) ∈ re -> q = y /\ map c_arena (A ++ Bc) !! s = Some a) ->
    (forall a k, map c_arena (A ++ Bc) !! k = Some a -> (a, y, k) ∈ re \/ chs t y !! k = Some a) ->
    forall t2, (forall j, kids t2 j = if decide (z = j) then None else if decide (p = j) then Some (l ++ [c'] ++ r)
                else if decide (y = j) then Some (A ++ Bc) else kids t j) ->
    (forall j, lnk t2 j = if decide (z = j) then None else lnk t j) ->
    (forall x, el t2 x = el t x) -> (forall x, llnk t2 x = llnk t x) -> root t2 = root t -> root_cache t2 = root_cache t ->
    anext (in_nodes t2) = anext (in_nodes t) -> anext (leaf_nodes t2) = anext (leaf_nodes t) ->
    exists t3 t4, update_children_parent_slot_from t2 (AInt p) (length pre) = Ok t3 /\
      apply_re_parent t3 re = Ok t4 /\ RD t t4 p l [ca; cb] [c'] r /\ kids t4 y = Some (A ++ Bc).
  Proof using All.
    intros Hyz Gy Gp Hne c' Hps Hpre Hs Hc t2 K2 L2 El2 Ll2 R2 Rc2 An2 Al2.
    destruct pr_ne as (N1 & N2 & N3).
    assert (N4 : y <> z /\ y <> p /\ z <> p) by (destruct Hyz as [[-> ->]|[-> ->]]; auto). destruct N4 as (N4 & N5 & N6).
    assert (K2p : kids t2 p = Some (l ++ [c'] ++ r)) by (rewrite K2; by dds).
    assert (K2y : kids t2 y = Some (A ++ Bc)) by (rewrite K2; by dds).
    pose proof pr_nd as Hnd.
    assert (Hz : AInt z ∉ map c_arena l /\ AInt z ∉ map c_arena r /\ AInt y ∉ map c_arena l /\ AInt y ∉ map c_arena r).
    { apply NoDup_app in Hnd as (_ & Hd1 & Hd2). apply NoDup_app in Hd2 as (_ & Hd2 & _).
      assert (Hd3 : forall a, a = AInt ai \/ a = AInt bi -> a ∉ map c_arena l /\ a ∉ map c_arena r).
      { intros a Ha. split.
        - intros Hx. apply (Hd1 _ Hx). clear -Ha. inl.
        - apply Hd2. clear -Ha. inl. }
      destruct (Hd3 (AInt z)), (Hd3 (AInt y)); destruct Hyz as [[-> ->]|[-> ->]]; auto. }
    destruct Hz as (Z1 & Z2 & Z3 & Z4).
    assert (Hint2 : forall a, a ∈ map c_arena (l ++ [c'] ++ r) -> exists m, a = AInt m /\ is_Some (kids t2 m) /\ a ∈ chs t p).
    { intros a. rewrite !map_app, !elem_of_app. cbn. intros [Ha|[->%elem_of_list_singleton|Ha]].
      - destruct (pr_int a) as (m & -> & Hm & Hc2 & Hmp); [by left|]. exists m. split; [done|]. split; [|done].
        rewrite K2. rewrite decide_False by (intros ->; done). rewrite decide_False by done. case_decide; eauto.
      - exists y. split; [done|]. split; [eauto|]. rewrite pr_chs. clear -Hyz. destruct Hyz as [[-> ->]|[-> ->]]; inl.
      - destruct (pr_int a) as (m & -> & Hm & Hc2 & Hmp); [by right; left|]. exists m. split; [done|]. split; [|done].
        rewrite K2. rewrite decide_False by (intros ->; done). rewrite decide_False by done. case_decide; eauto. }
    destruct (ups_ok t t2 p pre suf K) as (t3 & E3 & C3 & Hl3 & Ho3).
    - by rewrite Hps.
    - rewrite Hps, !map_app. cbn. apply NoDup_app in Hnd as (D1 & D2 & D3). apply NoDup_app in D3 as (_ & _ & D3).
      apply NoDup_app. split; [done|]. split.
      + intros a Ha [->|Hr]%elem_of_cons; [done|]. apply (D2 a Ha). clear -Hr. inl.
      + by constructor.
    - rewrite Hps. apply Hint2.
    - intros m Hm. rewrite L2. case_decide; [|done]. subst m. rewrite K2, decide_True in Hm by done. by destruct Hm.
    - intros k a Hk. rewrite pr_chs. destruct Hpre as [-> |[-> ->]].
      + by apply lookup_app_l_Some.
      + rewrite map_app in Hk. cbn in Hk. change [AInt ai; AInt bi] with ([AInt ai] ++ [AInt bi]).
        rewrite <- app_assoc. rewrite app_assoc. by apply lookup_app_l_Some.
    - assert (R : RS t t2 p l [ca; cb] [c'] r).
      { constructor; cbn [map]; rewrite ?Ea, ?Eb.
        - done.
        - done.
        - intros c ->%elem_of_list_singleton. exists y, (A ++ Bc). split_and!; try done.
          clear -Hyz. destruct Hyz as [[-> ->]|[-> ->]]; inl.
        - cbn. apply NoDup_singleton.
        - cbn. intros m Hm Hn. assert (m = z) as ->.
          { assert (m <> y) by (intros ->; apply Hn; left). apply elem_of_cons in Hm as [Hm|Hm%elem_of_list_singleton]; destruct Hyz as [[-> ->]|[-> ->]]; congruence. }
          rewrite K2. by dds.
        - cbn. unfold kidl. rewrite Ea, Eb. cbn. rewrite K2y, HA, HB. cbn. rewrite !app_nil_r. done.
        - intros j Hj Hn. rewrite K2. rewrite !decide_False; [done| |done|]; intros ->; apply Hn; clear -Hyz;
            destruct Hyz as [[-> ->]|[-> ->]]; inl.
        - done.
        - done.
        - done.
        - done.
        - done. }
      apply (RS_core t t2 t3) in R; [|done].
      destruct (rd_intro E t t3 H lv p l [ca; cb] [c'] r re W K Hlp R) as (t4 & E4 & C4 & R4).
      + done.
      + intros a Hal Hnp. rewrite (CORE_chs _ _ C3) in Hnp. rewrite (CORE_live _ _ C3) in Hal.
        eapply lnk_same_trans; [|by apply Ho3]. destruct a as [x|m]; cbn; [done|].
        rewrite L2. case_decide; [|done]. subst m. cbn in Hal. rewrite K2, decide_True in Hal by done. by destruct Hal.
      + intros a q s [-> Hx]%Hs. cbn. split; [left|]. by rewrite (CORE_chs _ _ C3), (chs_kids _ _ _ K2y).
      + cbn. intros a q k [= ->]%elem_of_list_singleton. rewrite (CORE_chs _ _ C3), (chs_kids _ _ _ K2y). apply Hc.
      + exists t3, t4. split; [done|]. split; [done|]. split; [done|].
        by rewrite (co_kids C4), (co_kids C3).
  Qed.
End pair.

(** dropping an empty child *)
Lemma drop_empty_ok E t H lv p x l c r t2 :
  WT E t H lv -> LK t -> 0 < lv p -> kids t p = Some (l ++ [c] ++ r) -> c_arena c = AInt x -> kids t x = Some [] ->
  (forall j, kids t2 j = if decide (x = j) then None else if decide (p = j) then Some (l ++ r) else kids t j) ->
  (forall j, lnk t2 j = if decide (x = j) then None else lnk t j) ->
  (forall x, el t2 x = el t x) -> (forall x, llnk t2 x = llnk t x) -> root t2 = root t -> root_cache t2 = root_cache t ->
  anext (in_nodes t2) = anext (in_nodes t) -> anext (leaf_nodes t2) = anext (leaf_nodes t) ->
  exists t3, update_children_parent_slot_from t2 (AInt p) (length l) = Ok t3 /\ RD t t3 p l [c] [] r.
Proof.
  intros W K Hlp Hkp Ec Hkx K2 L2 El2 Ll2 R2 Rc2 An2 Al2.
  assert (Hcp : chs t p = map c_arena l ++ AInt x :: map c_arena r).
  { rewrite (chs_kids _ _ _ Hkp), !map_app. cbn. by rewrite Ec. }
  pose proof (wt_nodup W p) as Hnd. rewrite Hcp in Hnd.
  assert (Hxp : x <> p).
  { assert (AInt x ∈ chs t p) as Hin by (rewrite Hcp; set_solver).
    destruct (wt_int_child W _ _ Hin Hlp) as (? & [= <-] & ?). intros ->. lia. }
  assert (K2p : kids t2 p = Some (l ++ r)) by (rewrite K2; by dds).
  destruct (ups_ok t t2 p l r K) as (t3 & E3 & C3 & Hl3 & Ho3); try done.
  - rewrite map_app. apply NoDup_app in Hnd as (D1 & D2 & D3). apply NoDup_cons in D3 as [D3 D4].
    apply NoDup_app. split_and!; [done| |done]. intros a Ha Hr. apply (D2 a Ha). by right.
  - intros a. rewrite map_app. intros Ha.
    assert (a ∈ chs t p) as Hin by (rewrite Hcp; set_solver).
    destruct (wt_int_child W _ _ Hin Hlp) as (m & -> & Hm). exists m. split; [done|]. split; [|done].
    pose proof (wt_live_child W _ _ Hin) as Hml. cbn in Hml.
    rewrite K2. rewrite decide_False.
    { case_decide; [eauto|done]. }
    intros <-. apply NoDup_app in Hnd as (D1 & D2 & D3). apply NoDup_cons in D3 as [D3 D4].
    apply elem_of_app in Ha as [Ha|Ha]; [|done]. apply (D2 _ Ha). left.
  - intros m Hm. rewrite L2. case_decide; [|done]. subst m. rewrite K2, decide_True in Hm by done. by destruct Hm.
  - intros k a Hk. rewrite Hcp. by apply lookup_app_l_Some.
  - exists t3. split; [done|].
    assert (R : RS t t2 p l [c] [] r).
    { constructor; try done; cbn [map]; rewrite ?Ec.
      - by intros ? ?%elem_of_nil.
      - by constructor.
      - intros m [= ->]%elem_of_list_singleton _. rewrite K2. by dds.
      - cbn. unfold kidl. by rewrite Ec, Hkx.
      - intros j Hj Hn. rewrite K2. rewrite !decide_False; [done|done|]. intros ->. apply Hn. left. }
    apply (RS_core t t2 t3) in R; [|done].
    destruct (rd_intro E t t3 H lv p l [c] [] r [] W K Hlp R) as (t4 & E4 & _ & R4).
    + done.
    + intros a Hal Hnp. rewrite (CORE_chs _ _ C3) in Hnp. rewrite (CORE_live _ _ C3) in Hal.
      eapply lnk_same_trans; [|by apply Ho3]. destruct a as [y|m]; cbn; [done|].
      rewrite L2. case_decide; [|done]. subst m. cbn in Hal. rewrite K2, decide_True in Hal by done. by destruct Hal.
    + by intros ? ? ? ?%elem_of_nil.
    + by intros ? ? ? ?%elem_of_nil.
    + cbn in E4. by injection E4 as ->.
Qed.

Lemma pair_split {T} (X : list T) s u v : X !! s = Some u -> X !! S s = Some v ->
  exists l r, X = l ++ [u; v] ++ r /\ length l = s.
Proof.
  intros Hu Hv. exists (take s X), (drop (S (S s)) X). split.
  - rewrite <- (take_drop_middle X s u Hu) at 1. f_equal. cbn. f_equal.
    by apply drop_S.
  - rewrite take_length. apply lookup_lt_Some in Hu. lia.
Qed.
Lemma delete_range_prefix {T} (X : list T) k : k <= length X -> delete_range X 0 k = Ok (drop k X).
Proof.
  intros Hk. unfold delete_range. case_decide as D; [by subst|]. rewrite decide_False by lia.
  case_decide as D2.
  - assert (k = 1) as -> by lia. unfold vec_remove. destruct X as [|x X]; cbn in Hk; [lia|]. done.
  - rewrite decide_True by lia. done.
Qed.
Lemma delete_range_suffix {T} (X : list T) k : k <= length X -> delete_range X k (length X) = Ok (take k X).
Proof.
  intros Hk. unfold delete_range. case_decide as D; [subst; by rewrite firstn_all|]. rewrite decide_False by lia.
  case_decide as D2.
  - unfold vec_remove. destruct (X !! k) as [x|] eqn:E; [|apply lookup_ge_None in E; lia].
    cbn. rewrite (drop_ge X) by lia. by rewrite app_nil_r.
  - rewrite decide_True by lia. rewrite (drop_ge X) by lia. by rewrite app_nil_r.
Qed.

(** result of one step of underflow handling of [x] below [p] *)
Inductive hls_res t x p : option aidx -> btree -> Prop :=
| hr_only : chs t p = [AInt x] -> chs t x <> [] -> hls_res t x p (Some (AInt p)) t
| hr_empty l c r t' : c_arena c = AInt x -> chs t x = [] -> RD t t' p l [c] [] r ->
    hls_res t x p (Some (AInt p)) t'
| hr_borrow l ca cb r ai bi A' B' t' :
    c_arena ca = AInt ai -> c_arena cb = AInt bi -> x = ai \/ x = bi -> chs t x <> [] ->
    RD t t' p l [ca; cb] [mkChild (AInt ai) (summ L (map c_cache A')); mkChild (AInt bi) (summ L (map c_cache B'))] r ->
    kids t' ai = Some A' -> kids t' bi = Some B' ->
    12 <= length (chs t ai) + length (chs t bi) -> 
    length A' + length B' = length (chs t ai) + length (chs t bi) ->
    6 <= length A' -> 6 <= length B' -> length A' <= S (length B') -> length B' <= S (length A') ->
    hls_res t x p (if decide (length (chs t' p) < 6) then Some (AInt p) else None) t'
| hr_merge l ca cb r ai bi y cs t' :
    c_arena ca = AInt ai -> c_arena cb = AInt bi -> x = ai \/ x = bi -> chs t x <> [] ->
    y = x ->
    RD t t' p l [ca; cb] [mkChild (AInt y) (summ L (map c_cache cs))] r ->
    kids t' y = Some cs ->
    length cs = length (chs t ai) + length (chs t bi) -> length cs < 12 ->
    hls_res t x p (if decide (length (chs t' p) < 6) then Some (AInt p) else None) t'.

Lemma half_bounds u v : u <= v -> 12 <= u + v -> v <= 12 ->
  let ml := (v - u) / 2 in ml <= v /\ 6 <= u + ml /\ 6 <= v - ml /\ u + ml <= 12 /\ u + ml <= v - ml /\ v - ml <= S (u + ml).
Proof.
  intros H1 H2 H3 ml. pose proof (Nat.div_mod (v - u) 2 ltac:(lia)) as D. fold ml in D.
  pose proof (Nat.mod_upper_bound (v - u) 2 ltac:(lia)). split_and!; lia.
Qed.

Lemma bd_if {T} (P : Prop) `{Decision P} (u v : T) : (if bool_decide P then u else v) = if decide P then u else v.
Proof. unfold bool_decide, decide, decide_rel. by destruct H. Qed.
Lemma set_cc_mid l c r (v : Cache B) : set_child_cache (l ++ c :: r) (length l) v = Ok (l ++ mkChild (c_arena c) v :: r).
Proof.
  unfold set_child_cache, vec_get. rewrite list_lookup_middle by done. rb.
  rewrite insert_app_r_alt by done. by rewrite Nat.sub_diag.
Qed.
Lemma vec_remove_mid {T} (l : list T) (c : T) (r : list T) : vec_remove (l ++ c :: r) (length l) = Ok (c, l ++ r).
Proof.
  unfold vec_remove. rewrite list_lookup_middle by done. 
  rewrite take_app. rewrite (cons_middle c l r), app_assoc, drop_app_alt; [done|]. rewrite app_length. cbn. lia.
Qed.

Lemma hls_ok E t H lv x :
  WT E t H lv -> LK t -> VA t -> SZ t 12 -> is_Some (kids t x) -> AInt x <> root t ->
  exists p o t', lv p = S (lv x) /\ AInt x ∈ chs t p /\ handle_lack_single_layer t (AInt x) = Ok (o, t') /\ hls_res t x p o t'.
Proof.
  intros W K V Z [csx Hkx] Hr.
  destruct (parent_of W K x ltac:(eauto) Hr) as (p & s & csp & c & np & Hlk & Hg & Hkp & Hn & Hc & Ha & Hlv & Hpx).
  assert (Gx : get_in t x = Ok (mkNode (Some (AInt p)) s csx)) by (by apply get_in_proj).
  assert (Hlp : 0 < lv p) by lia.
  assert (Hin : AInt x ∈ chs t p).
  { rewrite (chs_kids _ _ _ Hkp), <- Ha. apply elem_of_list_fmap_1. by eapply elem_of_list_lookup_2. }
  exists p. unfold handle_lack_single_layer. rewrite decide_False by congruence. rb.
  rewrite Gx. rb. rewrite Hg. rb. rewrite Hn. unfold vec_get at 1. rewrite Hc. rb. rewrite bool_decide_true by done. cbn [rassert]. rb.
  destruct csx as [|c0 csx'].
  { (* empty *)
    destruct (insert_split csp s c c Hc) as (l & r & El & _ & Hll). subst s.
    rewrite El. rewrite vec_remove_mid. rb.
    destruct (drop_empty_ok E t H lv p x l c r (rem_in (set_in t p (with_children np (l ++ r))) x) W K Hlp)
      as (t3 & E3 & R3); try done.
    - by rewrite Hkp, El.
    - intros j. rewrite kids_rem_in, kids_set_in. done.
    - intros j. rewrite lnk_rem_in, lnk_set_in. repeat case_decide; try done. subst j. cbn.
      apply get_in_inv in Hg as [_ Hg]. by rewrite Hg.
    - exists (Some (AInt p)), t3. split; [done|]. split; [done|]. split; [by rewrite E3|].
      eapply hr_empty; [done| |done]. by rewrite (chs_kids _ _ _ Hkx). }
  set (csx := c0 :: csx') in *.
  assert (Hcx : chs t x <> []) by (by rewrite (chs_kids _ _ _ Hkx)).
  unfold pair_neighbor, get_internal. rb. rewrite Gx. rb. rewrite Hg. rb. rewrite Hn.
  assert (Hmain : forall l ca cb r ai bi, csp = l ++ [ca; cb] ++ r -> c_arena ca = AInt ai -> c_arena cb = AInt bi ->
    x = ai \/ x = bi ->
    exists o t', lv p = S (lv x) /\ AInt x ∈ chs t p /\
     (let? ca := vec_get csp (length l) in
            let? cb := vec_get csp (S (length l)) in
            let? ai := unwrap_internal (AInt ai) in
            let? bi := unwrap_internal (AInt bi) in
            let? _ := rassert (negb (bool_decide (ai = bi))) in
            let? na := get_in t ai in
            let? nb := get_in t bi in
            let A := n_children na in
            let Bc := n_children nb in
            if decide (12 <= length A + length Bc) then
              let? (A', B', re) :=
                if decide (length A < length Bc) then
                  let ml := (length Bc - length A) / 2 in
                  let A' := A ++ take ml Bc in
                  let? _ := rassert (bool_decide (length A' <= 12)) in
                  let? B' := delete_range Bc 0 ml in
                  Ok (A', B', re_entries (take ml Bc) ai (length A) ++ re_entries B' bi 0)
                else
                  let ml := (length A - length Bc) / 2 in
                  let B' := drop (length A - ml) A ++ Bc in
                  let? _ := rassert (bool_decide (length B' <= 12)) in
                  let? A' := delete_range A (length A - ml) (length A) in
                  Ok (A', B', re_entries Bc bi ml ++ re_entries B' bi 0) in
              let a' := with_children na A' in
              let b' := with_children nb B' in
              let t := set_in (set_in t ai a') bi b' in
              let? (ac, _) := calc_cache a' (c_cache ca) None in
              let? (bc, _) := calc_cache b' (c_cache cb) None in
              let? pn := get_in t p in
              let? cs := set_child_cache (n_children pn) (length l) ac in
              let? cs := set_child_cache cs (S (length l)) bc in
              let pn := with_children pn cs in
              let t := set_in t p pn in
              let? t := apply_re_parent t re in
              Ok (if is_lack pn then Some (AInt p) else None, t)
            else
              let? _ := rassert (bool_decide (length (A ++ Bc) <= 12)) in
              let? (lack, re, t) :=
                if decide (AInt x = AInt ai) then
                  let a' := with_children na (A ++ Bc) in
                  let t := set_in (set_in t ai a') bi (with_children nb []) in
                  let? (ac, _) := calc_cache a' (c_cache ca) None in
                  let? pn := get_in t p in
                  let? cs := set_child_cache (n_children pn) (length l) ac in
                  let? (_, cs) := vec_remove cs (S (length l)) in
                  let pn := with_children pn cs in
                  let t := set_in t p pn in
                  let? t := purge t (AInt bi) in
                  let? t := update_children_parent_slot_from t (AInt p) (S (length l)) in
                  Ok (is_lack pn, re_entries Bc ai (length A), t)
                else
                  let b' := with_children nb (A ++ Bc) in
                  let t := set_in (set_in t ai (with_children na [])) bi b' in
                  let? (bc, _) := calc_cache b' (c_cache cb) None in
                  let? pn := get_in t p in
                  let? cs := set_child_cache (n_children pn) (S (length l)) bc in
                  let? (_, cs) := vec_remove cs (length l) in
                  let pn := with_children pn cs in
                  let t := set_in t p pn in
                  let? t := purge t (AInt ai) in
                  let? t := update_children_parent_slot_from t (AInt p) (length l) in
                  Ok (is_lack pn, re_entries A bi 0 ++ re_entries Bc bi (length A), t) in
              let? t := apply_re_parent t re in
              Ok (if (lack : bool) then Some (AInt p) else None, t)) = Ok (o, t') /\ hls_res t x p o t').
  { intros l ca cb r ai bi Ecs Ea Eb Hx. rewrite Ecs in Hkp.
    assert (Hca : csp !! length l = Some ca) by (rewrite Ecs; by apply list_lookup_middle).
    assert (Hcb : csp !! S (length l) = Some cb).
    { rewrite Ecs. cbn. rewrite (cons_middle ca l (cb :: r)), app_assoc. apply list_lookup_middle. rewrite app_length. cbn. lia. }
    assert (is_Some (kids t ai) /\ is_Some (kids t bi)) as [[A HA] [Bc HB]].
    { split; [apply (wt_live_child W p (AInt ai))|apply (wt_live_child W p (AInt bi))];
        rewrite (chs_kids _ _ _ Hkp), !map_app; cbn; rewrite ?Ea, ?Eb; set_solver. }
    destruct (pr_ne W K V Hkp Hlp Ea Eb HA HB) as (N1 & N2 & N3).
    pose proof (pr_val W K V Hkp Hlp Ea Eb HA HB) as Hval.
    unfold vec_get. rewrite Hca, Hcb. rb. rewrite bool_decide_eq_false_2 by done. cbn [negb rassert rbind].
    destruct (get_in_kids _ _ _ HA) as (poa & sa & Ga & La). rewrite Ga. rb.
    destruct (get_in_kids _ _ _ HB) as (pob & sb & Gb & Lb). rewrite Gb. rb. cbn zeta. rb.
    destruct np as [pop sop csp0]. cbn in Hn. subst csp0.
    pose proof (get_in_inv _ _ _ Hg) as [_ Lp]. cbn in Lp.
    pose proof (Z ai) as Za. pose proof (Z bi) as Zb. rewrite (chs_kids _ _ _ HA), map_length in Za. rewrite (chs_kids _ _ _ HB), map_length in Zb.
    unfold with_children. cbn [n_children n_parent n_slot].
    destruct (decide (12 <= length A + length Bc)) as [D|D].
    - (* borrow *)
      assert (exists A' B' re, 
        (if decide (length A < length Bc) then
                  let? _ := rassert (bool_decide (length (A ++ take ((length Bc - length A) / 2) Bc) <= 12)) in
                  let? B' := delete_range Bc 0 ((length Bc - length A) / 2) in
                  Ok (A ++ take ((length Bc - length A) / 2) Bc, B', re_entries (take ((length Bc - length A) / 2) Bc) ai (length A) ++ re_entries B' bi 0)
                else
                  let? _ := rassert (bool_decide (length (drop (length A - (length A - length Bc) / 2) A ++ Bc) <= 12)) in
                  let? A' := delete_range A (length A - (length A - length Bc) / 2) (length A) in
                  Ok (A', drop (length A - (length A - length Bc) / 2) A ++ Bc, re_entries Bc bi ((length A - length Bc) / 2) ++ re_entries (drop (length A - (length A - length Bc) / 2) A ++ Bc) bi 0)) = Ok (A', B', re) /\
        A' ++ B' = A ++ Bc /\ 6 <= length A' /\ 6 <= length B' /\ length A' <= S (length B') /\ length B' <= S (length A') /\
        (forall a q s, (a, q, s) ∈ re -> (q = ai /\ map c_arena A' !! s = Some a) \/ (q = bi /\ map c_arena B' !! s = Some a)) /\
        (forall a k, map c_arena A' !! k = Some a -> (a, ai, k) ∈ re \/ map c_arena A !! k = Some a) /\
        (forall a k, map c_arena B' !! k = Some a -> (a, bi, k) ∈ re \/ map c_arena Bc !! k = Some a))
        as (A' & B' & re & Ere & HAB & LA & LB & LAB & LBA & Q1 & Q2 & Q3).
      { case_decide as D2.
        - destruct (half_bounds (length A) (length Bc)) as (G1 & G2 & G3 & G4 & G5 & G6); [lia..|].
          set (ml := (length Bc - length A) / 2) in *.
          rewrite bool_decide_eq_true_2 by (rewrite app_length, take_length; lia). cbn [rassert rbind].
          rewrite delete_range_prefix by lia. rb. eexists _, _, _. split; [done|].
          rewrite <- app_assoc, take_drop. split; [done|]. rewrite app_length, take_length, drop_length.
          split_and!; try lia.
          + intros a q s' [Hq|Hq]%elem_of_app; apply re_in in Hq as (-> & G7 & G8); [left|right]; (split; [done|]).
            * rewrite map_app, lookup_app_r by (rewrite map_length; lia). by rewrite map_length.
            * by rewrite Nat.sub_0_r in G8.
          + intros a k. rewrite map_app. intros [Hk|[Hk1 Hk2]]%lookup_app_Some; [by right|]. left.
            rewrite map_length in *. apply elem_of_app. left. apply re_in. auto.
          + intros a k Hk. left. apply elem_of_app. right. apply re_in. rewrite Nat.sub_0_r. split_and!; [done|lia|done].
        - destruct (half_bounds (length Bc) (length A)) as (G1 & G2 & G3 & G4 & G5 & G6); [lia..|].
          set (ml := (length A - length Bc) / 2) in *.
          rewrite bool_decide_eq_true_2 by (rewrite app_length, drop_length; lia). cbn [rassert rbind].
          rewrite delete_range_suffix by lia. rb. eexists _, _, _. split; [done|].
          rewrite app_assoc, take_drop. split; [done|]. rewrite app_length, take_length, drop_length.
          split_and!; try lia.
          + intros a q s' [Hq|Hq]%elem_of_app; apply re_in in Hq as (-> & G7 & G8); right; (split; [done|]).
            * rewrite map_app, lookup_app_r by (rewrite map_length, drop_length; lia). rewrite map_length, drop_length.
              replace (length A - (length A - ml)) with ml by lia. done.
            * by rewrite Nat.sub_0_r in G8.
          + intros a k Hk. right. rewrite <- (take_drop (length A - ml) A), map_app. by apply lookup_app_l_Some.
          + intros a k Hk. left. apply elem_of_app. right. apply re_in. rewrite Nat.sub_0_r. split_and!; [done|lia|done]. }
      rewrite Ere. rb. cbn zeta. rb.
      assert (HnA : A' <> []) by (by intros ->; cbn in LA; lia).
      assert (HnB : B' <> []) by (by intros ->; cbn in LB; lia).
      rewrite <- HAB, map_app, Forall_app in Hval. destruct Hval as [VA1 VB1].
      destruct (calc_ok (with_children (mkNode poa sa A) A') A' (c_cache ca) VA1 eq_refl HnA) as [da Eda].
      destruct (calc_ok (with_children (mkNode pob sb Bc) B') B' (c_cache cb) VB1 eq_refl HnB) as [db Edb].
      unfold with_children in Eda, Edb; rb; cbn [n_parent n_slot] in Eda, Edb.
      unfold calc_cache in Eda, Edb; cbn [n_children] in Eda, Edb. rewrite Eda. rb. rewrite Edb. rb.
      assert (Gp2 : get_in (set_in (set_in t ai (mkNode poa sa A')) bi (mkNode pob sb B')) p = Ok (mkNode pop sop csp)).
      { apply get_in_proj.
        - rewrite !kids_set_in, !decide_False by done. by rewrite Hkp, Ecs.
        - rewrite !lnk_set_in, !decide_False by done. done. }
      rewrite Gp2. rb. rewrite Ecs. cbn [app]. rewrite set_cc_mid. rb.
      replace (l ++ mkChild (c_arena ca) (summ L (map c_cache A')) :: cb :: r)
        with ((l ++ [mkChild (c_arena ca) (summ L (map c_cache A'))]) ++ cb :: r) by (by rewrite <- app_assoc).
      replace (S (length l)) with (length (l ++ [mkChild (c_arena ca) (summ L (map c_cache A'))])) by (rewrite app_length; cbn; lia).
      rewrite set_cc_mid. rb. rewrite <- app_assoc. rewrite Ea, Eb.
      destruct (borrow_ok W K V Hkp Hlp Ea Eb HA HB A' B' re (mkNode poa sa A) (mkNode pob sb Bc) (mkNode pop sop csp) Ga Gb Hg HAB HnA HnB Q1 Q2 Q3)
        as (t4 & E4 & R4 & K4a & K4b).
      unfold with_children in E4. cbn [n_children n_parent n_slot] in E4. cbn [app] in E4 |- *. rewrite E4. rb.
      eexists _, t4. split; [done|]. split; [done|]. split; [done|].
      assert (is_lack (mkNode pop sop (l ++ mkChild (AInt ai) (summ L (map c_cache A')) :: mkChild (AInt bi) (summ L (map c_cache B')) :: r))
        = bool_decide (length (chs t4 p) < 6)) as ->.
      { unfold is_lack. cbn [n_children]. rewrite (chs_kids _ _ _ (rd_p' _ _ _ _ _ _ _ _ R4)), map_length. done. }
      rewrite bd_if.
      assert (hls_res t x p (if decide (length (chs t4 p) < 6) then Some (AInt p) else None) t4) as HR.
      { eapply (hr_borrow t x p l ca cb r ai bi A' B' t4); try done.
        - by rewrite (chs_kids _ _ _ HA), (chs_kids _ _ _ HB), !map_length.
        - rewrite (chs_kids _ _ _ HA), (chs_kids _ _ _ HB), !map_length.
          apply (f_equal length) in HAB. by rewrite !app_length in HAB. }
      exact HR.
    - (* merge *)
      rewrite bool_decide_eq_true_2 by (rewrite app_length; lia). cbn [rassert rbind].
      assert (HAne : A ++ Bc <> []).
      { assert (A <> [] \/ Bc <> []) as HX.
        { destruct Hx as [-> | ->]; [left|right]; unfold csx in Hkx; congruence. }
        intros [-> ->]%app_eq_nil. by destruct HX. }
      destruct (calc_ok (mkNode poa sa (A ++ Bc)) (A ++ Bc) (c_cache ca) Hval eq_refl HAne) as [da Eda].
      destruct (calc_ok (mkNode pob sb (A ++ Bc)) (A ++ Bc) (c_cache cb) Hval eq_refl HAne) as [db Edb].
      unfold calc_cache in Eda, Edb; cbn [n_children] in Eda, Edb.
      case_decide as D2.
      + (* b into a *)
        assert (x = ai) as <- by congruence. clear D2.
        rb. rewrite Eda. rb.
        assert (Gp2 : get_in (set_in (set_in t x (mkNode poa sa (A ++ Bc))) bi (mkNode pob sb [])) p = Ok (mkNode pop sop csp)).
        { apply get_in_proj.
          - rewrite !kids_set_in, !decide_False by done. by rewrite Hkp, Ecs.
          - rewrite !lnk_set_in, !decide_False by done. done. }
        rewrite Gp2. rb. rewrite Ecs. cbn [app]. rewrite set_cc_mid. rb. rewrite Ea.
        set (c' := mkChild (AInt x) (summ L (map c_cache (A ++ Bc)))).
        replace (l ++ c' :: cb :: r) with ((l ++ [c']) ++ cb :: r) by (by rewrite <- app_assoc).
        replace (S (length l)) with (length (l ++ [c'])) by (rewrite app_length; cbn; lia).
        rewrite vec_remove_mid. rb.
        set (t2 := set_in (set_in (set_in t x (mkNode poa sa (A ++ Bc))) bi (mkNode pob sb [])) p (mkNode pop sop ((l ++ [c']) ++ r))).
        assert (purge t2 (AInt bi) = Ok (rem_in t2 bi)) as ->.
        { unfold purge. cbn [purge_f].
          assert (get_in t2 bi = Ok (mkNode pob sb [])) as Gz.
          { apply get_in_proj; unfold t2; [rewrite !kids_set_in|rewrite !lnk_set_in]; by dds. }
          unfold get_in in Gz. destruct (a_get (in_nodes t2) bi) as [nz|]; cbn in Gz; [|done].
          injection Gz as ->. cbn [n_children map rev app]. by destruct (total_children t2). }
        rb.
        destruct (merge_ok W K V Hkp Hlp Ea Eb HA HB x bi (re_entries Bc x (length A)) (l ++ [c']) r (mkNode poa sa A) (mkNode pop sop csp)
           ltac:(by left) Ga Hg HAne ltac:(by rewrite <- app_assoc) ltac:(by right)) with (t2 := rem_in t2 bi)
          as (t3 & t4 & E3 & E4 & R4 & K4).
        * intros a q s' (-> & G7 & G8)%re_in. split; [done|].
          rewrite map_app, lookup_app_r by (rewrite map_length; lia). by rewrite map_length.
        * intros a k. rewrite map_app. rewrite (chs_kids _ _ _ HA). intros [Hk|[Hk1 Hk2]]%lookup_app_Some; [by right|]. left.
          rewrite map_length in *. apply re_in. auto.
        * intros j. rewrite kids_rem_in. unfold t2. rewrite !kids_set_in. cbn [n_children]. rewrite <- app_assoc.
          repeat case_decide; first [done|congruence].
        * intros j. rewrite lnk_rem_in. unfold t2. rewrite !lnk_set_in. cbn [n_parent n_slot]. repeat case_decide; first [done|congruence].
        * done.
        * done.
        * done.
        * done.
        * done.
        * done.
        * rewrite E3. rb. rewrite E4. rb.
          eexists _, t4. split; [done|]. split; [done|]. split; [done|].
          assert (is_lack (mkNode pop sop ((l ++ [c']) ++ r)) = bool_decide (length (chs t4 p) < 6)) as ->.
          { unfold is_lack. cbn [n_children]. rewrite (chs_kids _ _ _ (rd_p' _ _ _ _ _ _ _ _ R4)), map_length. by rewrite <- app_assoc. }
          assert (hls_res t x p (if decide (length (chs t4 p) < 6) then Some (AInt p) else None) t4) as HR.
          { eapply (hr_merge t x p l ca cb r x bi x (A ++ Bc) t4); try done; try by left.
            - by rewrite (chs_kids _ _ _ HA), (chs_kids _ _ _ HB), !map_length, app_length.
            - rewrite app_length. lia. }
          rewrite bd_if. exact HR.
      + (* a into b *)
        assert (x = bi) as <- by (destruct Hx; congruence). clear D2.
        rb. rewrite Edb. rb.
        assert (Gp2 : get_in (set_in (set_in t ai (mkNode poa sa [])) x (mkNode pob sb (A ++ Bc))) p = Ok (mkNode pop sop csp)).
        { apply get_in_proj.
          - rewrite !kids_set_in, !decide_False by done. by rewrite Hkp, Ecs.
          - rewrite !lnk_set_in, !decide_False by done. done. }
        rewrite Gp2. rb. rewrite Ecs. cbn [app].
        replace (l ++ ca :: cb :: r) with ((l ++ [ca]) ++ cb :: r) by (by rewrite <- app_assoc).
        replace (S (length l)) with (length (l ++ [ca])) by (rewrite app_length; cbn; lia).
        rewrite set_cc_mid. rb. rewrite Eb.
        set (c' := mkChild (AInt x) (summ L (map c_cache (A ++ Bc)))).
        rewrite <- app_assoc. cbn [app]. rewrite vec_remove_mid. rb.
        set (t2 := set_in (set_in (set_in t ai (mkNode poa sa [])) x (mkNode pob sb (A ++ Bc))) p (mkNode pop sop (l ++ c' :: r))).
        assert (purge t2 (AInt ai) = Ok (rem_in t2 ai)) as ->.
        { unfold purge. cbn [purge_f].
          assert (get_in t2 ai = Ok (mkNode poa sa [])) as Gz.
          { apply get_in_proj; unfold t2; [rewrite !kids_set_in|rewrite !lnk_set_in]; by dds. }
          unfold get_in in Gz. destruct (a_get (in_nodes t2) ai) as [nz|]; cbn in Gz; [|done].
          injection Gz as ->. cbn [n_children map rev app]. by destruct (total_children t2). }
        rb.
        destruct (merge_ok W K V Hkp Hlp Ea Eb HA HB x ai (re_entries A x 0 ++ re_entries Bc x (length A)) l (c' :: r) (mkNode pob sb Bc) (mkNode pop sop csp)
           ltac:(by right) Gb Hg HAne eq_refl ltac:(by left)) with (t2 := rem_in t2 ai)
          as (t3 & t4 & E3 & E4 & R4 & K4).
        * intros a q s' [(-> & G7 & G8)%re_in|(-> & G7 & G8)%re_in]%elem_of_app; (split; [done|]); rewrite map_app.
          -- rewrite Nat.sub_0_r in G8. by apply lookup_app_l_Some.
          -- rewrite lookup_app_r by (rewrite map_length; lia). by rewrite map_length.
        * intros a k. rewrite map_app. intros [Hk|[Hk1 Hk2]]%lookup_app_Some; left; apply elem_of_app.
          -- left. apply re_in. rewrite Nat.sub_0_r. split_and!; [done|lia|done].
          -- right. rewrite map_length in *. apply re_in. auto.
        * intros j. rewrite kids_rem_in. unfold t2. rewrite !kids_set_in. cbn [n_children].
          repeat case_decide; first [done|congruence].
        * intros j. rewrite lnk_rem_in. unfold t2. rewrite !lnk_set_in. cbn [n_parent n_slot]. repeat case_decide; first [done|congruence].
        * done.
        * done.
        * done.
        * done.
        * done.
        * done.
        * rewrite E3. rb. rewrite E4. rb.
          eexists _, t4. split; [done|]. split; [done|]. split; [done|].
          assert (is_lack (mkNode pop sop (l ++ c' :: r)) = bool_decide (length (chs t4 p) < 6)) as ->.
          { unfold is_lack. cbn [n_children]. rewrite (chs_kids _ _ _ (rd_p' _ _ _ _ _ _ _ _ R4)), map_length. done. }
          assert (hls_res t x p (if decide (length (chs t4 p) < 6) then Some (AInt p) else None) t4) as HR.
          { eapply (hr_merge t x p l ca cb r ai x x (A ++ Bc) t4); try done; try by right.
            - by rewrite (chs_kids _ _ _ HA), (chs_kids _ _ _ HB), !map_length, app_length.
            - rewrite app_length. lia. }
          rewrite bd_if. exact HR. }
  assert (Hci : forall k c1, csp !! k = Some c1 -> exists m, c_arena c1 = AInt m).
  { intros k c1 Hk. assert (c_arena c1 ∈ chs t p) as Hi.
    { rewrite (chs_kids _ _ _ Hkp). apply elem_of_list_fmap_1. by eapply elem_of_list_lookup_2. }
    destruct (wt_int_child W _ _ Hi Hlp) as (m & Hm & _). eauto. }
  destruct s as [|s'].
  - destruct (csp !! 1) as [cb|] eqn:E1; rb.
    + destruct (pair_split _ _ _ _ Hc E1) as (l & r & Ecs & Hl). destruct l; [|done].
      destruct (Hci _ _ E1) as [bi Ebi]. 
      destruct (Hmain [] c cb r x bi Ecs Ha Ebi) as (o & t' & Hm1 & Hm2 & Hm3 & Hm4); [by left|].
      exists o, t'. split; [done|]. split; [done|]. split; [|done].
      cbn [fmap option_fmap option_map i_arr i_arena rbind]. rewrite Ebi. exact Hm3.
    + exists (Some (AInt p)), t. split; [done|]. split; [done|]. split; [done|]. apply hr_only; [|done].
      rewrite (chs_kids _ _ _ Hkp). destruct csp as [|c1 [|]]; [done| |done]. cbn in *. injection Hc as ->. by rewrite Ha.
  - destruct (csp !! s') as [ca|] eqn:E1; rb.
    + destruct (pair_split _ _ _ _ E1 Hc) as (l & r & Ecs & Hl). subst s'.
      destruct (Hci _ _ E1) as [ai Eai].
      destruct (Hmain l ca c r ai x Ecs Eai Ha) as (o & t' & Hm1 & Hm2 & Hm3 & Hm4); [by right|].
      exists o, t'. split; [done|]. split; [done|]. split; [|done].
      cbn [fmap option_fmap option_map i_arr i_arena rbind]. rewrite Eai. exact Hm3.
    + exfalso. apply lookup_ge_None in E1. apply lookup_lt_Some in Hc. lia.
Qed.
End lack.
