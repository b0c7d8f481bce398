(** Ucf.v — update_cache_and_elem_with_filter on intact trees. *)
From Verif Require Export FromIter Filter.

Section ucf.
Context {B : BTreeTrait} (L : Lawful B).
Notation btree := (btree B).
Notation node := (node B).
Notation child := (child B).
Notation Cache := (Cache B).
Notation Elem := (Elem B).
Implicit Types (t : btree) (i j m p q k : nat) (a b : aidx) (c : child) (cs : list child).

(** a list of distinct live nodes is no longer than the number of children plus one *)
Lemma live_bound t H lv (W : WT NoE t H lv) (l : list aidx) : NoDup l -> (forall a, a ∈ l -> live t a) -> length l <= S (total_children t).
Proof.
  intros Hnd Hl. set (ks := (map_to_list (amap (in_nodes t))).*1).
  assert (l ⊆+ root t :: concat (map (chs t) ks)) as Hs%submseteq_length.
  { apply NoDup_submseteq; [done|]. intros a Ha. destruct (decide (a = root t)) as [->|Hr]; [left|right].
    destruct (wt_up W a (Hl a Ha) Hr) as (p & k & Hk).
    pose proof (chs_lookup_live _ _ _ _ Hk) as Hp. apply elem_of_list_In, in_concat. exists (chs t p).
    rewrite <- !elem_of_list_In. split; [|by eapply elem_of_list_lookup_2]. apply elem_of_list_fmap_1.
    unfold ks. apply elem_of_list_fmap. destruct Hp as [cs Hp]. unfold kids, a_get in Hp.
    destruct (amap (in_nodes t) !! p) as [n|] eqn:E; [|done]. exists (p, n). split; [done|]. by apply elem_of_map_to_list. }
  cbn [length] in Hs. etrans; [exact Hs|]. apply le_n_S. rewrite <- (sum_keys ks t).
  - clear. induction ks as [|k ks IH]; cbn; [lia|]. rewrite app_length. cbn in IH. lia.
  - apply NoDup_fst_map_to_list.
Qed.

(** pure callbacks: [nc] is what the filter writes, [dr] whether it drills, [g] the element update *)
Context (nc : Cache -> Cache) (dr : Cache -> bool) (g : Elem -> Elem).
Definition pc c : child := mkChild (c_arena c) (nc (c_cache c)).
Definition pn (n : node) : node := with_children n (map pc (n_children n)).
Definition pl (x : leafn B) : leafn B := with_elem x (g (l_elem x)).
Definition pfu (s : unit) (x : Cache) : unit * Cache * bool := (s, nc x, dr x).
Definition pgu (s : unit) (e : Elem) : unit * Elem := (s, g e).

(** the nodes the traversal reaches *)
Inductive Vis t : aidx -> Prop :=
| vis_root : Vis t (root t)
| vis_child i n c : Vis t (AInt i) -> a_get (in_nodes t) i = Some n -> c ∈ n_children n -> dr (c_cache c) = true ->
    Vis t (c_arena c).

Lemma ucf_children_pure cs : ucf_children pfu cs tt = (tt, map pc cs, map c_arena (filter (fun c => dr (c_cache c) = true) cs)).
Proof.
  induction cs as [|c cs IH]; cbn; [done|]. rewrite IH. unfold pc. by destruct (dr (c_cache c)) eqn:E.
Qed.

Record UI t0 (V st : list aidx) t : Prop := {
  u_root : root t = root t0;
  u_rc : root_cache t = root_cache t0;
  u_an : anext (in_nodes t) = anext (in_nodes t0);
  u_al : anext (leaf_nodes t) = anext (leaf_nodes t0);
  u_in : forall i, a_get (in_nodes t) i = if decide (AInt i ∈ V) then pn <$> a_get (in_nodes t0) i else a_get (in_nodes t0) i;
  u_lf : forall l, a_get (leaf_nodes t) l = if decide (ALeaf l ∈ V) then pl <$> a_get (leaf_nodes t0) l else a_get (leaf_nodes t0) l;
  u_nd : NoDup (V ++ st);
  u_vis : forall a, a ∈ V ++ st -> Vis t0 a;
  u_par : forall a, a ∈ V ++ st -> a = root t0 \/ exists p, AInt p ∈ V /\ a ∈ chs t0 p;
  u_rt : root t0 ∈ V ++ st;
  u_cl : forall i n c, AInt i ∈ V -> a_get (in_nodes t0) i = Some n -> c ∈ n_children n -> dr (c_cache c) = true -> c_arena c ∈ V ++ st;
}.

Lemma vis_live t H lv a : WT NoE t H lv -> Vis t a -> live t a.
Proof.
  intros W. induction 1 as [|i n c V IH Hn Hc Hd]; [apply (root_live W)|].
  apply (wt_live_child W i). rewrite (chs_get _ _ _ Hn). by apply elem_of_list_fmap_1.
Qed.

Lemma ucf_run t0 H lv (W : WT NoE t0 H lv) f : forall V st t, UI t0 V st t -> length V + f = S (total_children t0) ->
  exists V' t', ucf_f pfu pgu f t st tt = Ok (tt, t') /\ UI t0 V' [] t'.
Proof.
  induction f as [|f IH]; intros V st t U Hf.
  all: destruct st as [|x st]; [exists V, t; by split|].
  - exfalso. pose proof (live_bound t0 H lv W (V ++ x :: st) (u_nd _ _ _ _ U)) as Hb.
    rewrite app_length in Hb. cbn [length] in Hb. feed specialize Hb; [|lia].
    intros a Ha. eapply vis_live; [done|]. by apply (u_vis _ _ _ _ U).
  - pose proof (u_nd _ _ _ _ U) as Hnd. pose proof Hnd as (HV & Hd & Hst)%NoDup_app. apply NoDup_cons in Hst as [Hx Hst].
    assert (x ∉ V) as HxV by (intros Hx'; apply (Hd _ Hx'); left).
    assert (Vis t0 x) as Hvx by (apply (u_vis _ _ _ _ U); apply elem_of_app; right; left).
    pose proof (vis_live _ _ _ _ W Hvx) as Hlx.
    assert (HP : forall y, y ∈ (V ++ [x]) ++ st <-> y ∈ V ++ x :: st).
    { intros y. by rewrite <- app_assoc. }
    cbn [ucf_f]. destruct x as [l|i].
    + cbn in Hlx. destruct (a_get (leaf_nodes t0) l) as [lf|] eqn:El; [|unfold el in Hlx; rewrite El in Hlx; by destruct Hlx].
      assert (get_lf t l = Ok lf) as ->.
      { unfold get_lf. rewrite (u_lf _ _ _ _ U), decide_False, El by done. done. }
      cbn [rbind pgu]. destruct (IH (V ++ [ALeaf l]) st (set_lf t l (with_elem lf (g (l_elem lf))))) as (V' & t' & E & U').
      * constructor; try apply U.
        -- intros i. cbn. rewrite (u_in _ _ _ _ U). apply decide_ext. rewrite elem_of_app, elem_of_list_singleton. by intuition.
        -- intros l'. unfold set_lf, a_get, a_set. cbn. destruct (decide (l = l')) as [<-|Hl].
           ++ rewrite lookup_insert, decide_True by (apply elem_of_app; right; by left). unfold a_get in El. by rewrite El.
           ++ rewrite lookup_insert_ne by done. fold (a_get (leaf_nodes t) l'). rewrite (u_lf _ _ _ _ U). apply decide_ext. rewrite elem_of_app, elem_of_list_singleton. split; [by left|by intros [?|[= <-]]].
        -- by rewrite <- app_assoc.
        -- intros a Ha%HP. by apply (u_vis _ _ _ _ U).
        -- intros a Ha%HP. apply (u_par _ _ _ _ U) in Ha as [?|(p & Hp & Hc)]; [by left|right]. exists p. split; [|done]. apply elem_of_app. by left.
        -- apply HP, U.
        -- intros i n c Hi Hn Hc Hdr. apply HP. apply (u_cl _ _ _ _ U i n); try done. apply elem_of_app in Hi as [?|Hi]; [done|]. by apply elem_of_list_singleton in Hi.
      * rewrite app_length. cbn. lia.
      * exists V', t'. done.
    + cbn in Hlx. destruct (a_get (in_nodes t0) i) as [n|] eqn:Ei; [|unfold kids in Hlx; rewrite Ei in Hlx; by destruct Hlx].
      assert (get_in t i = Ok n) as ->.
      { unfold get_in. rewrite (u_in _ _ _ _ U), decide_False, Ei by done. done. }
      cbn [rbind]. rewrite ucf_children_pure. cbv beta iota.
      set (new := map c_arena (filter (fun c => dr (c_cache c) = true) (n_children n))).
      assert (Hnew : forall a, a ∈ rev new <-> exists c, c ∈ n_children n /\ dr (c_cache c) = true /\ a = c_arena c).
      { intros a. rewrite elem_of_list_In, <- in_rev, <- elem_of_list_In. unfold new. rewrite elem_of_list_fmap. split.
        - intros (c & -> & [? ?]%elem_of_list_filter). eauto.
        - intros (c & ? & ? & ->). exists c. split; [done|]. by apply elem_of_list_filter. }
      assert (Hch : forall a, a ∈ rev new -> a ∈ chs t0 i).
      { intros a (c & Hc & _ & ->)%Hnew. rewrite (chs_get _ _ _ Ei). by apply elem_of_list_fmap_1. }
      assert (Hfr : forall a, a ∈ rev new -> a ∉ V ++ AInt i :: st).
      { intros a Ha Hin. apply Hch in Ha. apply (u_par _ _ _ _ U) in Hin as [->|(p & Hp & Hc)].
        - apply elem_of_list_lookup in Ha as [k Hk]. by eapply (wt_root_nochild W).
        - apply elem_of_list_lookup in Ha as [k Hk]. apply elem_of_list_lookup in Hc as [k' Hk'].
          destruct (wt_uniq W _ _ _ _ _ Hk Hk') as [-> _]. done. }
      assert (HP' : forall y, y ∈ (V ++ [AInt i]) ++ rev new ++ st <-> y ∈ V ++ AInt i :: st \/ y ∈ rev new).
      { intros y. rewrite !elem_of_app, !elem_of_cons, elem_of_nil. tauto. }
      destruct (IH (V ++ [AInt i]) (rev new ++ st) (set_in t i (with_children n (map pc (n_children n))))) as (V' & t' & E & U').
      * constructor; try apply U.
        -- intros j. unfold set_in, a_get, a_set. cbn. destruct (decide (i = j)) as [<-|Hl].
           ++ rewrite lookup_insert, decide_True by (apply elem_of_app; right; by left). unfold a_get in Ei. by rewrite Ei.
           ++ rewrite lookup_insert_ne by done. fold (a_get (in_nodes t) j). rewrite (u_in _ _ _ _ U). apply decide_ext. rewrite elem_of_app, elem_of_list_singleton. split; [by left|by intros [?|[= <-]]].
        -- intros l. cbn. rewrite (u_lf _ _ _ _ U). apply decide_ext. rewrite elem_of_app, elem_of_list_singleton. by intuition.
        -- assert (NoDup (rev new)) as Hnn.
           { rewrite <- (NoDup_Permutation_proper _ _ (Permutation_rev new)). unfold new. pose proof (wt_nodup W i) as Hn. rewrite (chs_get _ _ _ Ei) in Hn. clear -Hn.
             induction (n_children n) as [|c cs IH]; [constructor|]. cbn in Hn. apply NoDup_cons in Hn as [Hc Hn]. rewrite filter_cons. case_decide; [|by apply IH].
             cbn. apply NoDup_cons. split; [|by apply IH]. intros (c' & E & [_ Hc']%elem_of_list_filter)%elem_of_list_fmap. apply Hc. rewrite E. by apply elem_of_list_fmap_1. }
           apply NoDup_app. split_and!.
           ++ apply NoDup_app. split_and!; [done| |apply NoDup_singleton]. intros y Hy ->%elem_of_list_singleton. done.
           ++ intros y Hy Hy2. apply elem_of_app in Hy2 as [Hy2|Hy2].
              ** apply (Hfr _ Hy2). apply elem_of_app. apply elem_of_app in Hy as [?|?%elem_of_list_singleton]; [by left|subst; right; left].
              ** apply elem_of_app in Hy as [Hy|Hy%elem_of_list_singleton]; [|by subst]. apply (Hd _ Hy). by right.
           ++ apply NoDup_app. split_and!; [done| |done]. intros y Hy Hy2. apply (Hfr _ Hy). apply elem_of_app. right. by right.
        -- intros a [Ha|Ha]%HP'; [by apply (u_vis _ _ _ _ U)|]. apply Hnew in Ha as (c & Hc & Hdr & ->). by eapply vis_child.
        -- intros a [Ha|Ha]%HP'.
           ++ apply (u_par _ _ _ _ U) in Ha as [?|(p & Hp & Hc)]; [by left|right]. exists p. split; [|done]. apply elem_of_app. by left.
           ++ right. exists i. split; [apply elem_of_app; right; by left|]. by apply Hch.
        -- apply HP'. left. apply U.
        -- intros j n' c Hj Hn Hc Hdr. apply HP'. apply elem_of_app in Hj as [Hj|Hj%elem_of_list_singleton]; [|injection Hj as ->].
           ++ left. by apply (u_cl _ _ _ _ U j n').
           ++ assert (n' = n) as -> by congruence. right. apply Hnew. eauto.
      * rewrite app_length. cbn. lia.
      * exists V', t'. done.
Qed.

Theorem ucf_frame t H lv : WT NoE t H lv -> exists t', update_cache_and_elem_with_filter pfu pgu t tt = Ok (tt, t') /\
  root t' = root t /\ root_cache t' = root_cache t /\
  anext (in_nodes t') = anext (in_nodes t) /\ anext (leaf_nodes t') = anext (leaf_nodes t) /\
  (forall i, Vis t (AInt i) -> a_get (in_nodes t') i = pn <$> a_get (in_nodes t) i) /\
  (forall i, ~ Vis t (AInt i) -> a_get (in_nodes t') i = a_get (in_nodes t) i) /\
  (forall l, Vis t (ALeaf l) -> a_get (leaf_nodes t') l = pl <$> a_get (leaf_nodes t) l) /\
  (forall l, ~ Vis t (ALeaf l) -> a_get (leaf_nodes t') l = a_get (leaf_nodes t) l) /\
  (forall a, Vis t a \/ ~ Vis t a).
Proof.
  intros W. destruct (ucf_run t H lv W (S (total_children t)) [] [root t] t) as (V & t' & E & U).
  - constructor; try done.
    + apply NoDup_singleton.
    + intros a ->%elem_of_list_singleton. constructor.
    + intros a ->%elem_of_list_singleton. by left.
    + by left.
    + by intros ? ? ? ?%elem_of_nil.
  - done.
  - exists t'. split; [exact E|]. assert (forall a, Vis t a -> a ∈ V) as HV.
    { intros a. induction 1 as [|i n c Hi IH Hn Hc Hd]; [pose proof (u_rt _ _ _ _ U) as Hr|pose proof (u_cl _ _ _ _ U i n c IH Hn Hc Hd) as Hr]; by rewrite app_nil_r in Hr. }
    assert (forall a, a ∈ V -> Vis t a) as HV'.
    { intros a Ha. apply (u_vis _ _ _ _ U). by rewrite app_nil_r. }
    split_and!; try apply U.
    + intros i Hi. rewrite (u_in _ _ _ _ U). by rewrite decide_True by auto.
    + intros i Hi. rewrite (u_in _ _ _ _ U). by rewrite decide_False by auto.
    + intros i Hi. rewrite (u_lf _ _ _ _ U). by rewrite decide_True by auto.
    + intros i Hi. rewrite (u_lf _ _ _ _ U). by rewrite decide_False by auto.
    + intros a. destruct (decide (a ∈ V)); [left|right]; auto.
Qed.

(** ** callbacks that keep the caches right *)
Definition hx (x : nat * Elem) : nat * Elem := (fst x, if dr (get_elem_cache (snd x)) then g (snd x) else snd x).
Record UcfLaw : Prop := {
  ul_val : forall x, evalid L (snd x) -> evalid L (snd (hx x));
  ul_agg : forall ys, ys <> [] -> (forall x, x ∈ ys -> evalid L (snd x)) -> nc (agg L ys) = agg L (map hx ys);
  ul_skip : forall ys, ys <> [] -> (forall x, x ∈ ys -> evalid L (snd x)) -> dr (agg L ys) = false -> forall x, x ∈ ys -> hx x = x;
}.
Context (UL : UcfLaw).

Lemma ios_mem t r d ys : InOrders t r d ys -> forall b, b ∈ r -> exists zs, InOrder t b d zs /\ (forall z, z ∈ zs -> z ∈ ys).
Proof. intros. by eapply ios_in. Qed.
Lemma map_fix (ys : list (nat * Elem)) : (forall x, x ∈ ys -> hx x = x) -> map hx ys = ys.
Proof. intros Hf. rewrite <- (map_id ys) at 2. apply map_ext_in. intros x Hx. apply Hf. by apply elem_of_list_In. Qed.

Section one.
Context {t : btree} {d0 : nat} {xs : list (nat * Elem)} (I : Intact L t d0 xs).
Lemma it_sub a : Reach t a -> exists d ys, InOrder t a d ys /\ (forall x, x ∈ ys -> x ∈ xs).
Proof.
  induction 1 as [|i n c Hi (d & ys & Hio & Hs) Hn Hc].
  - exists d0, xs. split; [apply (in_order _ _ _ _ I)|done].
  - inversion Hio as [|? n' d' ? Hn' Hios]; subst. assert (n' = n) as -> by congruence.
    destruct (ios_in _ _ _ _ Hios (c_arena c)) as (zs & Hz & Hsz); [by apply elem_of_list_fmap_1|].
    exists d', zs. split; [done|]. auto.
Qed.
Lemma sub_child i n c : a_get (in_nodes t) i = Some n -> c ∈ n_children n ->
  exists d ys, InOrder t (c_arena c) d ys /\ ys <> [] /\ (forall x, x ∈ ys -> evalid L (snd x)) /\ c_cache c = agg L ys.
Proof.
  intros Hn Hc. destruct (it_sub (c_arena c)) as (d & ys & Hio & Hs).
  { eapply rc_child; [apply (in_reach_in _ _ _ _ I)| |]; eauto. }
  exists d, ys. split_and!; [done| | |by eapply (in_cache _ _ _ _ I)].
  - eapply it_nonempty; [exact I|done|]. by eapply it_child_nr.
  - intros [l e] Hx. by apply (in_valid _ _ _ _ I l), Hs.
Qed.
Lemma vis_dich (DV : forall a, Vis t a \/ ~ Vis t a) a : Reach t a -> forall d ys, InOrder t a d ys -> Vis t a \/ forall x, x ∈ ys -> hx x = x.
Proof.
  induction 1 as [|i n c Hi IH Hn Hc]; intros d ys Hio; [left; constructor|].
  destruct (it_sub (AInt i) Hi) as (dp & ps & Hp & _). inversion Hp as [|? n' d' ? Hn' Hios]; subst. assert (n' = n) as -> by congruence.
  destruct (ios_in _ _ _ _ Hios (c_arena c)) as (zs & Hz & Hsz); [by apply elem_of_list_fmap_1|].
  rewrite (proj1 (io_det t) _ _ _ Hio _ _ Hz). clear Hio ys d. destruct (IH _ _ Hp) as [V|F]; [|right; auto].
  destruct (sub_child i n c Hn Hc) as (d2 & ys & Hy & Hne & Hv & Hcc).
  rewrite (proj1 (io_det t) _ _ _ Hz _ _ Hy). destruct (dr (c_cache c)) eqn:E.
  - left. by eapply vis_child.
  - right. apply (ul_skip UL); [done|done|]. by rewrite <- Hcc.
Qed.
End one.

Theorem t_ucf t xs : Tree L t xs -> exists t', update_cache_and_elem_with_filter pfu pgu t tt = Ok (tt, t') /\
  root_cache t' = root_cache t /\
  (forall rc, (xs <> [] \/ mono L = true -> rc = agg L (map hx xs)) ->
     Tree L (set_root_cache t' rc) (map hx xs)).
Proof.
  intros T. destruct (Tree_OK L _ _ T) as (H & lv & O & _). pose proof (ok_wt _ _ _ _ O) as W. destruct T as [d I].
  destruct (ucf_frame t H lv W) as (t' & E & Hrt & Hrc & Han & Hal & HI1 & HI2 & HL1 & HL2 & DV).
  exists t'. split_and!; [done|done|]. intros rc Hrc'.
  pose proof (vis_dich I DV) as D.
  assert (F2 : forall l lf, a_get (leaf_nodes t) l = Some lf -> a_get (leaf_nodes t') l = Some (with_elem lf (snd (hx (l, l_elem lf))))).
  { intros l lf Hl. assert (Reach t (ALeaf l)) as HR by (apply (in_reach_lf _ _ _ _ I); eauto).
    destruct (D _ HR 0 _ (io_leaf _ _ _ Hl)) as [V|F].
    - rewrite (HL1 _ V), Hl. cbn. unfold pl. f_equal. f_equal. inversion V as [Hr|i n c Vi Hn Hc Hd Ec].
      + destruct (in_top _ _ _ _ I) as (r & ? & Hr' & _). congruence.
      + rewrite (in_cache _ _ _ _ I i n c 0 [(l, l_elem lf)] Hn Hc) in Hd by (rewrite Ec; by constructor).
        unfold agg in Hd. cbn in Hd. rewrite lw_one in Hd; [by rewrite Hd|]. apply lw_get. apply (in_valid _ _ _ _ I l).
        apply (in_leaf _ _ _ _ I). by rewrite Hl.
    - destruct (DV (ALeaf l)) as [V|V].
      + rewrite (HL1 _ V), Hl. cbn. unfold pl. f_equal. f_equal. inversion V as [Hr|i n c Vi Hn Hc Hd Ec].
        * destruct (in_top _ _ _ _ I) as (r & ? & Hr' & _). congruence.
        * rewrite (in_cache _ _ _ _ I i n c 0 [(l, l_elem lf)] Hn Hc) in Hd by (rewrite Ec; by constructor).
          unfold agg in Hd. cbn in Hd. rewrite lw_one in Hd; [by rewrite Hd|]. apply lw_get. apply (in_valid _ _ _ _ I l).
          apply (in_leaf _ _ _ _ I). by rewrite Hl.
      + rewrite (HL2 _ V), Hl. rewrite (F (l, l_elem lf)) by left. by destruct lf. }
  assert (F2' : forall l, a_get (leaf_nodes t) l = None -> a_get (leaf_nodes t') l = None).
  { intros l Hl. destruct (DV (ALeaf l)) as [V|V]; [rewrite (HL1 _ V)|rewrite (HL2 _ V)]; by rewrite Hl. }
  assert (F1 : forall i n, a_get (in_nodes t) i = Some n -> exists cs', a_get (in_nodes t') i = Some (with_children n cs') /\
    Forall2 (fun c c' => c_arena c' = c_arena c /\ forall d ys, InOrder t (c_arena c) d ys -> c_cache c' = agg L (map hx ys)) (n_children n) cs').
  { intros i n Hn. assert (Reach t (AInt i)) as HR by (apply (in_reach_in _ _ _ _ I); eauto). destruct (DV (AInt i)) as [V|V].
    - exists (map pc (n_children n)). rewrite (HI1 _ V), Hn. split; [done|]. apply Forall2_fmap_r, Forall_Forall2_diag. apply Forall_forall. intros c Hc. split; [done|].
      intros d' ys Hio. destruct (sub_child I i n c Hn Hc) as (d2 & zs & Hz & Hne & Hv & Hcc). rewrite (proj1 (io_det t) _ _ _ Hio _ _ Hz).
      cbn. rewrite Hcc. by apply (ul_agg UL).
    - exists (n_children n). rewrite (HI2 _ V), Hn. split; [by destruct n|]. apply Forall_Forall2_diag, Forall_forall. intros c Hc. split; [done|].
      intros d' ys Hio. rewrite (in_cache _ _ _ _ I _ _ _ _ _ Hn Hc Hio). f_equal. symmetry. apply map_fix.
      destruct (it_sub I (AInt i) HR) as (dp & ps & Hp & _). destruct (D _ HR _ _ Hp) as [?|F]; [done|].
      inversion Hp as [|? n' ? ? Hn' Hios]; subst. assert (n' = n) as -> by congruence.
      destruct (ios_in _ _ _ _ Hios (c_arena c)) as (zs & Hz & Hsz); [by apply elem_of_list_fmap_1|].
      rewrite (proj1 (io_det t) _ _ _ Hio _ _ Hz). auto. }
  assert (F1' : forall i, a_get (in_nodes t) i = None -> a_get (in_nodes t') i = None).
  { intros l Hl. destruct (DV (AInt l)) as [V|V]; [rewrite (HI1 _ V)|rewrite (HI2 _ V)]; by rewrite Hl. }
  assert (Hca : forall (cs cs' : list child), Forall2 (fun c c' => c_arena c' = c_arena c /\ forall d ys, InOrder t (c_arena c) d ys -> c_cache c' = agg L (map hx ys)) cs cs' -> map c_arena cs' = map c_arena cs).
  { induction 1 as [|c c' cs cs' [Hc _] _ IH]; cbn; [done|]. by f_equal. }
  set (t2 := set_root_cache t' rc).
  assert (Gin : in_nodes t2 = in_nodes t') by done. assert (Glf : leaf_nodes t2 = leaf_nodes t') by done.
  assert (Hio : (forall a d ys, InOrder t a d ys -> InOrder t2 a d (map hx ys)) /\ (forall r d ys, InOrders t r d ys -> InOrders t2 r d (map hx ys))).
  { apply InOrder_mut.
    - intros l lf Hl. cbn [map]. pose proof (io_leaf t2 l _ (F2 l lf Hl)) as G. exact G.
    - intros i n d' ys Hn _ IH. destruct (F1 i n Hn) as (cs' & Hn' & HF). eapply io_node; [exact Hn'|]. cbn. by rewrite (Hca _ _ HF).
    - intros. constructor.
    - intros. rewrite map_app. by constructor. }
  destruct Hio as [Hio _].
  assert (Hb1 : forall i n', a_get (in_nodes t') i = Some n' -> exists n, a_get (in_nodes t) i = Some n /\ n' = with_children n (n_children n') /\
     Forall2 (fun c c' => c_arena c' = c_arena c /\ forall d ys, InOrder t (c_arena c) d ys -> c_cache c' = agg L (map hx ys)) (n_children n) (n_children n')).
  { intros i n' Hn'. destruct (a_get (in_nodes t) i) as [n|] eqn:Hn; [|rewrite (F1' _ Hn) in Hn'; done].
    destruct (F1 i n Hn) as (cs' & En & HF). rewrite En in Hn'. injection Hn' as <-. exists n. done. }
  assert (Hb2 : forall l lf', a_get (leaf_nodes t') l = Some lf' -> exists lf, a_get (leaf_nodes t) l = Some lf /\ lf' = with_elem lf (snd (hx (l, l_elem lf)))).
  { intros i n' Hn'. destruct (a_get (leaf_nodes t) i) as [n|] eqn:Hn; [|rewrite (F2' _ Hn) in Hn'; done].
    rewrite (F2 i n Hn) in Hn'. injection Hn' as <-. exists n. done. }
  assert (HR1 : forall a, Reach t a -> Reach t2 a).
  { induction 1 as [|i n c Hi IH Hn Hc]; [rewrite <- Hrt; apply (rc_root t2)|]. destruct (F1 i n Hn) as (cs' & Hn' & HF).
    apply elem_of_list_lookup in Hc as [k Hk]. destruct (Forall2_lookup_l _ _ _ _ _ HF Hk) as (c' & Hk' & <- & _).
    eapply (rc_child t2 i); [done|exact Hn'|]. cbn. by eapply elem_of_list_lookup_2. }
  assert (HR2 : forall a, Reach t2 a -> Reach t a).
  { induction 1 as [|i n' c' Hi IH Hn' Hc']; [change (root t2) with (root t'); rewrite Hrt; constructor|]. destruct (Hb1 i n' Hn') as (n & Hn & _ & HF).
    apply elem_of_list_lookup in Hc' as [k Hk]. destruct (Forall2_lookup_r _ _ _ _ _ HF Hk) as (c & Hk' & -> & _).
    eapply (rc_child t i); [done|exact Hn|]. by eapply elem_of_list_lookup_2. }
  assert (HS1 : forall i, is_Some (a_get (in_nodes t') i) <-> is_Some (a_get (in_nodes t) i)).
  { intros i. destruct (a_get (in_nodes t) i) as [n|] eqn:Hn; [|by rewrite (F1' _ Hn)]. destruct (F1 i n Hn) as (cs' & -> & _). split; eauto. }
  assert (HS2 : forall i, is_Some (a_get (leaf_nodes t') i) <-> is_Some (a_get (leaf_nodes t) i)).
  { intros i. destruct (a_get (leaf_nodes t) i) as [n|] eqn:Hn; [|by rewrite (F2' _ Hn)]. rewrite (F2 i n Hn). split; eauto. }
  assert (Hfst : (map hx xs).*1 = xs.*1).
  { change (map fst (map hx xs) = map fst xs). rewrite map_map. done. }
  exists d. constructor; rewrite ?Gin, ?Glf.
  - change (root t2) with (root t'). rewrite Hrt. apply Hio, (in_order _ _ _ _ I).
  - rewrite Hfst. apply (in_nodup _ _ _ _ I).
  - intros i n' (n & Hn & _ & HF)%Hb1. rewrite <- (Forall2_length _ _ _ HF). by apply (in_fan _ _ _ _ I i).
  - intros i n' (n & Hn & _ & HF)%Hb1 Hr En. apply (in_ne _ _ _ _ I i n Hn).
    + by rewrite <- Hrt.
    + apply Forall2_length in HF. rewrite En in HF. by destruct (n_children n).
  - intros i n' k c' m cn' (n & Hn & _ & HF)%Hb1 Hk Hm (cn & Hcn & Ecn & _)%Hb1. destruct (Forall2_lookup_r _ _ _ _ _ HF Hk) as (c & Hk' & Ec & _).
    rewrite Ecn. cbn. apply (in_up _ _ _ _ I i n k c m cn); try done. congruence.
  - intros i n' k c' l lf' (n & Hn & _ & HF)%Hb1 Hk Hm (lf & Hlf & Elf)%Hb2. destruct (Forall2_lookup_r _ _ _ _ _ HF Hk) as (c & Hk' & Ec & _).
    rewrite Elf. cbn. apply (in_lup _ _ _ _ I i n k c l lf); try done. congruence.
  - destruct (in_top _ _ _ _ I) as (r & rn & Hr & Hn & Hp). destruct (F1 r rn Hn) as (cs' & Hn' & _). exists r, (with_children rn cs'). by rewrite <- Hrt in Hr.
  - intros i. rewrite HS1, <- (in_reach_in _ _ _ _ I). split; auto.
  - intros i. rewrite HS2, <- (in_reach_lf _ _ _ _ I). split; auto.
  - intros i. rewrite HS1, Han. apply (in_old_in _ _ _ _ I).
  - intros i. rewrite HS2, Hal. apply (in_old_lf _ _ _ _ I).
  - intros l e. split.
    + intros ([l' e'] & Ex & Hin)%elem_of_list_fmap. injection Ex as -> ->. apply (in_leaf _ _ _ _ I) in Hin.
      destruct (a_get (leaf_nodes t) l') as [lf|] eqn:Hl; [|done]. injection Hin as <-. by rewrite (F2 _ _ Hl).
    + intros He. destruct (a_get (leaf_nodes t') l) as [lf'|] eqn:Hl'; [|done]. apply Hb2 in Hl' as (lf & Hl & ->). cbn in He. injection He as <-.
      apply elem_of_list_fmap. exists (l, l_elem lf). split; [done|]. apply (in_leaf _ _ _ _ I). by rewrite Hl.
  - intros i n' c' d' zs (n & Hn & _ & HF)%Hb1 Hc' Hz. apply elem_of_list_lookup in Hc' as [k Hk].
    destruct (Forall2_lookup_r _ _ _ _ _ HF Hk) as (c & Hk' & Ec & Hcc).
    destruct (sub_child I i n c Hn) as (d2 & ys & Hy & _); [by eapply elem_of_list_lookup_2|].
    rewrite (Hcc _ _ Hy). f_equal. rewrite Ec in Hz. eapply (proj1 (io_det t2)); [by apply Hio|done].
  - intros Hx. cbn. apply Hrc'. destruct Hx as [Hx|]; [left|by right]. by destruct xs.
  - intros l e ([l' e'] & Ex & Hin)%elem_of_list_fmap. rewrite (surjective_pairing (hx (l', e'))) in Ex. injection Ex as -> ->. apply (ul_val UL (l', e')). cbn. by apply (in_valid _ _ _ _ I l').
Qed.
End ucf.

(** the statements of the properties file *)
Section ucf_props.
Context {B : BTreeTrait} (L : Lawful B) (nc : Cache B -> Cache B) (dr : Cache B -> bool) (g : Elem B -> Elem B).
Lemma t_ucf_frame (t : btree B) xs : Tree L t xs -> exists t', update_cache_and_elem_with_filter (pfu nc dr) (pgu g) t tt = Ok (tt, t') /\
  root t' = root t /\ root_cache t' = root_cache t /\
  anext (in_nodes t') = anext (in_nodes t) /\ anext (leaf_nodes t') = anext (leaf_nodes t) /\
  (forall i, Vis dr t (AInt i) -> a_get (in_nodes t') i = pn nc <$> a_get (in_nodes t) i) /\
  (forall i, ~ Vis dr t (AInt i) -> a_get (in_nodes t') i = a_get (in_nodes t) i) /\
  (forall l, Vis dr t (ALeaf l) -> a_get (leaf_nodes t') l = pl g <$> a_get (leaf_nodes t) l) /\
  (forall l, ~ Vis dr t (ALeaf l) -> a_get (leaf_nodes t') l = a_get (leaf_nodes t) l).
Proof.
  intros T. destruct (Tree_OK L _ _ T) as (H & lv & O & _). destruct (ucf_frame nc dr g t H lv (ok_wt _ _ _ _ O)) as (t' & ? & ? & ? & ? & ? & ? & ? & ? & ? & _).
  exists t'. split_and!; done.
Qed.
Lemma t_ucf_effect (t : btree B) xs : Tree L t xs -> UcfLaw L nc dr g -> exists t', update_cache_and_elem_with_filter (pfu nc dr) (pgu g) t tt = Ok (tt, t') /\
  root_cache t' = root_cache t /\
  Tree L (set_root_cache t' (agg L (map (hx dr g) xs))) (map (hx dr g) xs) /\
  (agg L (map (hx dr g) xs) = agg L xs -> Tree L t' (map (hx dr g) xs)).
Proof.
  intros T UL. destruct (t_ucf L nc dr g UL t xs T) as (t' & E & Hrc & HT). exists t'. split; [done|]. split; [done|]. split; [by apply HT|].
  intros Ha. assert (t' = set_root_cache t' (root_cache t')) as -> by (by destruct t'). apply HT. intros Hne. rewrite Hrc, Ha.
  destruct T as [d I]. by apply (in_root_cache _ _ _ _ I).
Qed.
End ucf_props.
