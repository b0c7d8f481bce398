(** RopeP.v — the rope is a byte string: every [insert] and [delete_range] acts on the bytes as
    the list operation, and the cached cursor stays right. *)
From Verif Require Export Flat RopeFl Facts Thick2.

Section help.
Context {B : BTreeTrait} (L : Lawful B).
Notation btree := (btree B).
Notation OK := (OK L).
Notation Tree := (Tree L).
Implicit Types (t : btree) (xs X Y : list (nat * Elem B)).

(** writing an element and refreshing the caches above it, with or without diffs *)
Lemma t_set_elem u t X l e Y e' p od : (u = true -> @USE_DIFF B = true) -> Tree t (X ++ (l, e) :: Y) -> get_lf t l = Ok (mkLeaf e p) -> evalid L e' ->
  (forall d, od = Some d -> u = true -> drel L (get_elem_cache e) d (get_elem_cache e')) ->
  exists t', recursive_update_cache (set_lf t l (mkLeaf e' p)) (ALeaf l) u od = Ok t' /\ Tree t' (X ++ (l, e') :: Y) /\ (forall w, MDw w t -> MDw w t').
Proof.
  intros HU T Hg Ve Hd. apply get_lf_inv in Hg as [He Hl]. cbn [l_elem l_parent] in He, Hl. destruct (Tree_OK L _ _ T) as (H & lv & O & Hc).
  destruct (at_leaf_ok t H lv l e (ok_wt _ _ _ _ O) (ok_lk _ _ _ _ O) He) as (p' & A & c & Z & AL).
  assert (p' = p) as -> by (destruct AL as (_ & _ & _ & _ & Hl' & _); congruence).
  pose proof AL as (Hk & Ha & Hlv & _ & _ & Hget & _).
  pose proof (ok_wt _ _ _ _ O) as W. pose proof (ok_lk _ _ _ _ O) as K. pose proof (ok_va _ _ _ _ O) as V.
  pose proof (RP_set t H lv l e e' p A c Z W AL) as R.
  set (t0 := set_lf t l (mkLeaf e' p)) in *.
  assert (Sh : SH t t0).
  { constructor; try done. intros x. unfold t0. rewrite llnk_set_lf. case_decide; [subst; by rewrite Hl|done]. }
  assert (El : forall x, el t0 x = if decide (l = x) then Some e' else el t x) by (intros x; apply el_set_lf).
  assert (Hcc : c_cache c = get_elem_cache e).
  { rewrite (ok_co _ _ _ _ O p _ c Hk); [|clear; set_solver|by intros []]. rewrite Ha. by apply act_leaf. }
  pose proof (rp_ED L W K Hlv R) as D.
  assert (W' : WT NoE t0 H lv) by (by eapply SH_WT).
  assert (Hdd : forall d, od = Some d -> u = true -> drel L (act L t (AInt p)) d (summ L (map c_cache (<[length A := mkChild (ALeaf l) (get_elem_cache e')]> (A ++ c :: Z))))).
  { intros d Ho Hu. rewrite (act_int _ _ _ _ Hk), (insert_app_r_alt _ _ (length A)) by lia. rewrite Nat.sub_diag. cbn [list_insert]. rewrite !map_app. cbn [map c_cache].
    rewrite Hcc. by apply lw_cong, Hd. }
  destruct (ruc_leaf_gen L u NoE t0 H lv l e' p (A ++ c :: Z) (length A) c od HU W') as (t1 & E1 & S1 & El1 & C1 & V1 & R1); try done.
  + by apply (SH_LK t).
  + rewrite El. by rewrite decide_True.
  + by apply list_lookup_middle.
  + apply (rp_CO L W K Hlv R); [|apply O]. intros c0 ->%elem_of_list_singleton. done.
  + apply (rp_VA L W K Hlv R V).
    * by intros ? ? [= -> ->]%elem_of_list_singleton.
    * intros c0 ->%elem_of_list_singleton. eapply (va_ch _ _ V); [exact Hk|clear; set_solver].
  + apply (ed_RC1 L W D); apply O.
  + intros d0 Ho Hu. cbv zeta. split.
    * intros Hr. change (root_cache t0) with (root_cache t). rewrite (ok_rc _ _ _ _ O) by (right; by apply lw_diff_mono, HU). change (root t0) with (root t) in Hr. rewrite <- Hr. by apply Hdd.
    * intros q cs c1 Hq Hc1 Ha1. change (kids t0 q) with (kids t q) in Hq. rewrite (ok_co _ _ _ _ O q cs c1 Hq Hc1); [|by intros []]. rewrite Ha1. by apply Hdd.
  + exists t1. split; [done|].
    assert (Sh1 : SH t t1) by (destruct Sh, S1; constructor; intros; etrans; eauto).
    assert (O1 : OK t1 H lv).
    { constructor; try done; [by eapply SH_WT|by eapply SH_LK|]. intros j. rewrite (sh_chs Sh1). apply O. }
    assert (Cn : cont t1 H = X ++ (l, e') :: Y).
    { rewrite (SH_cont _ _ _ S1 El1). by rewrite (rp_cont L W K Hlv R e X Y He (eq_sym Hc)). }
    split; [rewrite <- Cn; by eapply OK_Tree|]. intros w. by apply MD_SH.
Qed.

Lemma t_set_elem_diff t X l e Y e' p d : @USE_DIFF B = true -> Tree t (X ++ (l, e) :: Y) -> get_lf t l = Ok (mkLeaf e p) -> evalid L e' ->
  drel L (get_elem_cache e) d (get_elem_cache e') ->
  exists t', recursive_update_cache (set_lf t l (mkLeaf e' p)) (ALeaf l) (USE_DIFF (b := B)) (Some d) = Ok t' /\ Tree t' (X ++ (l, e') :: Y) /\ (forall w, MDw w t -> MDw w t').
Proof. intros HU T Hg Ve Hd. apply (t_set_elem _ t X l e Y e' p); try done. by intros ? [= <-]. Qed.

(** update_leaf, flattened *)
Lemma fs_update_leaf {U} (F : Flatten L U) t X l e Y f e1 (upd : bool) n1 n2 : Tree t (X ++ (l, e) :: Y) ->
  f e = (e1, (upd, n1, n2)) -> evalid L e1 -> (forall x, n1 = Some x -> evalid L x) -> (forall x, n2 = Some x -> evalid L x) ->
  (upd = false -> get_elem_cache (default e1 (head (ul_parts e1 n1 n2))) = get_elem_cache e) ->
  exists alive sl R t', update_leaf t l f = Ok (alive, sl, t') /\ Tree t' (X ++ R) /\
    ft L F R = fl F e1 ++ concat (map (fl F) (olist n1 ++ olist n2)) ++ ft L F Y /\
    ((forall x, evalid L x -> rle_len x = 0 -> can_remove x = true) -> NZ (X ++ (l, e) :: Y) -> NZ (X ++ R)) /\
    (alive = true -> Starts (X ++ R) l (tlen X)) /\ (MDw true t -> MDw true t').
Proof.
  intros T Hf V1 Vn1 Vn2 Hu. destruct (t_update_leaf L t X l e Y f e1 upd n1 n2 T Hf V1 Vn1 Vn2 Hu) as (alive & sl & R & t' & E & T' & HR & _ & M').
  exists alive, sl, R, t'. split; [done|]. split; [done|].
  assert (VF : Forall (evalid L) (e1 :: olist n1 ++ olist n2)).
  { constructor; [done|]. apply Forall_app. split; [destruct n1|destruct n2]; cbn; try constructor; auto; constructor. }
  assert (HP : forall ps, Forall (evalid L) ps -> concat (map (fl F) (filter (fun x => can_remove x = false) ps)) = concat (map (fl F) ps)).
  { induction 1 as [|x ps Vx Vp IH]; [done|]. rewrite filter_cons. case_decide as Hc.
    - cbn. by rewrite IH.
    - cbn. rewrite IH, (fl_rm L U F x Vx); [done|]. by apply not_false_is_true. }
  assert (HP0 : concat (map (fl F) (ul_parts e1 n1 n2)) = fl F e1 ++ concat (map (fl F) (olist n1 ++ olist n2))).
  { unfold ul_parts. by rewrite HP by done. }
  assert (VP : Forall (evalid L) (ul_parts e1 n1 n2)) by (apply Forall_forall; intros x [_ Hx]%elem_of_list_filter; by apply (proj1 (Forall_forall _ _) VF)).
  assert (HN : forall x, x ∈ ul_parts e1 n1 n2 -> can_remove x = false) by (intros x [Hx _]%elem_of_list_filter; done).
  rewrite app_assoc, <- HP0. clear HP0 HP VF.
  assert (VY : forall n y, (n, y) ∈ Y -> evalid L y).
  { intros n y Hin. eapply (tree_valid L _ _ n y T). rewrite elem_of_app, elem_of_cons. auto. }
  split; [|split; [|split; [|exact M']]].
  - revert HN VP. destruct HR as [|x|x y nx ey y' Y' -> Hm Hml|x r ns Hr Hlen Hnd Hfr]; intros HN VP; cbn [map concat].
    + done.
    + by rewrite ft_cons, app_nil_r.
    + rewrite !ft_cons, app_nil_r. apply Forall_cons in VP as [Vx [Vy _]%Forall_cons].
      rewrite (fl_ml L U F y ey y' Vy); [by rewrite !app_assoc| |done|done]. apply (VY nx). left.
    + rewrite ft_cons, ft_app, !app_assoc. do 2 f_equal. clear -Hlen. revert ns Hlen. induction r as [|y r IH]; intros [|n ns] Hlen; try done.
      cbn in *. rewrite <- (IH ns) by lia. done.
  - intros Hz Hn l1 e2 Hin. apply elem_of_app in Hin as [Hin|Hin].
    { apply (Hn l1 e2). rewrite elem_of_app. by left. }
    assert (HNY : forall n y, (n, y) ∈ Y -> rle_len y <> 0).
    { intros n y Hy. apply (Hn n y). rewrite elem_of_app, elem_of_cons. auto. }
    assert (HNP : forall x, x ∈ ul_parts e1 n1 n2 -> rle_len x <> 0).
    { intros x Hx H0. specialize (HN x Hx). rewrite Hz in HN; [done| |done]. by apply (proj1 (Forall_forall _ _) VP). }
    clear Hu T Hf. revert HN VP HNP. destruct HR as [|x|x y nx ey y' Y' -> Hm Hml|x r ns Hr Hlen Hnd Hfr]; intros HN VP HNP.
    + by apply (HNY l1).
    + apply elem_of_cons in Hin as [[= -> ->]|Hin]; [apply HNP; left|by apply (HNY l1)].
    + apply elem_of_cons in Hin as [[= -> ->]|[[= -> ->]|Hin]%elem_of_cons]; [apply HNP; left| |apply (HNY l1); by right].
      apply Forall_cons in VP as [Vx [Vy _]%Forall_cons].
      destruct (lw_ml _ L y ey Vy (VY nx ey ltac:(left)) Hm) as (c & Ec & _ & El & _). rewrite Hml in Ec. injection Ec as <-.
      assert (rle_len y <> 0) by (apply HNP; right; left). lia.
    + apply elem_of_cons in Hin as [[= -> ->]|[Hin|Hin]%elem_of_app]; [apply HNP; left| |by apply (HNY l1)].
      apply HNP. right. apply elem_of_zip_r in Hin. done.
  - intros ->. inversion HR; subst; by eexists _, _, _.
Qed.

(** the leaf left of the one a length query arrives at, in the same node *)
Lemma prev_place t X l e Y (s : lfinder) s' p : Tree t (X ++ (l, e) :: Y) -> lf_place t s (ALeaf l) -> lf_slot s = S s' -> lf_parent s = Some p ->
  exists n c X' l0 e0, get_in t p = Ok n /\ n_children n !! s' = Some c /\ c_arena c = ALeaf l0 /\ c_cache c = get_elem_cache e0 /\ X = X' ++ [(l0, e0)].
Proof.
  intros T (i & n & c & Hn & Hc & Ha & Hp) Hs Hpp. destruct Hp as [[Hp _]|Hp]; [congruence|]. rewrite Hpp in Hp. injection Hp as ->. rewrite Hs in Hc.
  destruct (Tree_OK L _ _ T) as (H & lv & O & Hcn). pose proof (ok_wt _ _ _ _ O) as W. pose proof (ok_lk _ _ _ _ O) as K.
  assert (He : el t l = Some e) by (apply (cont_el (H := H)); rewrite <- Hcn; clear; set_solver).
  destruct (at_leaf_ok t H lv l e W K He) as (p' & A & c' & Z & AL). pose proof AL as (Hk & Ha' & Hlv & _).
  assert (Hki : kids t i = Some (n_children n)) by (unfold kids; by rewrite Hn).
  assert (chs t i !! S s' = Some (ALeaf l)) as H1 by (by rewrite (chs_kids _ _ _ Hki), list_lookup_fmap, Hc, <- Ha).
  assert (chs t p' !! length A = Some (ALeaf l)) as H2.
  { rewrite (chs_kids _ _ _ Hk), list_lookup_fmap, list_lookup_middle by done. cbn. by rewrite Ha'. }
  destruct (wt_uniq W _ _ _ _ _ H1 H2) as [<- Hl]. rewrite Hki in Hk. injection Hk as Hk.
  destruct (exists_last (l := A)) as (A' & c0 & EA); [intros ->; cbn in Hl; lia|]. subst A.
  destruct (at_leaf_prev L t H lv l e i A' c0 c' Z X Y O AL (eq_sym Hcn)) as (l0 & e0 & X' & Ha0 & EX).
  exists n, c0, X', l0, e0. unfold get_in. rewrite Hn. rewrite app_length in Hl. cbn in Hl.
  assert (Hc0 : n_children n !! s' = Some c0). { rewrite Hk, <- app_assoc. apply list_lookup_middle. lia. }
  split_and!; try done. rewrite (ok_co _ _ _ _ O i _ c0 Hki); [|by eapply elem_of_list_lookup_2|by intros []]. rewrite Ha0. apply act_leaf.
  apply (cont_el (H := H)). rewrite <- Hcn, EX. clear. set_solver.
Qed.

Lemma fs_drain_md t xs a b p q (fa fb : bool) k es t' : Tree t xs -> NZ xs -> CurAt xs a p -> CurAt xs b q ->
  (p < q \/ a = b) -> p < tlen xs -> drain_range t (Some (mkQR a fa)) (Some (mkQR b fb)) k = Ok (es, t') -> MDw true t -> MDw true t'.
Proof.
  intros T Hn Ca Cb Hpq Hp. pose proof (tree_nodup L _ _ T) as Hnd.
  destruct (curat_in _ _ _ Ca) as (ea & Ha & Hoa). destruct (curat_in _ _ _ Cb) as (eb & Hb & Hob).
  assert (Hle : cur_le xs a b). { destruct Hpq as [Hpq| ->]; [by eapply curat_le|]. by left. }
  apply (md_drain L t xs a b ea eb fa fb k es t' T Ha Hoa Hb Hob Hle).
  { intros _. by apply (Hn (cu_leaf b)). }
  { intros X Y l e -> _. apply (Hn l e). clear. set_solver. }
  { intros X Ex Hf. exfalso. destruct Ca as (X1 & e1 & Y1 & E1 & H1 & ->). rewrite E1 in Ex, Hnd.
    apply (split_fst_unique _ _ _ _ _ _ _ Hnd) in Ex as (-> & -> & ->). rewrite E1, tlen_snoc in Hp. lia. }
Qed.

(** thick trees are shallow *)
Lemma empty_flat t (h : nat) : Tree t [] -> 1 <= h -> Shallow t h.
Proof.
  intros T Hk. pose proof (t_is_empty L t [] T) as E. pose proof T as [d Id]. destruct (in_top _ _ _ _ Id) as (r & rn & Er & Hr & _).
  exists 1, []. split; [|done]. rewrite Er. econstructor; [done|].
  unfold is_empty in E. rewrite Er in E. unfold get_internal in E. cbn [unwrap_internal rbind] in E. unfold get_in in E. rewrite Hr in E. cbn in E.
  unfold n_is_empty in E. destruct (n_children rn); [constructor|done].
Qed.
Lemma thick_shallow t xs k : Tree t xs -> MDw true t -> 1 <= k -> length xs <= 5 ^ k -> Shallow t k.
Proof.
  intros T M Hk Hl. destruct (decide (xs = [])) as [->|Hne].
  { apply (empty_flat t k T). lia. }
  pose proof T as [d I0]. pose proof (in_order _ _ _ _ I0) as I.
  exists d, xs. split; [exact I|]. destruct (decide (d <= k)) as [|Hd]; [done|]. exfalso.
  pose proof (t_depth_min5 L t d xs T Hne M I ltac:(lia)) as Hlt.
  assert (5 ^ k <= 5 ^ (d - 1)) by (apply Nat.pow_le_mono_r; lia). lia.
Qed.
End help.

Section rope.
Context (CAP : nat) (HCAP : 0 < CAP).
Notation RT := (RopeTrait CAP).
Notation RL := (RopeLaw CAP).
Notation Tree := (Tree RL).
Notation ft := (ft RL (RopeF CAP)).
Notation entry := (nat * Elem RT)%type.
Implicit Types (r : rope CAP) (t : btree RT) (xs X Y : list entry) (s : list nat).

(** ** Specification: the bytes; the cursor names a leaf and the position where it starts; inner nodes
    off the left spine have five children or more *)
Definition RopeOf r s : Prop := exists xs, Tree (rp_tree CAP r) xs /\ ft xs = s /\ NZ xs /\
  (forall pos leaf, rp_cursor CAP r = Some (mkRC pos leaf) -> Starts xs leaf pos) /\ MDw true (rp_tree CAP r).
Definition del (st en : nat) s : list nat := take (Nat.min st en) s ++ drop en s.
Definition ins (i : nat) (x s : list nat) : list nat := take i s ++ x ++ drop i s.

Lemma rv t xs l (e : Elem RT) : Tree t xs -> (l, e) ∈ xs -> gwf CAP e.
Proof. intros T Hin. exact (tree_valid RL t xs l e T Hin). Qed.
Lemma rft_len t xs : Tree t xs -> length (ft xs) = tlen xs.
Proof. intros T. apply ft_len. intros l e Hin. by eapply (rv t xs). Qed.
Lemma rope_root t xs : Tree t xs -> root_cache t = Z.of_nat (tlen xs).
Proof.
  intros [d I]. rewrite (in_root_cache _ _ _ _ I) by (by right). unfold agg. cbn [summ RopeLaw]. clear I.
  induction xs as [|[l e] xs IH]; [done|]. rewrite tlen_cons. cbn [map snd]. rewrite zsum_cons, IH. cbn. lia.
Qed.
Lemma rope_len_ok r s : RopeOf r s -> rope_len CAP r = length s.
Proof. intros (xs & T & <- & _). unfold rope_len. rewrite (rope_root _ _ T), (rft_len _ _ T). lia. Qed.
Lemma rope_empty_ok r s : RopeOf r s -> rope_is_empty CAP r = bool_decide (s = []).
Proof.
  intros (xs & T & <- & _). unfold rope_is_empty. rewrite (rope_root _ _ T). pose proof (rft_len _ _ T).
  destruct (Z.eqb_spec (Z.of_nat (tlen xs)) 0) as [E|E].
  - rewrite bool_decide_eq_true_2; [done|]. apply nil_length_inv. lia.
  - rewrite bool_decide_eq_false_2; [done|]. intros Hx. rewrite Hx in H. cbn in H. lia.
Qed.
Lemma gb_can_remove_zero (e : Elem RT) : evalid RL e -> @rle_len RT e = 0 -> can_remove e = true.
Proof. intros _ H0. cbn in *. by apply bool_decide_eq_true. Qed.

(** chunks of a string *)
Lemma chunks_ok s : exists gs : list (Elem RT), from_str CAP s = Ok gs /\ Forall (evalid RL) gs /\ concat (map (fl (RopeF CAP)) gs) = s /\
  Forall (fun x => @rle_len RT x <> 0) gs /\ @NoAdj RT gs /\
  (forall x y gs0 (e0 : Elem RT), gs = x :: y :: gs0 -> @rle_len RT e0 <> 0 -> can_merge e0 x = false).
Proof.
  destruct (from_str_ok CAP s HCAP) as (gs & E & W & C & P & Fl). exists gs. split; [done|]. split; [done|]. split; [done|]. split.
  { eapply Forall_impl; [exact P|]. cbn. intros x Hx. lia. }
  assert (Hfull : forall i a b, gs !! i = Some a -> gs !! S i = Some b -> gb_len a = CAP).
  { intros i a b Ha Hb. destruct (exists_last (l := gs)) as (gs' & g & Eg); [intros ->; done|].
    specialize (Fl gs' g Eg). rewrite Eg in Ha. assert (Hi : S i < length gs) by (by eapply lookup_lt_Some). rewrite Eg, app_length in Hi. cbn in Hi.
    rewrite lookup_app_l in Ha by lia. by apply (proj1 (Forall_lookup _ _) Fl i a). }
  split.
  - intros i a b Ha Hb. pose proof (Hfull _ _ _ Ha Hb). pose proof (proj1 (Forall_lookup _ _) P _ _ Hb) as Hp. cbn in Hp.
    cbn. unfold gb_can_merge. apply bool_decide_eq_false. lia.
  - intros x y gs0 e0 Eg H0. cbn in *. pose proof (Hfull 0 x y) as Hx. rewrite Eg in Hx. specialize (Hx eq_refl eq_refl).
    unfold gb_can_merge. apply bool_decide_eq_false. lia.
Qed.

Lemma rpush_all_ok (gs : list (Elem RT)) : forall t xs, Tree t xs -> Forall (evalid RL) gs -> exists t' xs', Rope.push_all CAP t gs = Ok t' /\ Tree t' xs' /\
  ft xs' = ft xs ++ concat (map (fl (RopeF CAP)) gs) /\ (NZ xs -> Forall (fun x => @rle_len RT x <> 0) gs -> NZ xs') /\ (MDw true t -> MDw true t').
Proof.
  induction gs as [|g gs IH]; intros t xs T V; cbn [Rope.push_all].
  - exists t, xs. cbn. by rewrite app_nil_r.
  - apply Forall_cons in V as [Vg V]. destruct (t_push RL t xs g T Vg) as (cur & t1 & -> & M1 & _ & Hp). cbn [rbind].
    assert (exists xs1, Tree t1 xs1 /\ ft xs1 = ft xs ++ to_vec g /\ (NZ xs -> @rle_len RT g <> 0 -> NZ xs1)) as (xs1 & T1 & F1 & N1).
    { destruct Hp as [(X & l & e & e' & -> & Hm & Hmr & T1 & _)|(n & _ & T1 & _)].
      - exists (X ++ [(l, e')]). split; [done|]. pose proof (tree_ve RL _ _ _ _ _ T) as Ve.
        split.
        + rewrite !ft_app, !ft_cons, (fl_mr RL nat (RopeF CAP) e g e' Ve Vg Hm Hmr). change (ft []) with (@nil nat). by rewrite !app_nil_r, app_assoc.
        + intros Hn Hg l1 e1 [Hin|[= -> ->]%elem_of_list_singleton]%elem_of_app; [apply (Hn l1 e1); rewrite elem_of_app; by left|].
          destruct (lw_mr _ RL e g Ve Vg Hm) as (c & Ec & _ & El & _). rewrite Hmr in Ec. injection Ec as <-. lia.
      - exists (xs ++ [(n, g)]). split; [done|]. split.
        + rewrite ft_app, ft_cons. change (ft []) with (@nil nat). by rewrite app_nil_r.
        + intros Hn Hg l1 e1 [Hin|[= -> ->]%elem_of_list_singleton]%elem_of_app; [by apply (Hn l1 e1)|done]. }
    destruct (IH t1 xs1 T1 V) as (t' & xs' & E' & T' & F' & N' & M'). exists t', xs'. split; [done|]. split; [done|]. split; [|split; [|auto]].
    + rewrite F', F1, <- app_assoc. done.
    + intros Hn [Hg Hgs]%Forall_cons. auto.
Qed.

(** ** the cursor shortcut of insert *)
Lemma ins_closure_ok (e : Elem RT) off s : evalid RL e -> off <= @rle_len RT e ->
  exists e' rg success, rope_ins_closure CAP e off s = Ok (e', rg, success) /\ evalid RL e' /\ (forall x, rg = Some x -> evalid RL x) /\
    to_vec e' ++ concat (map to_vec (olist rg)) = (if (success : bool) then ins off s (to_vec e) else to_vec e).
Proof.
  intros V Ho. cbn in V, Ho. unfold rope_ins_closure. case_decide as D1.
  - destruct (insert_bytes_ok CAP e off s V Ho) as (g & -> & Wg & Vg); [lia|]. cbn [rbind ropt]. exists g, None, true. split_and!; try done. cbn. by rewrite app_nil_r, Vg.
  - destruct (gb_split_ok CAP e off V Ho) as (lf & rg & -> & Wl & Wr & Vl & Vr). cbn [rbind]. 
    assert (Hsome : forall x, Some rg = Some x -> evalid RL x) by (intros x [= <-]; done).
    case_decide as D2.
    + destruct (push_bytes_ok CAP lf s Wl) as (g & -> & Wg & Vg); [lia|]. cbn [rbind]. exists g, (Some rg), true. split_and!; try done.
      cbn. rewrite app_nil_r, Vg, Vl, Vr. unfold ins. by rewrite app_assoc.
    + destruct (decide (gb_len rg + length s <= CAP)) as [D3|D3].
      * destruct (insert_bytes_ok CAP rg 0 s Wr) as (g & -> & Wg & Vg); [lia|lia|]. cbn [rbind]. exists lf, (Some g), true. split_and!; try done.
        -- intros x [= <-]. done.
        -- cbn. rewrite app_nil_r, Vg, Vl, Vr, take_0, drop_0. done.
      * rewrite (insert_bytes_err CAP) by (done || lia). cbn [rbind]. exists lf, (Some rg), false. split_and!; try done.
        cbn. by rewrite app_nil_r, Vl, Vr, take_drop.
Qed.
Lemma rope_ins_cursor_ok r str i s : RopeOf r str -> i <= length str ->
  exists done r', rope_ins_cursor CAP r i s = Ok (done, r') /\ RopeOf r' (if (done : bool) then ins i s str else str).
Proof.
  intros HR Hi. pose proof HR as (xs & T & Ex & Hn & Hcur & Md). unfold rope_ins_cursor.
  destruct (rp_cursor CAP r) as [[pos leaf]|] eqn:Ec; [|by exists false, r].
  destruct (decide (pos <= i)) as [Hp|Hp]; [|by exists false, r].
  destruct (Hcur pos leaf eq_refl) as (X & e & Y & -> & HX).
  destruct (tree_get_lf RL _ _ leaf e T) as [q Hg]; [clear; set_solver|]. change (@get_lf RT) with (@get_lf (RopeTrait CAP)). rewrite Hg. cbn [rbind l_elem].
  case_decide as D; [|by exists false, r].
  pose proof (tree_ve RL _ _ _ _ _ T) as Ve.
  destruct (ins_closure_ok e (i - pos) s Ve) as (e' & rg & success & -> & Ve' & Vr & Hv); [cbn; lia|]. cbn [rbind].
  destruct (fs_update_leaf RL (RopeF CAP) (rp_tree CAP r) X leaf e Y (fun _ => (e', (true, rg, None))) e' true rg None T eq_refl Ve' Vr) as (alive & sl & R & t' & -> & T' & F' & N' & S' & M'); try done.
  cbn [rbind]. exists success, (mkRope CAP t' (if alive then Some (mkRC pos leaf) else None)). split; [done|].
  exists (X ++ R). cbn [rp_tree rp_cursor]. split; [done|]. split; [|split; [|split; [|by apply M']]].
  - rewrite ft_app, F'. cbn [olist]. rewrite app_nil_r. change (fl (RopeF CAP)) with to_vec. rewrite (app_assoc (to_vec e')). pose proof (f_equal (fun z => ft X ++ z ++ ft Y) Hv) as G. cbn beta in G. etrans; [exact G|]. clear G.
    assert (VX : forall l e, (l, e) ∈ X -> evalid RL e) by (intros l0 e0 Hin; eapply (tree_vX RL _ _ _ _ _ T); exact Hin).
    destruct (ft_cut RL (RopeF CAP) X leaf e Y (i - pos) VX Ve) as [H1 H2]; [cbn; lia|].
    replace (tlen X + (i - pos)) with i in H1, H2 by lia.
    destruct success.
    + rewrite <- Ex. unfold ins. rewrite H1, H2. cbn. by rewrite <- !app_assoc.
    + rewrite <- Ex. by rewrite !ft_app, ft_cons.
  - apply N'; [exact gb_can_remove_zero|done].
  - intros pos' leaf' Hx. destruct alive; [|done]. injection Hx as <- <-. rewrite <- HX. by apply S'.
Qed.

Theorem rope_insert_ok r str i s : RopeOf r str -> i <= length str -> exists r', rope_insert CAP r i s = Ok r' /\ RopeOf r' (ins i s str).
Proof.
  intros HR Hi. unfold rope_insert. rewrite (rope_len_ok r str HR), decide_False by lia.
  rewrite (rope_empty_ok r str HR). destruct (chunks_ok s) as (gs & Egs & Vgs & Cgs & Pgs & Ags & Mgs).
  case_bool_decide as D.
  - subst str. cbn in Hi. destruct HR as (xs & T & Ex & Hn & Hcur & Md). rewrite Egs. cbn [rbind].
    assert (xs = []) as ->. { destruct xs as [|x xs]; [done|]. pose proof (nz_pos _ Hn ltac:(done)) as Hp. rewrite <- (rft_len _ _ T), Ex in Hp. cbn in Hp. lia. }
    destruct (rpush_all_ok gs _ _ T Vgs) as (t' & xs' & -> & T' & F' & N' & M'). cbn [rbind]. eexists. split; [done|]. exists xs'. cbn [rp_tree rp_cursor].
    split; [done|]. split; [|split; [|split; [|by apply M']]].
    + rewrite F', Cgs. change (ft []) with (@nil nat). unfold ins. by rewrite take_nil, drop_nil, app_nil_r.
    + by apply N'.
    + intros pos leaf Hc. destruct (Hcur pos leaf Hc) as (X & e & Y & Hx & _). by destruct X.
  - destruct (rope_ins_cursor_ok r str i s HR Hi) as (dn & r1 & -> & HR1). cbn [rbind]. destruct dn; [by exists r1|]. clear HR r.
    destruct HR1 as (xs & T & Ex & Hn & _ & Md). set (t := rp_tree CAP r1) in *.
    assert (Hne : xs <> []) by (intros ->; by subst str).
    assert (Hlen : length str = tlen xs) by (rewrite <- Ex; by apply (rft_len t)).
    destruct (t_len_query RL rope_get_len t xs i (rope_LenCache CAP) T Hne) as (X & l & e & Y & fs & Exs & HX & HY & EQ & Hpl). subst xs.
    change (RopeFinder CAP) with (@LengthFinder RT rope_get_len). rewrite EQ. cbn [rbind qr_cursor cu_offset cu_leaf fmap option_fmap option_map].
    assert (Hoff : i - tlen X <= @rle_len RT e).
    { rewrite Hlen, tlen_app, tlen_cons in Hi. destruct (decide (tlen X + @rle_len RT e <= i)) as [Hle|]; [|lia]. rewrite (HY Hle), tlen_nil in Hi. lia. }
    destruct (fs_insert_many RL (RopeF CAP) t X l e Y (i - tlen X) gs T Hoff Vgs Ags) as (t' & xs' & Em & T' & F' & K' & N').
    { intros _ X' l0 e0 x y gs0 -> Eg. apply (Mgs x y gs0 e0 Eg). apply (Hn l0 e0). clear. set_solver. }
    rewrite Ex, Cgs in F'. replace (tlen X + (i - tlen X)) with i in F', K' by lia.
    assert (Hcur : exists cur, (if decide (i - tlen X = 0) then
              match lf_slot fs, lf_parent fs with
              | S s', Some p =>
                  let? n := get_in t p in
                  let? c := vec_get (n_children n) s' in
                  let clen : nat := Z.to_nat (c_cache c) in
                  let? _ := rassert (bool_decide (clen <= i)) in
                  Ok (Some (mkRC (i - clen) (raw (c_arena c))))
              | _, _ => Ok None
              end
            else
              let? _ := rassert (bool_decide (i - tlen X <= i)) in
              Ok (Some (mkRC (i - (i - tlen X)) l))) = Ok cur /\ (forall pos leaf, cur = Some (mkRC pos leaf) -> Starts (X ++ (l, e) :: Y) leaf pos /\ pos < i)).
    { destruct (decide (i - tlen X = 0)) as [D0|D0].
      - destruct (lf_slot fs) as [|s'] eqn:Es; [by exists None|]. destruct (lf_parent fs) as [p|] eqn:Ep; [|by exists None].
        destruct (prev_place RL t X l e Y fs s' p T Hpl Es Ep) as (n & c & X' & l0 & e0 & -> & Hc & Ha & Hcc & EX). cbn [rbind].
        unfold vec_get. rewrite Hc. cbn [rbind ropt]. rewrite Hcc. assert (Z.to_nat (get_elem_cache e0) = @rle_len RT e0) as -> by (cbn; lia).
        assert (tlen X = tlen X' + @rle_len RT e0) as HX' by (by rewrite EX, tlen_snoc).
        rewrite bool_decide_eq_true_2 by lia. cbn [rassert rbind]. eexists. split; [done|]. intros pos leaf [= <- <-]. rewrite Ha. cbn [raw].
        assert (@rle_len RT e0 <> 0). { apply (Hn l0 e0). rewrite EX. clear. set_solver. }
        change (gb_len e0) with (@rle_len RT e0). split; [|lia]. exists X', e0, ((l, e) :: Y). split; [by rewrite EX, <- app_assoc|lia].
      - rewrite bool_decide_eq_true_2 by lia. cbn [rassert rbind]. eexists. split; [done|]. intros pos leaf [= <- <-]. split; [|lia].
        exists X, e, Y. split; [done|]. lia. }
    destruct Hcur as (cur & Ecur & Hcur). match goal with |- exists r', rbind ?a ?k = _ /\ _ => assert (a = Ok cur) as -> by exact Ecur end. cbn [rbind].
    rewrite Egs. cbn [rbind]. match goal with |- exists r', rbind ?a ?k = _ /\ _ => assert (a = Ok t') as -> by exact Em end. cbn [rbind].
    eexists. split; [done|]. exists xs'. cbn [rp_tree rp_cursor]. split; [done|]. split; [done|]. split; [by apply N'|]. split.
    { intros pos leaf Hx. destruct (Hcur pos leaf Hx) as [H1 H2]. by apply K'. }
    exact (md_insert_many RL (RopeF CAP) t X l e Y (i - tlen X) gs t' T Hoff Vgs Em Md).
Qed.


(** ** deletion *)
Lemma del_at X l (e g : Elem RT) Y a b : (forall l0 e0, (l0, e0) ∈ X -> evalid RL e0) -> evalid RL e -> a <= b <= @rle_len RT e ->
  to_vec g = take (Nat.min a b) (to_vec e) ++ drop b (to_vec e) ->
  ft X ++ to_vec g ++ ft Y = del (tlen X + a) (tlen X + b) (ft (X ++ (l, e) :: Y)).
Proof.
  intros VX Ve Hab Hg. unfold del. rewrite Nat.min_l by lia. rewrite Nat.min_l in Hg by lia.
  destruct (ft_cut RL (RopeF CAP) X l e Y a VX Ve) as [-> _]; [lia|]. destruct (ft_cut RL (RopeF CAP) X l e Y b VX Ve) as [_ ->]; [lia|].
  rewrite Hg. cbn. by rewrite <- !app_assoc.
Qed.
Lemma shallow_le t j k : Shallow t j -> j <= k -> Shallow t k.
Proof. intros (d & ys & H1 & H2) Hk. exists d, ys. split; [done|lia]. Qed.

Theorem rope_delete_any r str st en : RopeOf r str ->
  (exists r', rope_delete_range CAP r st en = Ok r' /\ RopeOf r' (del st en str)) \/
  (~ Shallow (rp_tree CAP r) 7 /\ rope_delete_range CAP r st en = Panic).
Proof.
  intros HR. unfold rope_delete_range. rewrite (rope_len_ok r str HR), (rope_empty_ok r str HR).
  case_bool_decide as D. { left. exists r. split; [done|]. subst str. unfold del. by rewrite take_nil, drop_nil. }
  assert (Hclamp : del st en str = del (Nat.min st (Nat.min en (length str))) (Nat.min en (length str)) str).
  { unfold del. destruct (decide (en <= length str)) as [He|He].
    - rewrite (Nat.min_l en) by lia. do 2 f_equal. lia.
    - rewrite (Nat.min_r en) by lia. rewrite (drop_ge str en), (drop_ge str (length str)), !app_nil_r by lia.
      destruct (decide (st <= length str)); [f_equal; lia|]. rewrite !take_ge by lia. done. }
  rewrite Hclamp. set (en' := Nat.min en (length str)). set (st' := Nat.min st en'). clear Hclamp.
  destruct (decide (st' = en')) as [D1|D1].
  { left. exists r. split; [done|]. unfold del. rewrite <- D1, Nat.min_id, take_drop. done. }
  assert (Hse : st' < en' /\ en' <= length str) by lia. clearbody st' en'. clear st en. rename st' into st, en' into en. clear D1.
  pose proof HR as (xs & T & Ex & Hn & Hcur & Md). assert (Hlen : length str = tlen xs) by (rewrite <- Ex; by apply (rft_len _ _ T)).
  assert (Hne : xs <> []) by (intros ->; by subst str).
  (* the cursor shortcut *)
  assert (Hshort : (exists r', RopeOf r' (del st en str) /\ match rp_cursor CAP r with
        | Some (mkRC pos leaf) =>
            if decide (pos <= st) then
              let? lf := @get_lf RT (rp_tree CAP r) leaf in
              if decide (en <= pos + gb_len (l_elem lf)) then
                let? g := gb_delete (l_elem lf) (st - pos) (en - pos) in
                let? (valid, _, t) :=
                  @update_leaf RT (rp_tree CAP r) leaf (fun _ => (g, (true, None, None))) in
                Ok (Some (mkRope CAP t (if (valid : bool) then rp_cursor CAP r else None)))
              else Ok None
            else Ok None
        | None => Ok None
        end = Ok (Some r')) \/ match rp_cursor CAP r with
        | Some (mkRC pos leaf) =>
            if decide (pos <= st) then
              let? lf := @get_lf RT (rp_tree CAP r) leaf in
              if decide (en <= pos + gb_len (l_elem lf)) then
                let? g := gb_delete (l_elem lf) (st - pos) (en - pos) in
                let? (valid, _, t) :=
                  @update_leaf RT (rp_tree CAP r) leaf (fun _ => (g, (true, None, None))) in
                Ok (Some (mkRope CAP t (if (valid : bool) then rp_cursor CAP r else None)))
              else Ok None
            else Ok None
        | None => Ok None
        end = Ok None).
  { destruct (rp_cursor CAP r) as [[pos leaf]|] eqn:Ec; [|by right].
    destruct (decide (pos <= st)) as [Hp|Hp]; [|by right].
    destruct (Hcur pos leaf eq_refl) as (X & e & Y & -> & HX).
    destruct (tree_get_lf RL _ _ leaf e T) as [q Hg]; [clear; set_solver|]. rewrite Hg. cbn [rbind l_elem].
    case_decide as D2; [|by right]. left. pose proof (tree_ve RL _ _ _ _ _ T) as Ve.
    destruct (gb_delete_ok CAP e (st - pos) (en - pos) Ve) as (g & -> & Wg & Vg). cbn [rbind].
    destruct (fs_update_leaf RL (RopeF CAP) (rp_tree CAP r) X leaf e Y (fun _ => (g, (true, None, None))) g true None None T eq_refl Wg) as (alive & sl & R & t' & Eu & T' & F' & N' & S' & M'); try done.
    eexists. rewrite Eu. cbn [rbind]. split; [|done].
    exists (X ++ R). cbn [rp_tree rp_cursor]. split; [done|]. split; [|split; [|split; [|by apply M']]].
    - rewrite ft_app, F'. cbn [olist app map concat]. rewrite <- Ex. replace st with (tlen X + (st - pos)) by lia. replace en with (tlen X + (en - pos)) by lia.
      apply del_at; [|done|cbn; lia|]. { intros l0 e0 Hin. eapply (tree_vX RL _ _ _ _ _ T); exact Hin. }
      rewrite Vg. do 3 f_equal; lia.
    - apply N'; [exact gb_can_remove_zero|done].
    - intros pos' leaf' Hx. destruct alive; [|done]. injection Hx as <- <-. rewrite <- HX. by apply S'. }
  destruct Hshort as [(r' & HR' & E)|E]; rewrite E; cbn [rbind]; [left; by exists r'|]. clear E.
  set (t := rp_tree CAP r) in *. change (RopeFinder CAP) with (@LengthFinder RT rope_get_len).
  assert (V : forall l e, (l, e) ∈ xs -> evalid RL e) by (intros l0 e0 Hin; by eapply (tree_valid RL _ _ _ _ T)).
  destruct (t_len_query RL rope_get_len t xs st (rope_LenCache CAP) T Hne) as (X & l & e & Y & fs & Exs & HX & HY & EQ & _).
  assert (Hoff : st - tlen X < @rle_len RT e).
  { destruct (decide (tlen X + @rle_len RT e <= st)) as [Hle|]; [|lia]. rewrite Exs, (HY Hle), tlen_snoc in Hlen. lia. }
  assert (VX : forall l0 e0, (l0, e0) ∈ X -> evalid RL e0) by (intros l0 e0 Hin; apply (V l0); rewrite Exs, elem_of_app; by left).
  assert (Ve : evalid RL e) by (apply (V l); rewrite Exs; clear; set_solver).
  rewrite bool_decide_eq_true_2 in EQ by lia.
  destruct (decide (en - st = 1)) as [D2|D2].
  - unfold query. rewrite EQ. cbn [rbind ropt qr_cursor cu_leaf cu_offset].
    destruct (tree_get_lf RL t xs l e T) as [q Hg]; [rewrite Exs; clear; set_solver|]. rewrite Hg. cbn [rbind l_elem].
    destruct (gb_delete_ok CAP e (st - tlen X) (S (st - tlen X)) Ve) as (g & Eg & Wg & Vg). rewrite Eg. cbn [rbind].
    match goal with |- context [update_leaf_by_search _ _ _ ?f0] => set (f := f0) end.
    pose proof T as T0. rewrite Exs in T0.
    destruct (shallow_dec RL t xs 10 T Hne) as [S10|S10]; [left|right].
    2:{ split; [intros S7; apply S10; eapply shallow_le; [done|lia]|]. rewrite (t_ulbs_deep RL (@LengthFinder RT rope_get_len) t xs st _ fs f T Hne S10 EQ). done. }
    destruct (t_ulbs RL (@LengthFinder RT rope_get_len) t X l e Y st (st - tlen X) true fs f T0 S10 EQ) as (fnd & _ & _ & Hu).
    destruct (Hu g (-1)%Z None) as (rc & sl & R & t' & E' & T' & Hres & _ & M').
    + unfold f. cbn [qr_cursor cu_offset]. by rewrite Eg.
    + exact Wg.
    + done.
    + done.
    + unfold ul_kept. cbn [olist]. cbn [get_elem_cache RopeTrait]. 
      assert (length (to_vec g) = gb_len e - 1) as Hlg.
      { rewrite Vg, app_length, take_length, drop_length, (to_vec_length CAP e Ve). cbn in Hoff. lia. }
      rewrite (to_vec_length CAP g Wg) in Hlg. cbn in Hoff. destruct (@can_remove RT g) eqn:Hcr.
      * cbn in Hcr. unfold gb_can_remove in Hcr. apply bool_decide_eq_true in Hcr. cbn. lia.
      * cbn. lia.
    + rewrite E'. cbn [rbind]. assert (Hdel : ft X ++ to_vec g ++ ft Y = del st en str).
      { rewrite <- Ex, Exs. replace st with (tlen X + (st - tlen X)) at 1 by lia. replace en with (tlen X + S (st - tlen X)) by lia. apply del_at; solve [done | lia]. }
      assert (HNX : NZ X) by (intros l0 e0 Hin; apply (Hn l0); rewrite Exs, elem_of_app; by left).
      assert (HNY : NZ Y) by (intros l0 e0 Hin; apply (Hn l0); rewrite Exs, elem_of_app, elem_of_cons; auto).
      unfold ul_kept in Hres. cbn [olist] in Hres. destruct (@can_remove RT g) eqn:Hcr.
      * inversion Hres; subst. eexists. split; [done|]. exists (X ++ Y). cbn [rp_tree rp_cursor app] in *. split; [done|]. split; [|split; [|split; [done|by apply M']]].
        -- rewrite <- Hdel. cbn in Hcr. rewrite ft_app. apply (gb_can_remove_spec CAP g Wg) in Hcr. by rewrite Hcr.
        -- intros l0 e0 [Hin|Hin]%elem_of_app; [by apply (HNX l0)|by apply (HNY l0)].
      * inversion Hres; subst; cbn [cu_offset cu_leaf]. rewrite bool_decide_eq_true_2 by lia. cbn [rassert rbind]. eexists. split; [done|].
        exists (X ++ (l, g) :: Y). cbn [rp_tree rp_cursor app] in *. split; [done|]. split; [|split; [|split; [|by apply M']]].
        -- rewrite <- Hdel. rewrite ft_app; reflexivity.
        -- intros l0 e0 [Hin|[[= -> ->]|Hin]%elem_of_cons]%elem_of_app; [by apply (HNX l0)| |by apply (HNY l0)].
           cbn in Hcr. unfold gb_can_remove in Hcr. by apply bool_decide_eq_false in Hcr.
        -- intros pos leaf [= <- <-]. exists X, g, Y. split; [done|]. lia.
  - destruct (len_cur RL rope_get_len (rope_LenCache CAP) t xs en T Hne) as (cb & sb & Eb & Cb); [lia|].
    unfold query. rewrite EQ. cbn [rbind]. rewrite Eb. cbn [rbind qr_cursor cu_leaf cu_offset].
    destruct (decide (l = cu_leaf cb)) as [El|El].
    + left. destruct Cb as (X2 & e2 & Y2 & Ex2 & Ho2 & Hq2). rewrite <- El in Ex2.
      pose proof (tree_nodup RL _ _ T) as Hnd. rewrite Exs in Ex2, Hnd.
      apply (split_fst_unique _ _ _ _ _ _ _ Hnd) in Ex2 as (<- & <- & <-).
      pose proof T as T0. rewrite Exs in T0.
      destruct (tree_get_lf RL t xs l e T) as [q Hg]; [rewrite Exs; clear; set_solver|]. rewrite Hg. cbn [rbind l_elem].
      assert (HNX : NZ X) by (intros l0 e0 Hin; apply (Hn l0); rewrite Exs, elem_of_app; by left).
      assert (HNY : NZ Y) by (intros l0 e0 Hin; apply (Hn l0); rewrite Exs, elem_of_app, elem_of_cons; auto).
      destruct (decide (st - tlen X = 0 /\ cu_offset cb = gb_len e)) as [[D3 D4]|D3].
      * destruct (t_remove RL t X l e Y (st - tlen X) T0) as (t' & E' & T' & M' & _); [by left|].
        rewrite E'. cbn [rbind]. eexists. split; [done|]. exists (X ++ Y). cbn [rp_tree rp_cursor]. split; [done|]. split; [|split; [|split; [done|by apply M']]].
        -- rewrite <- Ex, Exs. rewrite ft_app. unfold del. rewrite Nat.min_l by lia.
           destruct (ft_cut RL (RopeF CAP) X l e Y 0 VX Ve) as [H1 _]; [lia|]. destruct (ft_cut RL (RopeF CAP) X l e Y (gb_len e) VX Ve) as [_ H2]; [done|].
           replace st with (tlen X + 0) by lia. rewrite H1. replace en with (tlen X + gb_len e) by lia. rewrite H2. cbn.
           rewrite drop_ge by (rewrite (to_vec_length CAP e Ve); lia). by rewrite take_0, app_nil_r.
        -- intros l0 e0 [Hin|Hin]%elem_of_app; [by apply (HNX l0)|by apply (HNY l0)].
      * destruct (gb_delete_ok CAP e (st - tlen X) (cu_offset cb) Ve) as (g & Eg & Wg & Vg). rewrite Eg. cbn [rbind].
        assert (length (to_vec g) = gb_len e - (en - st)) as Hlg.
        { rewrite Vg, app_length, take_length, drop_length, (to_vec_length CAP e Ve). cbn in Hoff, Ho2. lia. }
        rewrite (to_vec_length CAP g Wg) in Hlg. cbn in Hoff, Ho2.
        destruct (t_set_elem_diff RL t X l e Y g q (Z.of_nat st - Z.of_nat en)%Z eq_refl T0 Hg Wg) as (t' & E' & T' & M').
        { cbn. lia. }
        change (@with_elem RT (@mkLeaf RT e q) g) with (@mkLeaf RT g q). cbn in E'. rewrite E'. cbn [rbind].
        eexists. split; [done|]. exists (X ++ (l, g) :: Y). cbn [rp_tree rp_cursor]. split; [done|]. split; [|split; [|split; [done|by apply M']]].
        -- rewrite <- Ex, Exs, ft_app. etrans; [|rewrite Hq2; replace st with (tlen X + (st - tlen X)) by lia; apply (del_at X l e g Y); solve [done | cbn; lia]]. reflexivity.
        -- intros l0 e0 [Hin|[[= -> ->]|Hin]%elem_of_cons]%elem_of_app; [by apply (HNX l0)| |by apply (HNY l0)]. cbn. lia.
    + assert (Ca : CurAt xs (mkCur l (st - tlen X)) st). { exists X, e, Y. cbn [cu_leaf cu_offset]. split; [done|]. lia. }
      destruct (fs_fits RL t xs _ _ st en true (bool_decide (en < tlen xs)) T Hn Ca Cb ltac:(left; lia) ltac:(lia)) as [Fi|[S7 HP]]; [left|right].
      2:{ split; [done|]. by rewrite HP. }
      destruct (fs_drain RL (RopeF CAP) t xs _ _ st en true (bool_decide (en < tlen xs)) T Fi Hn Ca Cb) as (M & t' & xs' & Hk & T' & F1 & F2 & _ & N' & _); [lia|lia|].
      rewrite Hk. cbn [rbind]. eexists. split; [done|]. exists xs'. cbn [rp_tree rp_cursor]. split; [done|]. split; [|split; [|split; [done|]]]; [|done|].
      2:{ eapply (fs_drain_md RL t xs); [done|done|exact Ca|exact Cb|left; lia|lia|apply (Hk 0)|done]. }
      rewrite F1, Ex. unfold del. by rewrite Nat.min_l by lia.
Qed.

Theorem rope_delete_ok r str st en : RopeOf r str -> Shallow (rp_tree CAP r) 7 -> exists r', rope_delete_range CAP r st en = Ok r' /\ RopeOf r' (del st en str).
Proof. intros HR Hsh. by destruct (rope_delete_any r str st en HR) as [?|[? _]]. Qed.

(** ** reading the whole rope *)
Section wt.
  Context {t : btree RT} {H : nat} {lv : nat -> nat} (W : WT NoE t H lv) (K : LK t).
  Lemma last_path_f_ok n : forall f x pos acc, rpath t (mkIdx x pos :: rev acc) x -> alv lv x = n -> n < f ->
    length acc + S n <= 10 -> achs t x <> [] \/ n = 0 ->
    exists (pp : list idx) (l : nat) (Y : list aidx), last_path_f CAP f t x pos acc = Ok pp /\ rpath t (rev pp) (ALeaf l) /\ gen t n x = Y ++ [ALeaf l].
  Proof using W K HCAP.
    induction n as [|n IH]; intros f x pos acc Hr Hlv Hf Hl Hne; (destruct f as [|f]; [lia|]); cbn [last_path_f];
      unfold vec_push; (rewrite decide_True by lia); cbn [rbind].
    - destruct x as [l|m]; [|done]. exists (acc ++ [mkIdx (ALeaf l) pos]), l, []. split; [done|]. rewrite rev_app_distr. done.
    - destruct x as [l|m]; [done|]. destruct Hne as [Hne|?]; [|lia]. cbn in Hne, Hlv.
      pose proof (rpath_live W _ _ Hr) as Hm. cbn in Hm. destruct (live_get_in t m Hm) as [nd Hg].
      rewrite Hg. cbn [rbind]. apply get_in_inv in Hg as [Hk _]. pose proof (chs_kids _ _ _ Hk) as Hc.
      destruct (n_children nd) as [|c cs _] using rev_ind; [by rewrite Hc in Hne|]. rewrite last_snoc. cbn [ropt rbind].
      rewrite app_length. cbn [length]. replace (length cs + 1 - 1) with (length cs) by lia.
      assert (chs t m !! length cs = Some (c_arena c)) as H0.
      { rewrite Hc, map_app, lookup_app_r; rewrite map_length; [|lia]. by rewrite Nat.sub_diag. }
      pose proof (wt_ch W _ _ _ H0) as [Hcl Hclv].
      destruct (IH f (c_arena c) (length cs) (acc ++ [mkIdx (AInt m) pos])) as (r & l & Y & E & Hr' & Hg'); try lia.
      + rewrite rev_app_distr. cbn. by econstructor.
      + rewrite app_length. cbn. lia.
      + destruct (c_arena c) as [lf|q] eqn:Ec; cbn in *; [right; lia|left]. apply (child_ne W m). by eapply elem_of_list_lookup_2.
      + exists r, l. eexists. split; [exact E|]. split; [done|].
        cbn [gen achs]. rewrite Hc, map_app, bind_app. cbn [map mbind list_bind]. rewrite Hg', app_nil_r, app_assoc. done.
  Qed.
  Lemma last_path_ok : chs t (raw (root t)) <> [] -> H <= 8 ->
    exists (pp : list idx) (l : nat) (Y : list aidx), last_path CAP t = Ok (Some pp) /\ rpath t (rev pp) (ALeaf l) /\ gen t (S H) (root t) = Y ++ [ALeaf l].
  Proof using W K HCAP.
    intros Hne HH. unfold last_path. unfold get_internal. rewrite (wt_root_id W). cbn [unwrap_internal rbind].
    destruct (live_get_in t _ (wt_root_live W)) as [nd Hg]. rewrite Hg. cbn [rbind]. apply get_in_inv in Hg as [Hk _].
    unfold n_is_empty. rewrite bool_decide_eq_false_2.
    2:{ intros Hx. rewrite (chs_kids _ _ _ Hk), Hx in Hne. done. }
    rewrite <- (wt_root_id W).
    destruct (last_path_f_ok (S H) (S (fuel t)) (root t) 0 []) as (r & l & Y & E & Hr & Hg); try done.
    - constructor.
    - apply (alv_root W).
    - pose proof (wt_height_bound W Hne). unfold fuel. lia.
    - cbn. lia.
    - left. by rewrite (wt_root_id W).
    - rewrite E. cbn. eauto 10.
  Qed.
End wt.
Theorem rope_to_bytes_tree r xs : Tree (rp_tree CAP r) xs -> Shallow (rp_tree CAP r) 9 -> rope_to_bytes CAP r = Ok (ft xs).
Proof.
  intros T Sh. unfold rope_to_bytes. set (t := rp_tree CAP r) in *. destruct (decide (length xs = 0)) as [E|E].
  - apply nil_length_inv in E as ->. destruct (Tree_OK RL _ _ T) as (H & lv & O & Hc).
    pose proof (OK_relevel RL t H lv O (cont_nil t H lv (ok_wt _ _ _ _ O) (eq_sym Hc))) as O0.
    rewrite (first_path_nil (ok_wt _ _ _ _ O0)); [done|]. apply (cont_nil t H lv (ok_wt _ _ _ _ O) (eq_sym Hc)).
  - destruct (shallow_ok RL t xs 9 T) as (H & lv & O & HH & Hc); [by destruct xs|done|].
    pose proof (ok_wt _ _ _ _ O) as W. pose proof (ok_lk _ _ _ _ O) as K.
    assert (chs t (raw (root t)) <> []) as Hne.
    { intros Hx. rewrite <- Hc in E. apply E. unfold cont. rewrite (wt_root_id W). cbn [gen achs]. by rewrite Hx. }
    destruct (first_path_ok W K Hne) as (p & l & Y & -> & Hp & Hg); [lia|]. cbn [rbind].
    destruct (last_path_ok W K Hne) as (p2 & l2 & Y2 & -> & Hp2 & Hg2); [lia|]. cbn [rbind ropt].
    destruct (rpath_head _ _ _ Hp2) as (k2 & r2 & E2).
    assert (last p2 = Some (mkIdx (ALeaf l2) k2)) as -> by (rewrite <- (rev_involutive p2), E2; cbn; by rewrite last_snoc).
    rewrite <- (leaves_gen W) in Hg, Hg2. pose proof (tree_leaves RL _ _ T) as HL. pose proof (leaves_nodup W) as Hnd.
    destruct (leaves t) as [|l' Y'] eqn:EL; [done|]. injection Hg as -> <-.
    assert (exists Z, l :: Y' = Z ++ [l2]) as [Z EZ].
    { destruct (l :: Y') as [|z Z _] using rev_ind; [by destruct Y2|]. exists Z. rewrite map_app in Hg2. cbn in Hg2.
      apply app_inj_tail in Hg2 as [_ [= ->]]. done. }
    assert (upto l2 (l :: Y') = l :: Y') as Hup. { rewrite EZ. apply upto_mid. by rewrite <- EZ. }
    rewrite (leaf_iter_ok W K Y' _ p l [] l2 k2 r2).
    + rewrite Hup, HL. cbn [rbind]. f_equal. unfold ft. f_equal.
      assert (forall l0 e0, (l0, e0) ∈ xs -> exists q, a_get (leaf_nodes t) l0 = Some (mkLeaf e0 q)) as Hall.
      { intros l0 e0 Hin. destruct (tree_get_lf RL t xs l0 e0 T Hin) as [q Hq]. exists q. unfold get_lf in Hq. by destruct (a_get (leaf_nodes t) l0); [injection Hq as ->|]. }
      revert Hall. clear. induction xs as [|[l0 e0] xs IH]; intros Hall; [done|]. destruct (Hall l0 e0) as [q Hq]; [left|].
      cbn [fmap list_fmap fst]. rewrite (with_node_cons _ _ _ Hq). cbn [map snd l_elem]. f_equal. apply IH. intros l1 e1 Hin. apply Hall. by right.
    + done.
    + by rewrite <- (leaves_gen W), EL.
    + by rewrite <- E2.
    + pose proof (leaves_length W) as Hll. rewrite EL in Hll. cbn in Hll. lia.
Qed.
Theorem rope_to_bytes_ok r str : RopeOf r str -> Shallow (rp_tree CAP r) 9 -> rope_to_bytes CAP r = Ok str.
Proof. intros (xs & T & <- & _). by apply rope_to_bytes_tree. Qed.
Lemma rope_new_ok : RopeOf (rope_new CAP) [].
Proof.
  exists []. split; [apply (Tree_new RL)|]. split; [done|]. split; [intros l e Hin; by apply elem_of_nil in Hin|]. split; [done|]. apply MD_new.
Qed.

(** ** histories of edits.  Specification side: a plain byte string. *)
Inductive redit := RIns (i : nat) (s : list nat) | RDel (st en : nat).
Definition sedit (o : redit) (s : list nat) : list nat := match o with RIns i x => ins i x s | RDel st en => del st en s end.
(** insertion positions are within the string *)
Fixpoint fits (os : list redit) (s : list nat) : Prop :=
  match os with [] => True | o :: os' => match o with RIns i _ => i <= length s | RDel _ _ => True end /\ fits os' (sedit o s) end.
Definition redit_run (o : redit) (r : rope CAP) : res (rope CAP) :=
  match o with RIns i x => rope_insert CAP r i x | RDel st en => rope_delete_range CAP r st en end.
Fixpoint rope_run (os : list redit) (r : rope CAP) : res (rope CAP) :=
  match os with [] => Ok r | o :: os' => let? r' := redit_run o r in rope_run os' r' end.
Definition str_run (os : list redit) (s : list nat) : list nat := fold_left (fun s o => sedit o s) os s.
Lemma rope_run_app os1 os2 r : rope_run (os1 ++ os2) r = let? r' := rope_run os1 r in rope_run os2 r'.
Proof. revert r. induction os1 as [|o os1 IH]; intros r; cbn; [done|]. destruct (redit_run o r); cbn; [apply IH|done|done]. Qed.
Theorem rope_run_ok os : forall r s, RopeOf r s -> fits os s ->
  (forall os1 o os2 r', os = os1 ++ o :: os2 -> rope_run os1 r = Ok r' -> (exists i x, o = RIns i x) \/ Shallow (rp_tree CAP r') 7) ->
  exists r', rope_run os r = Ok r' /\ RopeOf r' (str_run os s).
Proof.
  induction os as [|o os IH]; intros r s HR Hf Hs; [by exists r|]. cbn [fits] in Hf. destruct Hf as [Ho Hf].
  assert (exists r1, redit_run o r = Ok r1 /\ RopeOf r1 (sedit o s)) as (r1 & E1 & HR1).
  { destruct o as [i x|st en]; cbn [redit_run sedit]; [by apply rope_insert_ok|]. apply rope_delete_ok; [done|].
    destruct (Hs [] (RDel st en) os r eq_refl eq_refl) as [(? & ? & ?)|]; done. }
  cbn [rope_run]. rewrite E1. cbn [rbind]. apply IH; [done|done|].
  intros os1 o' os2 r' -> E. apply (Hs (o :: os1) o' os2 r'); [done|]. cbn. by rewrite E1.
Qed.
(** any history: the only other outcome is a panic of a deletion on a tree deeper than 7 *)
Theorem rope_run_any os : forall r s, RopeOf r s -> fits os s ->
  (exists r', rope_run os r = Ok r' /\ RopeOf r' (str_run os s)) \/
  (rope_run os r = Panic /\ exists os1 st en os2 r1, os = os1 ++ RDel st en :: os2 /\ rope_run os1 r = Ok r1 /\
     RopeOf r1 (str_run os1 s) /\ ~ Shallow (rp_tree CAP r1) 7).
Proof.
  induction os as [|o os IH]; intros r s HR Hf; [left; by exists r|]. cbn [fits] in Hf. destruct Hf as [Ho Hf].
  assert ((exists r1, redit_run o r = Ok r1 /\ RopeOf r1 (sedit o s)) \/
    (redit_run o r = Panic /\ ~ Shallow (rp_tree CAP r) 7 /\ exists st en, o = RDel st en)) as [(r1 & E1 & HR1)|(E1 & S7 & st & en & ->)].
  { destruct o as [i x|st en]; cbn [redit_run sedit]; [left; by apply rope_insert_ok|].
    destruct (rope_delete_any r s st en HR) as [?|[? ?]]; [by left|right]. eauto. }
  - cbn [rope_run]. rewrite E1. cbn [rbind]. destruct (IH r1 _ HR1 Hf) as [(r' & E & HR')|(E & os1 & st & en & os2 & r2 & -> & E2 & HR2 & S7)].
    + left. by exists r'.
    + right. split; [done|]. exists (o :: os1), st, en, os2, r2. split_and!; try done. cbn [rope_run]. by rewrite E1.
  - right. cbn [rope_run]. rewrite E1. split; [done|]. exists [], st, en, os, r. done.
Qed.
Theorem rope_history os : fits os [] ->
  (forall os1 os2 r', os = os1 ++ os2 -> rope_run os1 (rope_new CAP) = Ok r' -> Shallow (rp_tree CAP r') 7) ->
  exists r, rope_run os (rope_new CAP) = Ok r /\ rope_to_bytes CAP r = Ok (str_run os []) /\
    rope_len CAP r = length (str_run os []) /\ rope_is_empty CAP r = bool_decide (str_run os [] = []) /\ rope_check CAP r = Ok tt.
Proof.
  intros Hf Hs. destruct (rope_run_ok os (rope_new CAP) [] rope_new_ok Hf) as (r & E & HR).
  { intros os1 o os2 r' Eo Er. right. by eapply (Hs os1 (o :: os2)). }
  pose proof (Hs os [] r (eq_sym (app_nil_r os)) E) as Sh.
  exists r. split; [done|]. split; [apply rope_to_bytes_ok; [done|]; eapply shallow_le; [done|lia]|].
  split; [by apply rope_len_ok|]. split; [by apply rope_empty_ok|]. destruct HR as (xs & T & _). unfold rope_check.
  apply (t_check RL _ xs T); [eapply shallow_le; [done|lia]|by right].
Qed.
(** ** short strings: no hypothesis on the depth *)
Lemma nz_length xs : NZ xs -> length xs <= tlen xs.
Proof.
  induction xs as [|[l e] xs IH]; intros Hn; [done|]. rewrite tlen_cons. cbn [length]. pose proof (Hn l e ltac:(left)).
  assert (length xs <= tlen xs) by (apply IH; intros l' e' Hin; apply (Hn l' e'); by right). lia.
Qed.
Theorem rope_shallow r s k : RopeOf r s -> 1 <= k -> length s <= 5 ^ k -> Shallow (rp_tree CAP r) k.
Proof.
  intros (xs & T & <- & Hn & _ & M) Hk Hl. apply (thick_shallow RL _ xs k T M Hk).
  rewrite (rft_len _ _ T) in Hl. pose proof (nz_length xs Hn). lia.
Qed.
Theorem rope_depth r s d xs : RopeOf r s -> InOrder (rp_tree CAP r) (root (rp_tree CAP r)) d xs -> 2 <= d -> s <> [] -> 5 ^ (d - 1) < length s.
Proof.
  intros (ys & T & <- & Hn & _ & M) I Hd Hs. 
  assert (Hne : ys <> []) by (intros ->; done).
  pose proof T as [d' I']. pose proof (proj1 (io_det (rp_tree CAP r)) _ _ _ (in_order _ _ _ _ I') _ _ I) as <-.
  pose proof (t_depth_min5 RL _ d ys T Hne M I Hd). rewrite (rft_len _ _ T). pose proof (nz_length ys Hn). lia.
Qed.
Theorem rope_delete_short r s st en : RopeOf r s -> length s <= 5 ^ 7 -> exists r', rope_delete_range CAP r st en = Ok r' /\ RopeOf r' (del st en s).
Proof. intros HR Hl. apply rope_delete_ok; [done|]. by apply (rope_shallow r s 7 HR); [lia|]. Qed.
Theorem rope_to_bytes_short r s : RopeOf r s -> length s <= 5 ^ 9 -> rope_to_bytes CAP r = Ok s.
Proof. intros HR Hl. apply rope_to_bytes_ok; [done|]. by apply (rope_shallow r s 9 HR); [lia|]. Qed.
Theorem rope_history_short os : fits os [] ->
  (forall os1 st en os2, os = os1 ++ RDel st en :: os2 -> length (str_run os1 []) <= 5 ^ 7) ->
  exists r, rope_run os (rope_new CAP) = Ok r /\ RopeOf r (str_run os []) /\ rope_len CAP r = length (str_run os []) /\ (length (str_run os []) <= 5 ^ 9 -> rope_to_bytes CAP r = Ok (str_run os []) /\ rope_check CAP r = Ok tt).
Proof.
  intros Hf Hs. destruct (rope_run_any os (rope_new CAP) [] rope_new_ok Hf) as [(r & E & HR)|(E & os1 & st & en & os2 & r1 & -> & E1 & HR1 & S7)].
  - exists r. split; [done|]. split; [done|]. split; [by apply rope_len_ok|]. intros Hl. split; [by apply rope_to_bytes_short|].
    pose proof (rope_shallow r _ 9 HR ltac:(lia) Hl) as Sh. destruct HR as (xs & T & _). unfold rope_check. apply (t_check RL _ xs T); [eapply shallow_le; [done|lia]|by right].
  - exfalso. apply S7. apply (rope_shallow r1 _ 7 HR1); [lia|]. by eapply Hs.
Qed.
(** edits without deletions: no bound on the depth *)
Theorem rope_inserts os : fits os [] -> (forall o, o ∈ os -> exists i x, o = RIns i x) ->
  exists r, rope_run os (rope_new CAP) = Ok r /\ RopeOf r (str_run os []) /\ rope_len CAP r = length (str_run os []).
Proof.
  intros Hf Ha. destruct (rope_run_ok os (rope_new CAP) [] rope_new_ok Hf) as (r & E & HR).
  { intros os1 o os2 r' -> _. left. apply Ha. clear. set_solver. }
  exists r. split; [done|]. split; [done|]. by apply rope_len_ok.
Qed.
Theorem rope_insert_oob r s i x : RopeOf r s -> length s < i -> rope_insert CAP r i x = Panic.
Proof. intros HR Hi. unfold rope_insert. rewrite (rope_len_ok r s HR). by rewrite decide_True. Qed.
End rope.
