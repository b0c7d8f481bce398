(** UpdLeaf.v — update_leaf (lib.rs:1258-1384): normalisation of the pieces, removal of an
    emptied leaf, merging into the next leaf, allocation of up to two new leaves. *)
From Verif Require Export Ops2.

Definition olist {A} (o : option A) : list A := match o with Some x => [x] | None => [] end.

(** the pieces that stay: the element and the two insertions, without the removable ones *)
Definition ul_parts {B : BTreeTrait} (e : Elem B) (n1 n2 : option (Elem B)) : list (Elem B) :=
  filter (fun x => can_remove x = false) (e :: olist n1 ++ olist n2).

(** result of [update_leaf] on leaf [l] with pieces [ps]; [Y] are the leaves after [l].
    alive?, reported new leaves, what replaces [l] and [Y] *)
Section spec.
Context {B : BTreeTrait}.
Inductive ul_res (l : nat) (Y : list (nat * Elem B)) (fresh : nat -> Prop) :
  list (Elem B) -> bool -> list nat -> list (nat * Elem B) -> Prop :=
| ur_gone : ul_res l Y fresh [] false [] Y
| ur_one x : ul_res l Y fresh [x] true [] ((l, x) :: Y)
| ur_merge x y nx ey y' Y' : Y = (nx, ey) :: Y' -> can_merge y ey = true -> merge_left ey y = Ok y' ->
    ul_res l Y fresh [x; y] true [nx] ((l, x) :: (nx, y') :: Y')
| ur_new x r ns : r <> [] -> length ns = length r -> NoDup ns -> Forall fresh ns ->
    ul_res l Y fresh (x :: r) true ns ((l, x) :: zip ns r ++ Y).
End spec.

Section upd.
Context {B : BTreeTrait} (L : Lawful B).
Notation btree := (btree B).
Notation child := (child B).
Notation act := (act L).
Notation CO := (CO L).
Notation RC := (RC L).
Notation VA := (VA L).
Notation OK := (OK L).
Implicit Types (t : btree) (i j m p q k s : nat) (a b : aidx) (c : child) (cs : list child).

Lemma ul_norm (e : Elem B) n1 n2 :
  match ul_parts e n1 n2 with
  | [] => ul_normalize e n1 n2 = (e, None, None) /\ can_remove e = true
  | x :: r => ul_normalize e n1 n2 = (x, r !! 0, r !! 1) /\ can_remove x = false
  end.
Proof.
  unfold ul_parts, ul_normalize. destruct (can_remove e) eqn:Ee; destruct n1 as [x1|]; destruct n2 as [x2|]; cbn [olist app];
    rewrite !filter_cons, ?filter_nil; rewrite ?Ee;
    try destruct (can_remove x1) eqn:E1; try destruct (can_remove x2) eqn:E2; rewrite ?E1, ?E2; cbn; rewrite ?E1, ?E2, ?Ee; cbn; try done;
    rewrite ?E1, ?E2; done.
Qed.
Lemma ul_parts_len (e : Elem B) n1 n2 : length (ul_parts e n1 n2) <= 3.
Proof.
  unfold ul_parts. etrans; [apply filter_length|]. destruct n1, n2; cbn; lia.
Qed.
Lemma ul_parts_valid (e : Elem B) n1 n2 : evalid L e -> (forall x, n1 = Some x -> evalid L x) -> (forall x, n2 = Some x -> evalid L x) ->
  Forall (evalid L) (ul_parts e n1 n2).
Proof.
  intros H0 H1 H2. unfold ul_parts. apply Forall_forall. intros x [_ Hx]%elem_of_list_filter.
  apply elem_of_cons in Hx as [->|Hx]; [done|]. apply elem_of_app in Hx as [Hx|Hx].
  - destruct n1; cbn in Hx; [|by apply elem_of_nil in Hx]. apply elem_of_list_singleton in Hx as ->. by apply H1.
  - destruct n2; cbn in Hx; [|by apply elem_of_nil in Hx]. apply elem_of_list_singleton in Hx as ->. by apply H2.
Qed.

Lemma hls_empty t x p o t' : hls_res L t x p o t' -> chs t x = [] -> exists l c r, c_arena c = AInt x /\ RD L t t' p l [c] [] r /\ o = Some (AInt p).
Proof. intros HR He. destruct HR as [Hp1 Hp2|l c r t' Ea He' R3|? ? ? ? ? ? ? ? ? ? ? ? Hne|? ? ? ? ? ? ? ? ? ? ? ? Hne]; [done| |done|done]. by exists l, c, r. Qed.
(** ** underflow handling that starts at an emptied node *)
Lemma hle_ok n : forall t H lv i f,
  WT (fun m => m = i) t H lv -> LK t -> SZ t 11 -> VA t -> CO t (fun _ => False) -> RC t -> kids t i = Some [] ->
  (AInt i = root t \/ mono L = true) -> H - lv i = n -> n < f ->
  exists t' H' lv', handle_lack_f f t (AInt i) = Ok t' /\ OK t' H' lv' /\
    gen t' (S H') (root t') = gen t (S H) (root t) /\ (forall z, el t' z = el t z) /\ root t' = root t /\
    anext (leaf_nodes t) <= anext (leaf_nodes t') /\ (forall w, AInt i = root t \/ (w = true /\ SP t i) -> MDXw w t i -> MDw w t').
Proof.
  induction n as [n IH] using lt_wf_ind. intros t H lv i f W K Z V C R Hki Hm Hn Hf.
  assert (Hi : is_Some (kids t i)) by (rewrite Hki; eauto).
  destruct (decide (AInt i = root t)) as [Er|Er].
  { assert (O : OK t H lv).
    { constructor; try done. eapply WT_shrink; [|exact W]. intros m _ Hr -> _. done. }
    destruct (hl_ok L n t H lv i f O Hi Hn Hf) as (t' & H' & lv' & E' & O' & G' & El' & R' & Al' & M').
    exists t', H', lv'. split_and!; try done. intros w _. apply M'. }
  destruct f as [|f]; [lia|]. cbn [handle_lack_f].
  assert (HM : mono L = true) by (by destruct Hm).
  destruct (hls_ok L _ t H lv i W K V) as (p & o & t3 & Hlv & Hin & E & HR); [|done|done|].
  { intros j. pose proof (Z j). lia. }
  rewrite E. cbn [rbind].
  destruct (hls_empty _ _ _ _ _ HR) as (l & c & r & Ea & R3 & ->); [by rewrite (chs_kids _ _ _ Hki)|].
  assert (Hlp : 0 < lv p) by lia.
  pose proof (rd_p _ _ _ _ _ _ _ _ R3) as Hkp.
  pose proof (rd_WT L W Hlp R3) as W3. pose proof (rd_LK L W Hlp R3 K) as K3.
  assert (Hki3 : kids t3 i = None).
  { apply (rd_del _ _ _ _ _ _ _ _ R3); cbn; [rewrite Ea; clear; set_solver|clear; set_solver]. }
  assert (Z3 : SZ t3 11).
  { apply (rd_SZ L Hlp R3); [done| |cbn; clear; set_solver]. pose proof (Z p) as Zp.
    rewrite (chs_kids _ _ _ Hkp), map_length in Zp. rewrite app_length in *. cbn in *. lia. }
  pose proof (rd_VA L W Hlp R3 V) as V3.
  assert (C3 : CO t3 (fun _ => False)) by (apply (rd_CO L W Hlp R3); auto).
  assert (RC3 : RC t3).
  { apply (rd_RC L W Hlp R3); auto. eapply CO_mono; [|exact C]. done. }
  pose proof (rd_gen L W Hlp R3) as G3. pose proof (rd_p' _ _ _ _ _ _ _ _ R3) as Hkp3.
  pose proof (rd_lv L W Hlp R3 p ltac:(rewrite Hkp; eauto)) as Hlv3.
  pose proof (rd_root _ _ _ _ _ _ _ _ R3) as Rt3. pose proof (rd_al _ _ _ _ _ _ _ _ R3) as Al3.
  pose proof (rd_el _ _ _ _ _ _ _ _ R3) as El3. cbn [app] in Hkp3.
  match type of W3 with WT _ _ _ ?x => remember x as lv3 eqn:Elv3; clear Elv3 end.
  assert (W3' : WT (fun m => m = p) t3 H lv3).
  { eapply WT_shrink; [|exact W3]. intros m Hml _ [-> | ->]; [|done]. rewrite Hki3 in Hml. by destruct Hml. }
  assert (MX3 : forall w, AInt i = root t \/ (w = true /\ SP t i) -> MDXw w t i -> w = true /\ SP t3 p /\ MDXw w t3 p).
  { intros w [?|[-> Hsi]] M; [done|]. split; [done|].
    assert (AInt i ∈ chs t p) as Hip by (rewrite (chs_kids _ _ _ Hkp), map_app; cbn; rewrite Ea; clear; set_solver).
    destruct (SP_up _ _ _ _ _ _ W Hsi Hip) as [Hps _].
    assert (Hsp : forall z, SP t z -> is_Some (kids t3 z) -> SP t3 z).
    { apply (rd_SP L _ _ _ _ _ _ _ _ _ _ W Hlp R3); [|done]. intros m _ _ []%elem_of_nil. }
    split; [apply Hsp; [done|]; rewrite Hkp3; eauto|].
    assert (Hoth : forall m, is_Some (kids t3 m) -> m <> p -> kids t3 m = kids t m).
    { intros m Hm0 Hmp. apply (rd_other _ _ _ _ _ _ _ _ R3); [done| |by intros []%elem_of_nil].
      cbn. rewrite Ea. intros [= ->]%elem_of_list_singleton. rewrite Hki3 in Hm0. by destruct Hm0. }
    constructor.
    - intros m Hm0 Hmr Hmp. pose proof (Hoth m Hm0 Hmp) as Ek. apply (big_mono true t); [by eauto|unfold chs; by rewrite Ek|].
      rewrite Rt3 in Hmr. apply (mx_in _ _ _ M); [by rewrite <- Ek|done|]. intros ->. rewrite Hki3 in Hm0. by destruct Hm0.
    - intros Hpr. rewrite Rt3 in Hpr |- *.
      assert (raw (root t) <> p) as Hrp. { intros Hx. apply Hpr. by rewrite <- Hx, <- (wt_root_id W). }
      assert (kids t3 (raw (root t)) = kids t (raw (root t))) as Ek.
      { apply (rd_other _ _ _ _ _ _ _ _ R3); [done| |by intros []%elem_of_nil].
        cbn. rewrite Ea. intros Hx%elem_of_list_singleton. apply Er. by rewrite <- Hx, <- (wt_root_id W). }
      intros m. unfold chs. rewrite Ek. apply (mx_root _ _ _ M Er). }
  pose proof (wt_nonroot_lv W i Hi Er) as Hlvi.
  destruct (decide (l ++ r = [])) as [El|El].
  - rewrite El in *.
    destruct (IH (H - lv p) ltac:(lia) t3 H lv3 p f W3' K3 Z3 V3 C3 RC3) as (t' & H' & lv' & E' & O' & G' & El' & Rt' & Al' & M'); try done.
    { by right. } { by rewrite Hlv3. } { lia. }
    exists t', H', lv'. split_and!; try done; try congruence; [lia|].
    intros w Hw M. destruct (MX3 w Hw M) as (-> & ? & ?). apply M'; auto.
  - assert (O3 : OK t3 H lv3).
    { constructor; try done. eapply WT_shrink; [|exact W3']. intros m _ _ -> _. rewrite (chs_kids _ _ _ Hkp3). by destruct (l ++ r). }
    destruct (hl_ok L (H - lv3 p) t3 H lv3 p f O3) as (t' & H' & lv' & E' & O' & G' & El' & Rt' & Al' & M'); [rewrite Hkp3; eauto|done|rewrite Hlv3; lia|].
    exists t', H', lv'. split_and!; try done; try congruence; [lia|].
    intros w Hw M. destruct (MX3 w Hw M) as (-> & ? & ?). auto.
Qed.

(** ** dropping a leaf whose aggregate is that of nothing *)
Lemma drop_leaf_ok t H lv l e p A c Z po s : OK t H lv -> at_leaf t lv l e p A c Z -> lnk t p = Some (po, s) ->
  mono L = true -> get_elem_cache e = summ L [] ->
  let t1 := set_in (rem_lf t l) p (mkNode po s (A ++ Z)) in
  exists t' H' lv', (if is_lack (mkNode po s (A ++ Z)) then handle_lack_recursively t1 (AInt p) else Ok t1) = Ok t' /\ OK t' H' lv' /\
    (forall X Y, cont t H = X ++ (l, e) :: Y -> cont t' H' = X ++ Y) /\ anext (leaf_nodes t) <= anext (leaf_nodes t') /\ (forall w, MDw w t -> MDw w t').
Proof.
  intros O AL Hlk HM Hsum t1. destruct O as [W K Z11 C HR V].
  pose proof AL as (Hk & Ha & Hlv & He & Hl & Hgl & _ & Hslot & _).
  assert (R : RP t t1 p l A c Z [] []) by exact (RP_del t H lv l e p A c Z po s W AL Hlk).
  pose proof (rp_ED L W K Hlv R) as D.
  pose proof (rp_p' _ _ _ _ _ _ _ _ _ R) as Hkp1. cbn [app] in Hkp1.
  assert (W1 : WT (fun m => m = p) t1 H lv).
  { eapply WT_mono; [|exact (ed_WT W Hlv D)]. intros m. cbn. intros [[]|[_ ?]]; done. }
  assert (K1 : LK t1) by (by apply (ed_LK W D)).
  assert (V1 : VA t1).
  { apply (rp_VA L W K Hlv R V). - intros ? ? []%elem_of_nil. - intros ? []%elem_of_nil. }
  assert (HcA : Forall (cvalid L) (map c_cache A) /\ Forall (cvalid L) (map c_cache Z)).
  { pose proof (VA_kids L _ _ _ V Hk) as F. rewrite map_app in F. apply Forall_app in F as [F1 F2].
    cbn in F2. by apply Forall_cons in F2 as [_ F2]. }
  assert (Hact : act t1 (AInt p) = act t (AInt p)).
  { rewrite (act_int _ _ _ _ Hk), (act_int _ _ _ _ Hkp1), !map_app. cbn [map].
    rewrite (C p _ c Hk); [|clear; set_solver|tauto]. rewrite Ha, (act_leaf _ _ _ _ He), Hsum.
    rewrite (lw_flat _ L); [done| |by right]. cbn [app]. by apply Forall_app. }
  assert (C1 : CO t1 (fun _ => False)).
  { intros q cs c0 Hkq Hc0 _. destruct (decide (c_arena c0 = AInt p)) as [Ea|Ea].
    - assert (q <> p) as Hqp.
      { intros ->. assert (AInt p ∈ chs t1 p) as Hin by (rewrite (chs_kids _ _ _ Hkq), <- Ea; by apply elem_of_list_fmap_1).
        apply elem_of_list_lookup in Hin as [kk Hin]. apply (wt_ch W1) in Hin as [_ Hin]. cbn in Hin. lia. }
      rewrite Ea, Hact. rewrite (rp_other _ _ _ _ _ _ _ _ _ R) in Hkq by done. by rewrite (C q cs c0 Hkq Hc0), Ea by tauto.
    - eapply (rp_CO_all L W K Hlv R); [intros ? []%elem_of_nil|done|exact Hkq|done|done]. }
  assert (R1 : RC t1).
  { intros Hr. destruct (decide (root t1 = AInt p)) as [Ep|Ep].
    - rewrite Ep, Hact. change (root_cache t1) with (root_cache t). change (root t1) with (root t) in Ep. rewrite <- Ep. apply HR. by right.
    - by apply (ed_RC1 L W D). }
  assert (Z1 : SZ t1 11).
  { intros j. destruct (decide (j = p)) as [-> |Hj].
    - pose proof (Z11 p) as Zp. rewrite (chs_kids _ _ _ Hk), map_length in Zp.
      rewrite (chs_kids _ _ _ Hkp1), map_length. rewrite app_length in *. cbn in Zp. lia.
    - unfold chs. rewrite (rp_other _ _ _ _ _ _ _ _ _ R) by done. apply Z11. }
  assert (Cn1 : forall X Y, cont t H = X ++ (l, e) :: Y -> cont t1 H = X ++ Y).
  { intros X Y HX. by rewrite (rp_cont L W K Hlv R e X Y He HX). }
  assert (Hsp1 : forall z, SP t z -> SP t1 z) by (intros z; apply (rp_SP L W K Hlv R)).
  assert (MX : forall w, MDw w t -> MDXw w t1 p).
  { intros w M. constructor.
    - intros m Hm Hr Hmp. change (root t1) with (root t) in Hr.
      rewrite (rp_other _ _ _ _ _ _ _ _ _ R) in Hm by done.
      apply (big_mono w t); [apply Hsp1| |by apply (md_in _ _ M)].
      unfold chs. by rewrite (rp_other _ _ _ _ _ _ _ _ _ R) by done.
    - intros Hr m Hm. change (root t1) with (root t) in *.
      assert (raw (root t) <> p) as Hrp. { intros Hx. apply Hr. by rewrite <- Hx, <- (wt_root_id W). }
      unfold chs in Hm |- *. rewrite (rp_other _ _ _ _ _ _ _ _ _ R) in Hm |- * by done. by eapply (md_root _ _ M). }
  unfold is_lack. cbn [n_children]. rewrite !bd_if. unfold handle_lack_recursively.
  pose proof (wt_depth_bound W1 p ltac:(rewrite Hkp1; eauto)) as Hdb.
  destruct (decide (A ++ Z = [])) as [Em|Em].
  - rewrite decide_True by (rewrite Em; cbn; lia). rewrite Em in Hkp1.
    destruct (hle_ok (H - lv p) t1 H lv p (fuel t1) W1 K1 Z1 V1 C1 R1 Hkp1) as (t' & H' & lv' & E' & O' & G' & El' & Rt' & Al' & M');
      [by right|done|unfold fuel; lia|].
    exists t', H', lv'. split; [done|]. split; [done|]. split; [|split; [exact Al'|]].
    { intros X Y HX. rewrite (cont_same _ _ _ _ G' El'). auto. }
    intros w M. apply M'; [|by apply MX]. change (root t1) with (root t).
    destruct (decide (AInt p = root t)) as [?|Hr]; [by left|right].
    pose proof (md_in _ _ M p ltac:(rewrite Hk; eauto) Hr) as H6.
    apply (f_equal length) in Em. rewrite app_length in Em. cbn in Em.
    destruct w; cbn in H6; rewrite (chs_kids _ _ _ Hk), map_length, app_length in H6; cbn in H6; [|lia].
    split; [done|]. destruct H6 as [H6|?]; [by apply Hsp1|lia].
  - assert (O1 : OK t1 H lv).
    { constructor; try done. eapply WT_shrink; [|exact W1]. intros m _ _ -> _. rewrite (chs_kids _ _ _ Hkp1). by destruct (A ++ Z). }
    case_decide as Hla.
    + destruct (handle_lack_ok L t1 H lv p O1) as (t' & H' & lv' & E' & O' & G' & El' & Rt' & Al' & M'); [rewrite Hkp1; eauto|].
      exists t', H', lv'. split; [done|]. split; [done|]. split; [|split; [exact Al'|auto]].
      intros X Y HX. rewrite (cont_same _ _ _ _ G' El'). auto.
    + exists t1, H, lv. split_and!; try done. intros w M.
      apply (mdx_md w t1 _ H lv p W1); [|auto]. rewrite (chs_kids _ _ _ Hkp1), map_length. lia.
Qed.

(** ** two fresh leaves after [l] *)
Lemma RP_after2 t H lv l e x y p A c Z po s : WT NoE t H lv -> at_leaf t lv l e p A c Z -> lnk t p = Some (po, s) ->
  let n := anext (leaf_nodes t) in let ch := mkChild (ALeaf n) (get_elem_cache x) in let ch2 := mkChild (ALeaf (S n)) (get_elem_cache y) in
  RP t (set_in (snd (ins_lf (snd (ins_lf t (mkLeaf x p))) (mkLeaf y p))) p (mkNode po s (A ++ [c; ch; ch2] ++ Z))) p l A c Z
    [(l, e); (n, x); (S n, y)] [c; ch; ch2].
Proof.
  intros W (Hk & Ha & Hlv & He & Hl & _) Hlk n ch ch2. pose proof (fresh_leaf t H lv W) as Hfr. fold n in Hfr.
  assert (Hll : l < n).
  { assert (is_Some (el t l)) as Hx by (rewrite He; eauto). apply (wt_lfresh W) in Hx. done. }
  assert (Hfr2 : el t (S n) = None).
  { destruct (el t (S n)) eqn:Er; [|done]. pose proof (wt_lfresh W (S n)) as H0. rewrite Er in H0. specialize (H0 ltac:(eauto)). lia. }
  set (t1 := snd (ins_lf t (mkLeaf x p))). set (t2 := snd (ins_lf t1 (mkLeaf y p))).
  assert (E2 : forall z, el t2 z = if decide (S n = z) then Some y else if decide (n = z) then Some x else el t z).
  { intros z. unfold t2. rewrite el_ins_lf. change (anext (leaf_nodes t1)) with (S n). case_decide; [done|]. apply el_ins_lf. }
  assert (L2 : forall z, llnk t2 z = if decide (S n = z) then Some p else if decide (n = z) then Some p else llnk t z).
  { intros z. unfold t2. rewrite llnk_ins_lf. change (anext (leaf_nodes t1)) with (S n). case_decide; [done|]. apply llnk_ins_lf. }
  assert (n <> l) by lia. assert (S n <> l) by lia. assert (S n <> n) by lia.
  constructor; try done.
  + rewrite kids_set_in, decide_True by done. done.
  + cbn. by rewrite Ha.
  + cbn. rewrite !NoDup_cons, !not_elem_of_cons. split_and!; try apply not_elem_of_nil; try lia. constructor.
  + intros z ez Hx. rewrite el_set_in, llnk_set_in, E2, L2. change (anext (leaf_nodes (set_in t2 p _))) with (S (S n)).
    apply elem_of_cons in Hx as [[= -> ->]|[[= -> ->]|[= -> ->]%elem_of_list_singleton]%elem_of_cons].
    * dds. split_and!; try done; [by left|lia].
    * dds. split_and!; try done; [by right|lia].
    * rewrite !decide_True by done. split_and!; try done; [by right|lia].
  + cbn. clear. set_solver.
  + intros z Hx Hn. rewrite el_set_in, llnk_set_in, E2, L2. cbn in Hn. rewrite !not_elem_of_cons in Hn.
    destruct Hn as (? & ? & ? & _). by dds.
  + intros j Hj. rewrite kids_set_in, decide_False by done. done.
  + intros j. rewrite lnk_set_in. case_decide; [subst|done]. change (lnk t2 j) with (lnk t j). by rewrite Hlk.
  + change (anext (leaf_nodes t) <= S (S n)). unfold n. lia.
Qed.

(** ** writing a leaf's element *)
Lemma set_leaf_ok t H lv l e e' p A c Z (upd : bool) : OK t H lv -> at_leaf t lv l e p A c Z -> evalid L e' ->
  (upd = false -> get_elem_cache e' = get_elem_cache e) ->
  exists t1, (if upd then recursive_update_cache (set_lf t l (mkLeaf e' p)) (ALeaf l) (USE_DIFF (b := B)) None
              else Ok (set_lf t l (mkLeaf e' p))) = Ok t1 /\ OK t1 H lv /\ SH t t1 /\
    (forall X Y, cont t H = X ++ (l, e) :: Y -> cont t1 H = X ++ (l, e') :: Y) /\
    (forall x, el t1 x = if decide (l = x) then Some e' else el t x).
Proof.
  intros O AL Ve Hu. pose proof AL as (Hk & Ha & Hlv & He & Hl & Hget & _).
  pose proof (ok_wt _ _ _ _ O) as W. pose proof (ok_lk _ _ _ _ O) as K. pose proof (ok_va _ _ _ _ O) as V.
  pose proof (RP_set t H lv l e e' p A c Z W AL) as R.
  assert (Hlen : length (A ++ c :: Z) <= 11).
  { pose proof (ok_sz _ _ _ _ O p) as Hz. by rewrite (chs_kids _ _ _ Hk), map_length in Hz. }
  set (t0 := set_lf t l (mkLeaf e' p)) in *.
  assert (Sh : SH t t0).
  { constructor; try done. intros x. unfold t0. rewrite llnk_set_lf. case_decide; [subst; by rewrite Hl|done]. }
  assert (El : forall x, el t0 x = if decide (l = x) then Some e' else el t x) by (intros x; apply el_set_lf).
  assert (Cn : forall X Y, cont t H = X ++ (l, e) :: Y -> cont t0 H = X ++ (l, e') :: Y).
  { intros X Y HX. by rewrite (rp_cont L W K Hlv R e X Y He HX). }
  assert (Hcc : c_cache c = get_elem_cache e) by (eapply cache_ok; eauto; clear; set_solver).
  destruct upd.
  - pose proof (rp_ED L W K Hlv R) as D.
    assert (W' : WT NoE t0 H lv) by (by eapply SH_WT).
    destruct (ruc_leaf_ok L NoE t0 H lv l e' p (A ++ c :: Z) (length A) c None W') as (t1 & E1 & S1 & El1 & C1 & V1 & R1); try done.
    + by apply (SH_LK t).
    + rewrite El. by rewrite decide_True.
    + by apply list_lookup_middle.
    + apply (rp_CO L W K Hlv R); [|apply O]. intros c0 ->%elem_of_list_singleton. done.
    + apply (rp_VA L W K Hlv R V).
      * by intros ? ? [= -> ->]%elem_of_list_singleton.
      * intros c0 ->%elem_of_list_singleton. eapply (va_ch _ _ V); [exact Hk|clear; set_solver].
    + apply (ed_RC1 L W D); apply O.
    + exists t1. split; [done|].
      assert (Sh1 : SH t t1).
      { destruct Sh, S1. constructor; intros; etrans; eauto. }
      split; [|split; [done|split]].
      * constructor; try done; [by eapply SH_WT|by eapply SH_LK|]. intros j. rewrite (sh_chs Sh1). apply O.
      * intros X Y HX. rewrite (SH_cont _ _ _ S1 El1). auto.
      * intros x. by rewrite El1.
  - exists t0. split; [done|].
    destruct (rp_same L t t0 H lv p l e A c Z [(l, e')] [c] O Hlv He R) as [O1 _]; try done.
    + intros c0 ->%elem_of_list_singleton. rewrite Ha. rewrite (act_leaf L t0 l e'); [|rewrite El; by rewrite decide_True]. rewrite Hcc. symmetry. auto.
    + by intros ? ? [= -> ->]%elem_of_list_singleton.
    + intros c0 ->%elem_of_list_singleton. eapply (va_ch _ _ V); [exact Hk|clear; set_solver].
    + intros u v _ _. cbn [map app]. by rewrite Hcc.
Qed.
Lemma at_leaf_SH t t1 H lv l e e' p A c Z : WT NoE t1 H lv -> LK t1 -> SH t t1 -> at_leaf t lv l e p A c Z -> el t1 l = Some e' ->
  exists A1 c1 Z1, at_leaf t1 lv l e' p A1 c1 Z1 /\ length (A1 ++ c1 :: Z1) = length (A ++ c :: Z).
Proof.
  intros W K Sh (Hk & Ha & Hlv & He & Hl & _) He'.
  destruct (at_leaf_ok t1 H lv l e' W K He') as (p' & A1 & c1 & Z1 & AL). pose proof AL as (Hk1 & Ha1 & _ & _ & Hl1 & _).
  rewrite (sh_llnk Sh), Hl in Hl1. injection Hl1 as <-. exists A1, c1, Z1. split; [done|].
  pose proof (sh_chs Sh p) as Hc. rewrite (chs_kids _ _ _ Hk), (chs_kids _ _ _ Hk1) in Hc.
  apply (f_equal length) in Hc. by rewrite !map_length in Hc.
Qed.

(** ** allocating the pieces [new] (one or two) after [l], whose node has room *)
Lemma alloc_after_ok t H lv l e p A c Z r : OK t H lv -> at_leaf t lv l e p A c Z -> r <> [] -> length r <= 2 ->
  length (A ++ c :: Z) + length r < 12 -> Forall (evalid L) r ->
  exists t' H' lv' ns,
    (let (cs, t) := ul_alloc t p r in
     let? pn := get_in t p in
     let? slot := get_leaf_slot l pn in
     let? (cs, sl) := ul_insert (n_children pn) (S slot) cs [] in
     let pn := with_children pn cs in
     let t := set_in t p pn in
     let? _ := rassert (negb (is_full pn)) in
     let? t := recursive_update_cache t (AInt p) (USE_DIFF (b := B)) None in
     Ok (true, sl, t)) = Ok (true, ns, t') /\ OK t' H' lv' /\
    (forall X Y, cont t H = X ++ (l, e) :: Y -> cont t' H' = X ++ (l, e) :: zip ns r ++ Y) /\
    length ns = length r /\ NoDup ns /\ Forall (fun n => anext (leaf_nodes t) <= n < anext (leaf_nodes t')) ns /\
    anext (leaf_nodes t) <= anext (leaf_nodes t') /\ (forall w, MDw w t -> MDw w t').
Proof.
  intros O AL Hne Hl2 Hlen Vr. pose proof AL as (Hk & Ha & Hlv & He & Hl & Hget & _ & Hsl & po & s & Hg & Hlk).
  pose proof (ok_wt _ _ _ _ O) as W. pose proof (ok_lk _ _ _ _ O) as K. pose proof (ok_va _ _ _ _ O) as V.
  assert (Hcc : c_cache c = get_elem_cache e) by (eapply cache_ok; eauto; clear; set_solver).
  assert (Ve : evalid L e) by (by eapply (va_el _ _ V)).
  rewrite app_length in Hlen. cbn [length] in Hlen.
  set (n := anext (leaf_nodes t)).
  destruct r as [|x [|y [|]]]; [done| | |cbn in Hl2; lia]; cbn [length] in Hlen.
  - apply Forall_cons in Vr as [Vx _].
    pose proof (RP_after t H lv l e x p A c Z po s W AL Hlk) as R. cbn zeta in R. fold n in R.
    unfold ul_alloc. cbn [foldl]. unfold alloc_leaf_child. rewrite (surjective_pairing (ins_lf t (mkLeaf x p))).
    change (fst (ins_lf t (mkLeaf x p))) with n. cbn [app].
    assert (get_in (snd (ins_lf t (mkLeaf x p))) p = Ok (mkNode po s (A ++ c :: Z))) as -> by exact Hg.
    cbn [rbind]. unfold get_leaf_slot. cbn [n_children]. rewrite Hsl. cbn [rbind ul_insert]. unfold sl_push, vec_push. cbn [length c_arena raw app].
    rewrite decide_True by lia. cbn [rbind]. rewrite vec_insert_ok by (rewrite app_length; cbn; lia). cbn [rbind].
    rewrite ins_after. unfold with_children, is_full. cbn [n_parent n_slot n_children].
    set (ch := mkChild (ALeaf n) (get_elem_cache x)) in *.
    rewrite bool_decide_eq_false_2 by (rewrite !app_length; cbn; lia). cbn [negb rassert rbind].
    destruct (rp_finish_int L t _ H lv p l e A c Z _ _ None O Hlv He R) as (t' & H' & lv' & E1 & O1 & C1 & El1 & M1 & Al1); try done.
    + intros c0 [->| ->%elem_of_list_singleton]%elem_of_cons.
      * rewrite Ha, Hcc. symmetry. apply (act_leaf L). rewrite el_set_in, el_ins_lf. rewrite decide_False; [done|].
        intros Hx. pose proof (fresh_leaf t H lv W) as Hf. rewrite Hx in Hf. congruence.
      * symmetry. apply (act_leaf L _ n x). rewrite el_set_in, el_ins_lf. by rewrite decide_True.
    + by intros ? ? [[= -> ->]|[= -> ->]%elem_of_list_singleton]%elem_of_cons.
    + intros c0 [->| ->%elem_of_list_singleton]%elem_of_cons; [rewrite Hcc; by apply lw_get|by apply lw_get].
    + rewrite !app_length. cbn. lia.
    + rewrite bool_decide_eq_false_2 in E1 by (rewrite !app_length; cbn; lia).
      destruct (recursive_update_cache _ _ _ _) as [t1| |]; try done. cbn [rbind] in E1 |- *. injection E1 as ->.
      assert (S n <= anext (leaf_nodes t')) as Hal by exact Al1.
      exists t', H', lv', [n]. split; [done|]. split; [done|]. split; [exact C1|]. split; [done|].
      split; [apply NoDup_singleton|]. split; [constructor; [lia|constructor]|split; [lia|done]].
  - apply Forall_cons in Vr as [Vx Vy]. apply Forall_cons in Vy as [Vy _].
    pose proof (RP_after2 t H lv l e x y p A c Z po s W AL Hlk) as R. cbn zeta in R. fold n in R.
    assert (Hll : l < n).
    { assert (is_Some (el t l)) as Hx by (rewrite He; eauto). apply (wt_lfresh W) in Hx. done. }
    unfold ul_alloc. cbn [foldl]. unfold alloc_leaf_child. rewrite (surjective_pairing (ins_lf t (mkLeaf x p))).
    change (fst (ins_lf t (mkLeaf x p))) with n. cbn [app].
    rewrite (surjective_pairing (ins_lf (snd (ins_lf t (mkLeaf x p))) (mkLeaf y p))).
    change (fst (ins_lf (snd (ins_lf t (mkLeaf x p))) (mkLeaf y p))) with (S n).
    set (t2 := snd (ins_lf (snd (ins_lf t (mkLeaf x p))) (mkLeaf y p))) in *.
    assert (E2 : forall z, el t2 z = if decide (S n = z) then Some y else if decide (n = z) then Some x else el t z).
    { intros z. unfold t2. rewrite el_ins_lf. change (anext (leaf_nodes (snd (ins_lf t (mkLeaf x p))))) with (S n). case_decide; [done|]. apply el_ins_lf. }
    assert (get_in t2 p = Ok (mkNode po s (A ++ c :: Z))) as -> by exact Hg.
    cbn [rbind]. unfold get_leaf_slot. cbn [n_children]. rewrite Hsl. cbn [rbind ul_insert]. unfold sl_push, vec_push. cbn [length c_arena raw app].
    rewrite decide_True by lia. cbn [rbind]. rewrite vec_insert_ok by (rewrite app_length; cbn; lia). cbn [rbind length].
    rewrite ins_after. 
    set (ch := mkChild (ALeaf n) (get_elem_cache x)) in *. set (ch2 := mkChild (ALeaf (S n)) (get_elem_cache y)) in *.
    rewrite decide_True by lia. cbn [rbind app].
    replace (A ++ c :: ch :: Z) with ((A ++ [c]) ++ ch :: Z) by (by rewrite <- app_assoc).
    replace (S (S (length A))) with (S (length (A ++ [c]))) by (rewrite app_length; cbn; lia).
    rewrite vec_insert_ok by (rewrite !app_length; cbn; lia). cbn [rbind]. rewrite ins_after.
    replace ((A ++ [c]) ++ [ch; ch2] ++ Z) with (A ++ [c; ch; ch2] ++ Z) by (by rewrite <- app_assoc).
    unfold with_children, is_full. cbn [n_parent n_slot n_children].
    rewrite bool_decide_eq_false_2 by (rewrite !app_length; cbn; lia). cbn [negb rassert rbind].
    destruct (rp_finish_int L t _ H lv p l e A c Z _ _ None O Hlv He R) as (t' & H' & lv' & E1 & O1 & C1 & El1 & M1 & Al1); try done.
    + intros c0 [->|[->| ->%elem_of_list_singleton]%elem_of_cons]%elem_of_cons.
      * rewrite Ha, Hcc. symmetry. apply (act_leaf L). rewrite el_set_in, E2, !decide_False by lia. done.
      * symmetry. apply (act_leaf L _ n x). rewrite el_set_in, E2, decide_False, decide_True by lia. done.
      * symmetry. apply (act_leaf L _ (S n) y). rewrite el_set_in, E2, decide_True by lia. done.
    + by intros ? ? [[= -> ->]|[[= -> ->]|[= -> ->]%elem_of_list_singleton]%elem_of_cons]%elem_of_cons.
    + intros c0 [->|[->| ->%elem_of_list_singleton]%elem_of_cons]%elem_of_cons; [rewrite Hcc; by apply lw_get|by apply lw_get|by apply lw_get].
    + rewrite !app_length. cbn. lia.
    + rewrite bool_decide_eq_false_2 in E1 by (rewrite !app_length; cbn; lia).
      destruct (recursive_update_cache _ _ _ _) as [t1| |]; try done. cbn [rbind] in E1 |- *. injection E1 as ->.
      assert (S (S n) <= anext (leaf_nodes t')) as Hal by exact Al1.
      exists t', H', lv', [n; S n]. split; [done|]. split; [done|]. split; [exact C1|]. split; [done|].
      split; [|split; [repeat constructor; lia|split; [lia|done]]].
      apply NoDup_cons. split; [|apply NoDup_singleton]. intros Hx%elem_of_list_singleton. lia.
Qed.

(** the next entry of a leaf's node is the next leaf *)
Lemma at_leaf_next t H lv l e p A c c1 Z X Y : OK t H lv -> at_leaf t lv l e p A c (c1 :: Z) -> cont t H = X ++ (l, e) :: Y ->
  exists nx ey Y', c_arena c1 = ALeaf nx /\ el t nx = Some ey /\ Y = (nx, ey) :: Y'.
Proof.
  intros O AL Hc. pose proof AL as (Hk & Ha & Hlv & He & _).
  pose proof (ok_wt _ _ _ _ O) as W. pose proof (ok_lk _ _ _ _ O) as K.
  assert (c_arena c1 ∈ chs t p) as Hin.
  { rewrite (chs_kids _ _ _ Hk). apply elem_of_list_fmap_1. clear. set_solver. }
  destruct (wt_leaf_child W p _ Hin Hlv) as [nx Ex].
  assert (live t (c_arena c1)) as Hlive. { apply elem_of_list_lookup in Hin as [k Hin]. by apply (wt_ch W) in Hin as [? _]. }
  rewrite Ex in Hlive. destruct Hlive as [ey Hey].
  destruct (ed_cont W Hlv (rp_ED L W K Hlv (RP_set t H lv l e e p A c (c1 :: Z) W AL))) as (X0 & Y0 & G1 & _).
  rewrite map_app, pel_app in G1. cbn [map] in G1. rewrite Ha, (pel_cons _ _ _ _ He), Ex, (pel_cons _ _ _ _ Hey) in G1.
  pose proof (cont_nodup W) as Hnd. apply NoDup_fmap_1 in Hnd. rewrite G1 in Hc, Hnd.
  rewrite <- !app_assoc in Hc, Hnd. cbn [app] in Hc, Hnd. rewrite app_assoc in Hc, Hnd.
  apply nodup_split_unique in Hc as [_ <-]; [|done]. exists nx, ey, (pel t (map c_arena Z) ++ Y0). done.
Qed.

Theorem update_leaf_ok t H lv l e f e1 (upd : bool) n1 n2 X Y : OK t H lv -> cont t H = X ++ (l, e) :: Y ->
  f e = (e1, (upd, n1, n2)) -> evalid L e1 -> (forall x, n1 = Some x -> evalid L x) -> (forall x, n2 = Some x -> evalid L x) ->
  (upd = false -> get_elem_cache (default e1 (head (ul_parts e1 n1 n2))) = get_elem_cache e) ->
  exists alive sl R t' H' lv', update_leaf t l f = Ok (alive, sl, t') /\ OK t' H' lv' /\ cont t' H' = X ++ R /\
    ul_res l Y (fun n => anext (leaf_nodes t) <= n < anext (leaf_nodes t')) (ul_parts e1 n1 n2) alive sl R /\
    anext (leaf_nodes t) <= anext (leaf_nodes t') /\ (MDw true t -> MDw true t').
Proof.
  intros O Hc Hf V1 Vn1 Vn2 Hu.
  assert (He : el t l = Some e) by (apply (cont_el (H := H)); rewrite Hc; clear; set_solver).
  pose proof (ok_wt _ _ _ _ O) as W. pose proof (ok_lk _ _ _ _ O) as K.
  destruct (at_leaf_ok t H lv l e W K He) as (p & A & c & Z & AL). pose proof AL as (_ & _ & _ & _ & _ & Hget & _).
  unfold update_leaf. rewrite Hget. cbn [rbind l_elem l_parent]. rewrite Hf.
  pose proof (ul_norm e1 n1 n2) as Hn. pose proof (ul_parts_len e1 n1 n2) as Hpl. pose proof (ul_parts_valid e1 n1 n2 V1 Vn1 Vn2) as Vp.
  destruct (ul_parts e1 n1 n2) as [|x r].
  - (* everything removable *)
    destruct Hn as [Hn Hcr]. rewrite Hn. cbn [with_elem l_parent]. unfold with_elem. cbn [l_parent]. rewrite Hcr.
    destruct (set_leaf_ok t H lv l e e1 p A c Z upd O AL V1 Hu) as (t1 & E1 & O1 & Sh & Cn & El). rewrite E1. cbn [rbind is_none rassert].
    assert (He1 : el t1 l = Some e1) by (rewrite El; by rewrite decide_True).
    destruct (at_leaf_SH t t1 H lv l e e1 p A c Z (ok_wt _ _ _ _ O1) (ok_lk _ _ _ _ O1) Sh AL He1) as (A1 & c1 & Z1 & AL1 & _).
    pose proof AL1 as (_ & _ & _ & _ & _ & Hget1 & _ & Hsl1 & po & s & Hg1 & Hlk1).
    rewrite Hget1. cbn [rbind].
    assert (get_in (rem_lf t1 l) p = Ok (mkNode po s (A1 ++ c1 :: Z1))) as -> by exact Hg1. cbn [rbind].
    unfold get_leaf_slot. cbn [n_children]. rewrite Hsl1. cbn [rbind]. rewrite vec_remove_mid. cbn [rbind].
    unfold with_children. cbn [n_parent n_slot].
    destruct (lw_rm _ L e1 V1 Hcr) as [HM Hsum].
    destruct (drop_leaf_ok t1 H lv l e1 p A1 c1 Z1 po s O1 AL1 Hlk1 HM Hsum) as (t' & H' & lv' & E' & O' & C' & Al' & M'). cbn zeta in E'.
    rewrite E'. cbn [rbind]. rewrite (sh_al Sh) in Al'. exists false, [], Y, t', H', lv'. split_and!; try done; [|constructor|].
    { apply C'. by apply Cn. } intros M. apply M'. by apply (MD_SH _ t).
  - destruct Hn as [Hn Hcr]. rewrite Hn. unfold with_elem. cbn [l_parent]. rewrite Hcr.
    apply Forall_cons in Vp as [Vx Vr].
    destruct (set_leaf_ok t H lv l e x p A c Z upd O AL Vx Hu) as (t1 & E1 & O1 & Sh & Cn & El). rewrite E1. cbn [rbind].
    assert (He1 : el t1 l = Some x) by (rewrite El; by rewrite decide_True).
    pose proof (ok_wt _ _ _ _ O1) as W1. pose proof (ok_lk _ _ _ _ O1) as K1.
    destruct (at_leaf_SH t t1 H lv l e x p A c Z W1 K1 Sh AL He1) as (A1 & c1 & Z1 & AL1 & _).
    pose proof AL1 as (Hk1 & Ha1 & Hlv1 & _ & Hl1 & Hget1 & _ & Hsl1 & po & s & Hg1 & Hlk1).
    pose proof (Cn X Y Hc) as Cn1. pose proof (sh_al Sh) as Al1.
    destruct r as [|y r].
    { cbn. exists true, [], ((l, x) :: Y), t1, H, lv. split_and!; try done; [constructor|lia|]. intros M. by apply (MD_SH _ t). }
    (* the new pieces become leaves *)
    assert (Hnew : exists alive sl R t' H' lv',
       (let? pn := get_in t1 p in
        let? (p0, t) := if decide (12 <= length (n_children pn) + length (y :: r)) then
                        let? t := split t1 (AInt p) in let? lf := get_lf t l in Ok (l_parent lf, t) else Ok (p, t1) in
        (let (cs, t) := ul_alloc t p0 (y :: r) in
         let? pn := get_in t p0 in
         let? slot := get_leaf_slot l pn in
         let? (cs, sl) := ul_insert (n_children pn) (S slot) cs [] in
         let pn := with_children pn cs in
         let t := set_in t p0 pn in
         let? _ := rassert (negb (is_full pn)) in
         let? t := recursive_update_cache t (AInt p0) (USE_DIFF (b := B)) None in
         Ok (true, sl, t))) = Ok (alive, sl, t') /\ OK t' H' lv' /\ cont t' H' = X ++ R /\
       ul_res l Y (fun n => anext (leaf_nodes t) <= n < anext (leaf_nodes t')) (x :: y :: r) alive sl R /\
       anext (leaf_nodes t) <= anext (leaf_nodes t') /\ (MDw true t -> MDw true t')).
    { rewrite Hg1. cbn [rbind n_children].
      assert (Hlen : length (A1 ++ c1 :: Z1) <= 11).
      { pose proof (ok_sz _ _ _ _ O1 p) as Hz. by rewrite (chs_kids _ _ _ Hk1), map_length in Hz. }
      case_decide as Hd.
      - destruct (split_ok L (H - lv p) t1 H lv p (fuel t1) W1 K1) as (t2 & H2 & lv2 & Es & O2 & G2 & El2 & M2 & Al2 & _ & Hsz2 & _); try apply O1.
        + rewrite Hk1. eauto.
        + rewrite (chs_kids _ _ _ Hk1), map_length. cbn [length] in *. lia.
        + intros j _. apply O1.
        + done.
        + pose proof (wt_depth_bound W1 p ltac:(rewrite Hk1; eauto)). unfold fuel. lia.
        + unfold split. rewrite Es. cbn [rbind].
          assert (He2 : el t2 l = Some x) by (by rewrite El2).
          destruct (at_leaf_ok t2 H2 lv2 l x (ok_wt _ _ _ _ O2) (ok_lk _ _ _ _ O2) He2) as (p2 & A2 & c2 & Z2 & AL2).
          pose proof AL2 as (Hk2 & Ha2 & _ & _ & _ & Hget2 & _). rewrite Hget2. cbn [rbind l_parent].
          assert (length (A2 ++ c2 :: Z2) <= 6) as Hlen2.
          { specialize (Hsz2 p2 (ALeaf l)). rewrite !(chs_kids _ _ _ Hk2), (chs_kids _ _ _ Hk1), !map_length in Hsz2. apply Hsz2.
            - rewrite <- Ha1. apply elem_of_list_fmap_1. clear. set_solver.
            - rewrite <- Ha2. apply elem_of_list_fmap_1. clear. set_solver. }
          destruct (alloc_after_ok t2 H2 lv2 l x p2 A2 c2 Z2 (y :: r) O2 AL2) as (t' & H' & lv' & ns & E' & O' & C' & Ln & Nn & Fn & Al' & M'); try done.
          { cbn [length] in *. lia. } { cbn [length] in *. lia. }
          exists true, ns, ((l, x) :: zip ns (y :: r) ++ Y), t', H', lv'. split; [exact E'|]. split; [done|]. split.
          { apply C'. rewrite (cont_same _ _ _ _ G2 El2). done. }
          split; [|split; [lia|]].
          { constructor; try done. eapply Forall_impl; [exact Fn|]. cbn. intros. lia. }
          intros M. apply M', M2; [by apply (MD_SH _ t)|]. rewrite (chs_kids _ _ _ Hk1), map_length. cbn [length] in *. lia.
      - cbn [rbind].
        destruct (alloc_after_ok t1 H lv l x p A1 c1 Z1 (y :: r) O1 AL1) as (t' & H' & lv' & ns & E' & O' & C' & Ln & Nn & Fn & Al' & M'); try done.
        { cbn [length] in *. lia. } { cbn [length] in *. lia. }
        exists true, ns, ((l, x) :: zip ns (y :: r) ++ Y), t', H', lv'. split; [exact E'|]. split; [done|]. split; [by apply C'|].
        split; [|split; [lia|]].
        { constructor; try done. eapply Forall_impl; [exact Fn|]. cbn. intros. lia. }
        intros M. apply M'. by apply (MD_SH _ t). }
    destruct r as [|z r].
    + cbn [lookup list_lookup]. rewrite Hg1. cbn [rbind]. unfold get_leaf_slot at 1. cbn [n_children]. rewrite Hsl1. cbn [rbind].
      rewrite lookup_app_r by lia. replace (S (length A1) - length A1) with 1 by lia. cbn [lookup list_lookup].
      destruct Z1 as [|cn Z1].
      { rewrite Hg1 in Hnew. cbn [lookup list_lookup rbind]. exact Hnew. }
      destruct (at_leaf_next t1 H lv l x p A1 c1 cn Z1 X Y O1 AL1 Cn1) as (nx & ey & Y' & Ex & Hey & EY).
      destruct (at_leaf_ok t1 H lv nx ey W1 K1 Hey) as (p3 & A3 & c3 & Z3 & AL3).
      pose proof AL3 as (_ & _ & _ & _ & _ & Hget3 & _). cbn [lookup list_lookup].
      rewrite Ex. cbn [raw]. rewrite Hget3. cbn [rbind l_elem].
      destruct (can_merge y ey) eqn:Ecm.
      * assert (Vey : evalid L ey) by (by eapply (va_el _ _ (ok_va _ _ _ _ O1))).
        apply Forall_cons in Vr as [Vy _].
        destruct (lw_ml _ L y ey Vy Vey Ecm) as (y' & Hm & Vy' & _). rewrite Hm. cbn [rbind]. cbn [l_parent].
        destruct (set_leaf_ok t1 H lv nx ey y' p3 A3 c3 Z3 true O1 AL3 Vy') as (t2 & E2 & O2 & Sh2 & Cn2 & El2); [done|].
        rewrite E2. cbn [rbind]. unfold sl_push, vec_push. cbn [length raw]. rewrite decide_True by lia. cbn [rbind app].
        exists true, [nx], ((l, x) :: (nx, y') :: Y'), t2, H, lv. split; [done|]. split; [done|]. rewrite (sh_al Sh2), Al1. split.
        { specialize (Cn2 (X ++ [(l, x)]) Y'). rewrite Cn1, EY, <- !app_assoc in Cn2. by apply Cn2. }
        split; [by apply (ur_merge l Y _ x y nx ey y' Y')|]. split; [done|]. intros M. apply (MD_SH _ t1); [done|]. by apply (MD_SH _ t).
      * rewrite Hg1 in Hnew. cbn [rbind]. exact Hnew.
    + cbn [lookup list_lookup]. cbn [rbind]. destruct r; [exact Hnew|]. cbn in Hpl. lia.
Qed.

(** ** at the level of contents *)
Theorem t_update_leaf t X l e Y f e1 (upd : bool) n1 n2 : Tree L t (X ++ (l, e) :: Y) ->
  f e = (e1, (upd, n1, n2)) -> evalid L e1 -> (forall x, n1 = Some x -> evalid L x) -> (forall x, n2 = Some x -> evalid L x) ->
  (upd = false -> get_elem_cache (default e1 (head (ul_parts e1 n1 n2))) = get_elem_cache e) ->
  exists alive sl R t', update_leaf t l f = Ok (alive, sl, t') /\ Tree L t' (X ++ R) /\
    ul_res l Y (fun n => anext (leaf_nodes t) <= n < anext (leaf_nodes t')) (ul_parts e1 n1 n2) alive sl R /\
    anext (leaf_nodes t) <= anext (leaf_nodes t') /\ (MDw true t -> MDw true t').
Proof.
  intros T Hf V0 V1 V2 Hc. destruct (Tree_OK L _ _ T) as (H & lv & O & Hx).
  destruct (update_leaf_ok t H lv l e f e1 upd n1 n2 X Y O (eq_sym Hx) Hf V0 V1 V2 Hc) as (alive & sl & R & t' & H' & lv' & E & O' & C' & HR & Ha).
  exists alive, sl, R, t'. split; [done|]. split; [|done]. rewrite <- C'. by eapply OK_Tree.
Qed.
End upd.
