(** Ulbs.v — update_leaf_by_search (lib.rs:1107-1249): the descent, the removal loop with
    diffs, the insertion loop with diffs. *)
From Verif Require Export Upd Query.

Section ulbs.
Context {B : BTreeTrait} (L : Lawful B).
Notation btree := (btree B).
Notation child := (child B).
Notation act := (act L).
Notation CO := (CO L).
Notation RC := (RC L).
Notation VA := (VA L).
Notation OK := (OK L).
Notation RD := (RD L).
Implicit Types (t : btree) (i j m p q k s : nat) (a b : aidx) (c : child) (cs : list child) (d : Diff B).

(** the path above a node, nearest ancestor first *)
Inductive Up t : aidx -> nat -> list idx -> Prop :=
| up_root pos : Up t (root t) pos []
| up_step a p k pp r : chs t p !! k = Some a -> Up t (AInt p) pp r -> Up t a k (mkIdx (AInt p) pp :: r).
Lemma up_ext E t t' H lv i k r : WT E t H lv -> Up t (AInt i) k r ->
  (forall q, is_Some (kids t q) -> lv i < lv q -> chs t' q = chs t q) -> root t' = root t -> Up t' (AInt i) k r.
Proof.
  intros W U. remember (AInt i) as a eqn:Ea. revert i Ea. induction U as [pos|a p k pp r Hc U IH]; intros i Ea Hx Hr.
  - rewrite Ea, <- Ea, <- Hr. constructor.
  - subst a. pose proof (wt_ch W _ _ _ Hc) as [_ Hlv]. cbn in Hlv.
    assert (is_Some (kids t p)) as Hp. { apply chs_live. intros He. by rewrite He in Hc. }
    econstructor; [rewrite Hx; [exact Hc|done|lia]|]. apply (IH p eq_refl); [|done]. intros q Hq Hl. apply Hx; [done|lia].
Qed.

(** [i]'s children are right, the entry for [i] above is [d] behind, all others are right *)
Record DI (E : nat -> Prop) t H lv i d : Prop := {
  di_wt : WT E t H lv; di_lk : LK t; di_va : VA t; di_live : is_Some (kids t i);
  di_ne : chs t i <> [] \/ mono L = true;
  di_co : CO t (fun a => a = AInt i);
  di_root : AInt i = root t -> drel L (root_cache t) d (act t (AInt i));
  di_ent : forall p cs c, kids t p = Some cs -> c ∈ cs -> c_arena c = AInt i -> drel L (c_cache c) d (act t (AInt i));
  di_rc : AInt i <> root t -> root_cache t = act t (root t);
}.

Lemma di_step E t H lv i d p k : DI E t H lv i d -> chs t p !! k = Some (AInt i) ->
  exists pn cs', get_in t p = Ok pn /\ apply_child_cache (n_children pn) k d = Ok cs' /\ length cs' = length (chs t p) /\
    let t1 := set_in t p (with_children pn cs') in SH t t1 /\ (forall l, el t1 l = el t l) /\ DI E t1 H lv p d /\
      (forall q, q <> p -> kids t1 q = kids t q).
Proof.
  intros D Hch. destruct D as [W K V Hi Hne C Hroot Hent Hrc].
  assert (AInt i <> root t) as Er. { intros Er. rewrite Er in Hch. by apply (wt_root_nochild W) in Hch. }
  destruct (wt_ch W _ _ _ Hch) as [_ Hlv]. cbn in Hlv.
  destruct (chs_lookup _ _ _ _ Hch) as (cs & c & Hkp & Hc & Ha).
  destruct (get_in_kids t p cs Hkp) as (po & s' & Hgp & _).
  set (pn := mkNode po s' cs) in *. assert (Hcs : n_children pn = cs) by done.
  exists pn. rewrite Hcs. unfold apply_child_cache, vec_get. rewrite Hc. cbn [ropt rbind].
  assert (Hin : c ∈ cs) by (by eapply elem_of_list_lookup_2).
  pose proof (Hent p cs c Hkp Hin Ha) as Hd.
  rewrite (lw_apply _ L _ _ _ Hd). cbn [rbind].
  set (cs' := <[k:=mkChild (c_arena c) (act t (AInt i))]> cs).
  exists cs'. split; [done|]. split; [done|]. split; [unfold cs'; by rewrite insert_length, (chs_kids _ _ _ Hkp), map_length|].
  unfold with_children. cbn zeta. set (t1 := set_in t p _).
  assert (S1 : SH t t1). { apply setcs_SH; [done|]. unfold cs'. by rewrite (entry_arena _ _ _ _ Hc), Hcs. }
  assert (Hpi : p <> i) by (intros ->; lia).
  assert (C1 : CO t1 (fun a => a = AInt p)).
  { eapply CO_mono; [|eapply (entry_CO L W p cs k c (AInt i) pn); try done; congruence]. intros m [[-> ?]| ->]; done. }
  assert (V1 : VA t1).
  { eapply (entry_VA L p cs k c pn); try done. destruct Hi as [csi Hki]. rewrite (act_int _ _ _ _ Hki).
    apply lw_summ; [by eapply VA_kids|]. destruct Hne as [Hne|?]; [left|by right]. rewrite (chs_kids _ _ _ Hki) in Hne. by destruct csi. }
  assert (Hact : drel L (act t (AInt p)) d (act t1 (AInt p))).
  { rewrite (act_int _ _ _ _ Hkp). rewrite (act_int L t1 p cs') by (unfold t1; rewrite setcs_kids; by rewrite decide_True).
    unfold cs'. destruct (insert_split cs k c (mkChild (c_arena c) (act t (AInt i))) Hc) as (l1 & l2 & -> & -> & _).
    rewrite !map_app. cbn. by apply lw_cong. }
  split; [done|]. split; [done|]. split; [constructor|].
  - by eapply SH_WT.
  - by eapply SH_LK.
  - done.
  - apply (SH_kids _ _ S1). eauto.
  - left. rewrite (sh_chs S1). intros He. by rewrite He in Hch.
  - done.
  - intros Er'. cbn in Er'. cbn. rewrite (Hrc Er). by rewrite <- Er'.
  - intros q cs1 c1 Hk1 Hc1 Ha1. unfold t1 in Hk1. rewrite setcs_kids in Hk1. case_decide as Hpq.
    * subst q. exfalso. apply elem_of_list_lookup in Hc1 as [k1 Hc1].
      assert (chs t1 p !! k1 = Some (AInt p)) as Hx.
      { rewrite (chs_kids _ _ cs1), list_lookup_fmap, Hc1; [cbn; by rewrite Ha1|].
        unfold t1. rewrite setcs_kids. by rewrite decide_True. }
      rewrite (sh_chs S1) in Hx. apply (wt_ch W) in Hx as [_ Hx]. cbn in Hx. lia.
    * rewrite (C q cs1 c1 Hk1 Hc1).
      { by rewrite Ha1. }
      congruence.
  - intros Er'. cbn in Er'. cbn. rewrite (Hrc Er). symmetry. apply setcs_act; [done|congruence].
  - intros q Hq. unfold t1. rewrite setcs_kids. by rewrite decide_False.
Qed.

(** one level of underflow handling below [p] *)
Lemma rd_DI (E : nat -> Prop) t t' H lv p d l old new r : DI E t H lv p d -> (forall m, E m -> AInt m ∈ map c_arena old) ->
  (forall c, c ∈ old -> kidl t c <> [] \/ mono L = true) -> (chs t' p <> [] \/ mono L = true) ->
  0 < lv p -> RD t t' p l old new r ->
  exists lv', DI (fun m => m = p) t' H lv' p d /\
    gen t' (S H) (root t') = gen t (S H) (root t) /\ (forall z, el t' z = el t z) /\ root t' = root t /\
    anext (leaf_nodes t) <= anext (leaf_nodes t') /\ (forall q, is_Some (kids t q) -> lv p < lv q -> kids t' q = kids t q) /\
    (forall q, is_Some (kids t q) -> lv' q = lv q).
Proof.
  intros D Hxo HM HM' Hlp R. destruct D as [W K V Hi Hne C Hroot Hent Hrc].
  pose proof (rd_WT L W Hlp R) as W3. pose proof (rd_LK L W Hlp R K) as K3. pose proof (rd_VA L W Hlp R V) as V3.
  pose proof (rd_gen L W Hlp R) as G3. pose proof (rd_p' _ _ _ _ _ _ _ _ R) as Hkp3.
  pose proof (rd_lv L W Hlp R) as Hlv3.
  pose proof (rd_root _ _ _ _ _ _ _ _ R) as Rt3. pose proof (rd_al _ _ _ _ _ _ _ _ R) as Al3.
  pose proof (rd_el _ _ _ _ _ _ _ _ R) as El3. pose proof (rd_rc _ _ _ _ _ _ _ _ R) as Rc3.
  match type of W3 with WT _ _ _ ?x => remember x as lv3 eqn:Elv3; clear Elv3 end.
  assert (Hpo := rd_p_notold L W Hlp R).
  assert (Hold : forall c, c ∈ old -> c_arena c <> AInt p).
  { intros c Hc Ea. apply Hpo. rewrite <- Ea. by apply elem_of_list_fmap_1. }
  assert (C3 : CO t' (fun a => a = AInt p)) by (apply (rd_CO L W Hlp R); auto).
  assert (A3 : act t' (AInt p) = act t (AInt p)).
  { apply (rd_act_p L W Hlp R V); [|auto]. intros c Hc. eapply C; [apply (rd_p _ _ _ _ _ _ _ _ R)|set_solver|auto]. }
  assert (Hup : forall q, is_Some (kids t q) -> lv p < lv q -> kids t' q = kids t q).
  { intros q Hq Hl. assert (AInt q ∉ map c_arena old) as Ho.
    { intros Ho. apply (rd_old_in L R) in Ho as [kk Ho]%elem_of_list_lookup. apply (wt_ch W) in Ho as [_ Ho]. cbn in Ho. lia. }
    apply (rd_other _ _ _ _ _ _ _ _ R); [intros ->; lia|done|]. intros Hn. apply Ho. by apply (rd_new_old L R _ Hn). }
  exists lv3. split; [|split_and!; try done].
  constructor; try done.
  - eapply WT_shrink; [|exact W3]. intros x Hm _ [Hx0| ->] Hn; [|done]. apply Hxo in Hx0.
    destruct (decide (AInt x ∈ map c_arena new)) as [Hx|Hx].
    + apply elem_of_list_fmap in Hx as (c & Ec & Hc). destruct (rd_new _ _ _ _ _ _ _ _ R c Hc) as (m & KK & Em & Hk & HK & _).
      assert (m = x) as -> by congruence. rewrite (chs_kids _ _ _ Hk). by destruct KK.
    + rewrite (rd_del _ _ _ _ _ _ _ _ R x Hx0 Hx) in Hm. by destruct Hm.
  - rewrite Rt3, A3, Rc3. done.
  - intros q cs c Hk Hc Ea. rewrite A3. eapply (Hent q cs c); [|done|done].
    assert (AInt p ∈ chs t' q) as [kk Hin]%elem_of_list_lookup by (rewrite (chs_kids _ _ _ Hk), <- Ea; by apply elem_of_list_fmap_1).
    destruct (wt_ch W3 _ _ _ Hin) as [_ Hl]. cbn in Hl.
    assert (Hqn : AInt q ∉ map c_arena new).
    { intros Hn. assert (AInt q ∈ chs t' p) as [k2 Hq2]%elem_of_list_lookup by (rewrite (rd_chs' L R), !elem_of_app; tauto).
      apply (wt_ch W3) in Hq2 as [_ Hq2]. cbn in Hq2. lia. }
    rewrite <- (rd_other _ _ _ _ _ _ _ _ R q); [done| | |done].
    + intros ->. lia.
    + intros Ho. rewrite (rd_del _ _ _ _ _ _ _ _ R q Ho Hqn) in Hk. done.
  - rewrite Rt3, Rc3. intros Hr. rewrite (Hrc Hr). symmetry. apply (rd_act L R); [congruence|].
    intros m Em. assert (AInt m ∉ map c_arena old) as Ho.
    { intros Ho. apply (rd_old_in L R) in Ho as [kk Ho]%elem_of_list_lookup. rewrite <- Em in Ho. by apply (wt_root_nochild W) in Ho. }
    split; [|done]. intros Hn. apply Ho. apply (rd_new_old L R _ Hn). pose proof (wt_root_live W) as Hl. rewrite Em in Hl. done.
Qed.
(** minimum degrees across one level of underflow handling: every node but [x] was big, every node but [p] is *)
Lemma hls_thick E t H lv x p o t' : WT E t H lv -> AInt x ∈ chs t p -> lv p = S (lv x) -> hls_res L t x p o t' ->
  (forall m, is_Some (kids t m) -> AInt m <> root t -> m <> x -> big true t m) ->
  (forall m, is_Some (kids t' m) -> AInt m <> root t' -> m <> p -> big true t' m) /\ length (chs t p) <= S (length (chs t' p)).
Proof.
  intros W Hin Hlv HR Hb. assert (Hlp : 0 < lv p) by lia.
  assert (Hlpn : is_Some (kids t p)). { apply chs_live. intros Hz. rewrite Hz in Hin. by apply elem_of_nil in Hin. }
  assert (Hcom : forall l old new r, RD t t' p l old new r -> length old <= S (length new) -> (old = [] -> new = []) ->
     ((forall z, SP t z -> is_Some (kids t' z) -> SP t' z) -> forall m, AInt m ∈ map c_arena new -> big true t' m) ->
     (forall m, l = [] -> head (map c_arena old) = Some (AInt m) -> AInt m ∈ map c_arena new -> head (map c_arena new) = Some (AInt m)) ->
     AInt x ∈ map c_arena old ->
     (forall m, is_Some (kids t' m) -> AInt m <> root t' -> m <> p -> big true t' m) /\ length (chs t p) <= S (length (chs t' p))).
  { intros l old new r R Hlen Ho Hmin Hh Hxo.
    assert (Hsp : forall z, SP t z -> is_Some (kids t' z) -> SP t' z) by (by apply (rd_SP L _ _ _ _ _ _ _ _ _ _ W Hlp R Hh)).
    split.
    - intros m Hm Hmr Hmp. destruct (decide (AInt m ∈ map c_arena new)) as [Dn|Dn]; [by apply Hmin|].
      destruct (decide (AInt m ∈ map c_arena old)) as [Do|Do].
      { rewrite (rd_del _ _ _ _ _ _ _ _ R m Do Dn) in Hm. by destruct Hm. }
      pose proof (rd_other _ _ _ _ _ _ _ _ R m Hmp Do Dn) as Ek. apply (big_mono true t); [by eauto|unfold chs; by rewrite Ek|]. rewrite Ek in Hm.
      apply Hb; [done| |].
      + by rewrite <- (rd_root _ _ _ _ _ _ _ _ R).
      + intros ->. done.
    - rewrite (rd_chs L R), (rd_chs' L R), !app_length, !map_length. lia. }
  inversion HR as [Hp1 Hp2|l c r t0 Ec He R|l ca cb r ai bi A' B' t0 Ea Eb Hxab Hne R Ka Kb Hsum Hsum2 LA LB L1 L2|l ca cb r ai bi y cs t0 Ea Eb Hxab Hne Hy R Ky Hsum Hlt]; subst o t'.
  - split; [|lia]. intros m Hm Hmr Hmp. destruct (decide (m = x)) as [-> |Hmx]; [|by apply Hb]. left.
    apply (SP_first _ p); [|by rewrite Hp1].
    destruct (decide (AInt p = root t)) as [Ep|Ep]; [rewrite (wt_root_id W) in Ep; injection Ep as ->; constructor|].
    destruct (Hb p Hlpn Ep) as [Hs|Hs]; [congruence|done|]. rewrite Hp1 in Hs. cbn in Hs. lia.
  - apply (Hcom l [c] [] r R); try done; cbn; [by intros _ m Hm%elem_of_nil|by intros m _ _ Hm%elem_of_nil|]. rewrite Ec. left.
  - apply (Hcom l [ca; cb] _ r R); try done.
    + cbn. lia.
    + intros _. cbn [map c_arena]. intros m [[= ->]|[= ->]%elem_of_list_singleton]%elem_of_cons; apply big_6.
      * rewrite (chs_kids _ _ _ Ka), map_length. lia.
      * rewrite (chs_kids _ _ _ Kb), map_length. lia.
    + cbn. rewrite Ea. intros m _ [= <-] _. done.
    + cbn. rewrite Ea, Eb. destruct Hxab as [-> | ->]; [left|right; left].
  - apply (Hcom l [ca; cb] _ r R); try done.
    + intros Hsp. cbn [map c_arena]. intros m [= ->]%elem_of_list_singleton.
      assert (Hlen' : length (chs t0 y) = length (chs t ai) + length (chs t bi)) by (by rewrite (chs_kids _ _ _ Ky), map_length, Hsum).
      assert (ai <> bi) as Hab.
      { pose proof (rd_nodup L W R) as Hnd. apply NoDup_app in Hnd as (_ & _ & Hnd). apply NoDup_app in Hnd as (Hnd & _).
        cbn in Hnd. rewrite Ea, Eb in Hnd. apply NoDup_cons in Hnd as [Hnd _]. intros ->. apply Hnd. left. }
      assert (exists z, (z = ai \/ z = bi) /\ z <> x /\ length (chs t z) <= length (chs t ai) + length (chs t bi)) as (z & Hz1 & Hz2 & Hz3).
      { destruct Hxab as [-> | ->]; [exists bi|exists ai]; (split; [auto|split; [congruence|lia]]). }
      assert (Hzp : AInt z ∈ chs t p).
      { apply (rd_old_in L R). cbn. rewrite Ea, Eb. destruct Hz1 as [-> | ->]; [left|right; left]. }
      assert (Hold : big true t z).
      { apply Hb; [by apply (wt_live_child W) in Hzp| |done].
        intros Er. rewrite Er in Hzp. apply elem_of_list_lookup in Hzp as [k Hk]. by apply (wt_root_nochild W) in Hk. }
      destruct Hold as [Hzs|?]; [|right; lia].
      left. destruct (SP_up _ _ _ _ _ _ W Hzs Hzp) as [Hps Hhd].
      assert (l = []) as ->.
      { rewrite (rd_chs L R) in Hhd. destruct l as [|c0 l]; [done|]. cbn in Hhd. injection Hhd as Hc0.
        pose proof (rd_nodup L W R) as Hnd. cbn in Hnd. apply NoDup_cons in Hnd as [Hn _]. destruct Hn. rewrite Hc0.
        rewrite elem_of_app. right. rewrite Ea, Eb. destruct Hz1 as [-> | ->]; [left|right; left]. }
      apply (SP_first _ p); [apply Hsp; [done|]; rewrite (rd_p' _ _ _ _ _ _ _ _ R); eauto|].
      rewrite (rd_chs' L R). done.
    + cbn. by intros m _ _ ->%elem_of_list_singleton.
    + cbn. rewrite Ea, Eb. destruct Hxab as [-> | ->]; [left|right; left].
Qed.

(** every node but [x] and the root is big *)
Definition NB t x : Prop := forall m, is_Some (kids t m) -> AInt m <> root t -> m <> x -> big true t m.
Lemma NB_SH t t' x : SH t t' -> NB t x -> NB t' x.
Proof.
  intros S N m Hm Hr Hx. apply (big_mono true t); [by apply SP_SH|by rewrite (sh_chs S)|].
  apply N; [by apply (SH_kids _ _ S)|by rewrite <- (sh_root S)|done].
Qed.

Lemma hls_DI t H lv x p d : mono L = true -> DI (fun m => m = x) t H lv p d -> AInt x ∈ chs t p -> SZ t 11 ->
  exists o t' lv', handle_lack_single_layer t (AInt x) = Ok (o, t') /\ DI (fun m => m = p) t' H lv' p d /\ SZ t' 11 /\
    gen t' (S H) (root t') = gen t (S H) (root t) /\ (forall z, el t' z = el t z) /\ root t' = root t /\
    anext (leaf_nodes t) <= anext (leaf_nodes t') /\ (6 <= length (chs t p) -> chs t' p <> []) /\
    (forall q, is_Some (kids t q) -> lv p < lv q -> kids t' q = kids t q) /\ (forall q, is_Some (kids t q) -> lv' q = lv q) /\
    (NB t x -> NB t' p /\ length (chs t p) <= S (length (chs t' p))).
Proof.
  intros HM D Hin Z. pose proof D as [W K V Hi Hne C Hroot Hent Hrc].
  assert (is_Some (kids t x)) as Hx by (by apply (wt_live_child W) in Hin).
  pose proof Hin as [k0 Hk0]%elem_of_list_lookup. pose proof (wt_ch W _ _ _ Hk0) as [_ Hlv]. cbn in Hlv.
  assert (AInt x <> root t) as Hr. { intros Hr. rewrite Hr in Hk0. by apply (wt_root_nochild W) in Hk0. }
  destruct (hls_ok L _ t H lv x W K V) as (p' & o & t' & Hlv' & Hin' & E & HR); [intros j; pose proof (Z j); lia|done|done|].
  assert (p' = p) as ->.
  { apply elem_of_list_lookup in Hin' as [k1 Hk1]. by destruct (wt_uniq W _ _ _ _ _ Hk0 Hk1). }
  assert (Hlp : 0 < lv p) by lia.
  pose proof (hls_thick _ _ _ _ _ _ _ _ W Hin' Hlv' HR) as HT.
  exists o, t'. 
  inversion HR as [Hp1 Hp2|l c r t0 Ec He R|l ca cb r ai bi A' B' t0 Ea Eb Hxab Hne' R Ka Kb Hsum Hsum2 LA LB L1 L2|l ca cb r ai bi y cs t0 Ea Eb Hxab Hne' Hy R Ky Hsum Hlt]; subst o t'.
  - exists lv. split; [done|]. split; [|split_and!; try done]. 
    + constructor; try done. eapply WT_shrink; [|exact W]. intros m _ _ -> _. done.
    + by rewrite Hp1.
  - destruct (rd_DI _ t t0 H lv p d l [c] [] r D ltac:(intros ? ->; cbn; rewrite Ec; set_solver) ltac:(by right) ltac:(by right) Hlp R) as (lv' & D' & G' & El' & Rt' & Al' & Hup & Hlv2).
    pose proof (Z p) as Zp. rewrite (rd_chs L R) in Zp. rewrite !app_length, !map_length in Zp. cbn in Zp.
    exists lv'. split; [done|]. split; [done|]. split; [|split_and!; try done].
    + apply (rd_SZ L Hlp R); [done|cbn; rewrite app_length; lia|cbn; set_solver].
    + rewrite (rd_chs L R), (rd_chs' L R). rewrite !app_length, !map_length. cbn. intros H6 Hx0. apply (f_equal length) in Hx0.
      rewrite app_length, !map_length in Hx0. cbn in Hx0. lia.
  - pose proof (Z ai). pose proof (Z bi).
    destruct (rd_DI _ t t0 H lv p d l [ca; cb] _ r D ltac:(intros ? ->; cbn; rewrite Ea, Eb; destruct Hxab as [-> | ->]; set_solver) ltac:(by right) ltac:(by right) Hlp R) as (lv' & D' & G' & El' & Rt' & Al' & Hup & Hlv2).
    pose proof (Z p) as Zp. rewrite (rd_chs L R) in Zp. rewrite !app_length, !map_length in Zp. cbn in Zp.
    exists lv'. split; [done|]. split; [done|]. split; [|split_and!; try done].
    + apply (rd_SZ L Hlp R); [done|rewrite !app_length; cbn; lia|]. cbn. intros m [[= ->]|[= ->]%elem_of_list_singleton]%elem_of_cons.
      * rewrite (chs_kids _ _ _ Ka), map_length. lia.
      * rewrite (chs_kids _ _ _ Kb), map_length. lia.
    + rewrite (rd_chs' L R). intros _. by destruct (map c_arena l).
  - destruct (rd_DI _ t t0 H lv p d l [ca; cb] _ r D ltac:(intros ? ->; cbn; rewrite Ea, Eb; destruct Hxab as [-> | ->]; set_solver) ltac:(by right) ltac:(by right) Hlp R) as (lv' & D' & G' & El' & Rt' & Al' & Hup & Hlv2).
    pose proof (Z p) as Zp. rewrite (rd_chs L R) in Zp. rewrite !app_length, !map_length in Zp. cbn in Zp.
    exists lv'. split; [done|]. split; [done|]. split; [|split_and!; try done].
    + apply (rd_SZ L Hlp R); [done|rewrite !app_length; cbn; lia|]. cbn. intros m [= ->]%elem_of_list_singleton.
      rewrite (chs_kids _ _ _ Ky), map_length. lia.
    + rewrite (rd_chs' L R). intros _. by destruct (map c_arena l).
Qed.

Lemma ulbs_delete_ok d : mono L = true -> forall path t H lv i pos lack,
  DI (fun m => m = i) t H lv i d -> SZ t 11 -> Up t (AInt i) pos path -> (lack = false -> chs t i <> []) ->
  exists t' lv' lack', ulbs_delete t path false lack (AInt i) pos d = Ok (lack', t') /\
    DI (fun m => AInt m = root t') t' H lv' (raw (root t')) d /\ SZ t' 11 /\
    gen t' (S H) (root t') = gen t (S H) (root t) /\ (forall z, el t' z = el t z) /\ root t' = root t /\
    anext (leaf_nodes t) <= anext (leaf_nodes t') /\
    (NB t i -> (lack = false -> 5 <= length (chs t i)) ->
     (forall m, is_Some (kids t' m) -> AInt m <> root t' -> big true t' m) /\ (lack' = false -> 5 <= length (chs t' (raw (root t'))))).
Proof.
  intros HM path. induction path as [|[a pp] path IH]; intros t H lv i pos lack D Z U Hlack.
  - inversion U as [pos' Er|]; subst. exists t, lv, lack. cbn [ulbs_delete]. split; [done|]. rewrite Er. cbn [raw]. split_and!; try done.
    + destruct D. constructor; try done. eapply WT_shrink; [|done]. by intros m _ Hr -> _.
    + intros HB Hl. split; [|done]. intros m Hm Hmr. apply HB; [done|congruence|]. intros ->. done.
  - inversion U as [|? p k pp' r Hc U' E1 E2]; subst. cbn [ulbs_delete unwrap_internal rbind].
    destruct (di_step _ t H lv i d p pos D Hc) as (pn & cs' & -> & Hac & Hlen & S1 & El1 & D1 & Ho1). cbn [rbind]. rewrite Hac. cbn [rbind].
    set (t1 := set_in t p _) in *.
    assert (Z1 : SZ t1 11) by (by eapply SH_SZ).
    assert (Hin1 : AInt i ∈ chs t1 p) by (rewrite (sh_chs S1); by eapply elem_of_list_lookup_2).
    assert (U1 : Up t1 (AInt p) pp path).
    { eapply up_ext; [apply D|done| |apply S1]. intros. apply (sh_chs S1). }
    assert (G : exists t2 lv2, (if lack then let? (_, t) := handle_lack_single_layer t1 (AInt i) in Ok t else Ok t1) = Ok t2 /\
      DI (fun m => m = p) t2 H lv2 p d /\ SZ t2 11 /\ gen t2 (S H) (root t2) = gen t1 (S H) (root t1) /\ (forall z, el t2 z = el t1 z) /\
      root t2 = root t1 /\ anext (leaf_nodes t1) <= anext (leaf_nodes t2) /\ (6 <= length (chs t1 p) -> chs t2 p <> []) /\
      (forall q, is_Some (kids t1 q) -> lv p < lv q -> kids t2 q = kids t1 q) /\
      (NB t1 i -> (lack = false -> 5 <= length (chs t1 i)) -> NB t2 p /\ length (chs t1 p) <= S (length (chs t2 p)))).
    { destruct lack.
      - destruct (hls_DI t1 H lv i p d HM D1 Hin1 Z1) as (o & t2 & lv2 & -> & D2 & Z2 & G2 & El2 & R2 & Al2 & N2 & Hup & _ & HT).
        cbn [rbind]. exists t2, lv2. split_and!; try done. intros HB _. by apply HT.
      - exists t1, lv. split_and!; try done.
        + destruct D1. constructor; try done. eapply WT_shrink; [|done]. intros m _ _ -> _. rewrite (sh_chs S1). by apply Hlack.
        + intros H6 He. rewrite He in H6. cbn in H6. lia.
        + intros HB Hl. split; [|lia]. intros m Hm Hmr Hmp. destruct (decide (m = i)) as [-> |]; [|by apply HB]. right. by apply Hl. }
    destruct G as (t2 & lv2 & -> & D2 & Z2 & G2 & El2 & R2 & Al2 & N2 & Hup & HT). cbn [rbind].
    destruct (IH t2 H lv2 p pp (is_lack (with_children pn cs')) D2 Z2) as (t' & lv' & lack' & E' & D' & Z' & G' & El' & R' & Al' & HB').
    + eapply up_ext; [apply D1|done| |done]. intros q Hq Hl. unfold chs. by rewrite Hup.
    + unfold is_lack. cbn [n_children with_children]. intros Hl%bool_decide_eq_false. apply N2. rewrite (sh_chs S1). lia.
    + exists t', lv', lack'. split_and!; try done.
      * rewrite G', G2, (sh_root S1). apply (SH_gen _ _ S1).
      * intros z. by rewrite El', El2, El1.
      * rewrite R', R2. apply S1.
      * pose proof (sh_al S1). lia.
      * intros HB Hl. destruct HT as [HB2 Hl2]; [by apply (NB_SH t)|by rewrite (sh_chs S1)|]. apply HB'; [done|].
        unfold is_lack. cbn [n_children with_children]. intros Hl3%bool_decide_eq_false. rewrite (sh_chs S1) in Hl2. lia.
Qed.

(** ** Insertion: the diff applied along the path, with splits *)
Definition ulbs_finish d (x : option (Cache B * child) * btree) : res btree :=
  match fst x with
  | Some (cache, ch) => split_root (snd x) cache ch
  | None => let? v := apply_cache_diff (root_cache (snd x)) d in Ok (set_root_cache (snd x) v)
  end.

Lemma di_finish E t H lv i d : DI E t H lv i d -> (forall m, E m -> m = i) -> AInt i = root t -> SZ t 11 ->
  exists v, apply_cache_diff (root_cache t) d = Ok v /\ OK (set_root_cache t v) H lv.
Proof.
  intros [W K V Hi Hne C Hroot Hent Hrc] HE Er Z. exists (act t (AInt i)).
  split; [by apply (lw_apply _ L), Hroot|]. constructor.
  - assert (W' : WT NoE t H lv). { eapply WT_shrink; [|exact W]. intros m _ Hm Em%HE _. subst m. done. }
    by eapply SH_WT; [|exact W'].
  - destruct K. constructor; done.
  - done.
  - assert (C' : CO t (fun _ => False)).
    { intros q cs c Hk Hc _. apply (C q cs c Hk Hc). rewrite Er. exact (root_not_entry W q cs c Hk Hc). }
    exact C'.
  - intros _. cbn. by rewrite <- Er.
  - destruct V. constructor; done.
Qed.

Lemma ulbs_none_ok d path : forall t H lv i pos,
  DI NoE t H lv i d -> SZ t 11 -> Up t (AInt i) pos path ->
  exists t', (let? x := ulbs_insert t path pos d None in ulbs_finish d x) = Ok t' /\ OK t' H lv /\
    gen t' (S H) (root t') = gen t (S H) (root t) /\ (forall z, el t' z = el t z) /\ anext (leaf_nodes t) <= anext (leaf_nodes t') /\ (forall w, MDw w t -> MDw w t').
Proof.
  induction path as [|[a pp] path IH]; intros t H lv i pos D Z U.
  - inversion U as [pos' Er|]; subst. destruct (di_finish _ t H lv i d D) as (c & Ec & O); [done|done|done|].
    cbn [ulbs_insert rbind ulbs_finish fst snd]. rewrite Ec. cbn [rbind]. exists (set_root_cache t c). split_and!; try done; [by apply SH_gen|]. intros w. by apply MD_SH.
  - inversion U as [|? p k pp' r Hc U' E1 E2]; subst. cbn [ulbs_insert unwrap_internal rbind].
    destruct (di_step _ t H lv i d p pos D Hc) as (pn & cs' & -> & Hac & Hlen & S1 & El1 & D1 & Ho1). cbn [rbind]. rewrite Hac. cbn [rbind].
    set (t1 := set_in t p _) in *.
    destruct (IH t1 H lv p pp D1) as (t' & E' & O' & G' & El' & Al' & M').
    + by eapply SH_SZ.
    + eapply up_ext; [apply D|done| |apply S1]. intros. apply (sh_chs S1).
    + exists t'. split; [done|]. split; [done|]. split_and!.
      * rewrite G', (sh_root S1). apply (SH_gen _ _ S1).
      * intros z. by rewrite El', El1.
      * pose proof (sh_al S1). lia.
      * intros w M. by apply M', (MD_SH w t).
Qed.

Lemma RD_entry t t1 t' p l c c1 new r : RD t t' p l [c] new r -> SH t t1 -> (forall x, el t1 x = el t x) -> root_cache t1 = root_cache t ->
  (forall q, q <> p -> kids t1 q = kids t q) -> kids t1 p = Some (l ++ [c1] ++ r) -> c_arena c1 = c_arena c -> c_arena c <> AInt p ->
  RD t1 t' p l [c1] new r.
Proof.
  intros R S He Hrc Ho Hp Ha Hcp. destruct R. constructor; try done.
  - intros c0 Hc0. destruct (rd_new c0 Hc0) as (m & K0 & ? & ? & ? & ? & Hor & ?). exists m, K0. split_and!; try done.
    cbn [map] in *. rewrite Ha. destruct Hor as [?|Hn]; [by left|right].
    destruct (decide (m = p)) as [-> |]; [congruence|]. by rewrite Ho.
  - cbn [map]. by rewrite Ha.
  - rewrite rd_grand. cbn. f_equal. unfold kidl. rewrite Ha. destruct (c_arena c) as [|m]; [done|]. rewrite Ho; [done|congruence].
  - cbn [map]. rewrite Ha. intros j Hj Hjo Hjn. rewrite Ho by done. by apply rd_other.
  - intros x. by rewrite He.
  - rewrite rd_root. symmetry. apply S.
  - by rewrite Hrc.
  - by rewrite (sh_an S).
  - by rewrite (sh_al S).
  - intros a Hl Hn1 Hn2. specialize (rd_lnk_other a Hl Hn1 Hn2). destruct a; cbn in *; [by rewrite (sh_llnk S)|by rewrite (sh_lnk S)].
Qed.

Lemma split_rd_MD w E t t' H lv p i ri l c r v1 v2 cs : WT E t H lv -> 0 < lv p -> kids t i = Some cs -> c_arena c = AInt i ->
  RD t t' p l [c] [mkChild (AInt i) v1; mkChild (AInt ri) v2] r -> 6 <= length (chs t' i) -> 6 <= length (chs t' ri) -> kids t ri = None ->
  MDw w t -> MDw w t'.
Proof.
  intros W Hlp Hk Hca R H1 H2 Hri M.
  assert (Sp1 : forall x, SP t x -> is_Some (kids t' x) -> SP t' x).
  { apply (rd_SP L _ _ _ _ _ _ _ _ _ _ W Hlp R); [|done]. cbn. rewrite Hca. by intros m _ [= <-] _. }
  assert (Hlen : length (chs t' p) = S (length (chs t p))) by (rewrite (rd_chs L R), (rd_chs' L R), !app_length; cbn; lia).
  assert (Hot : forall m, m <> p -> m <> i -> m <> ri -> kids t' m = kids t m).
  { intros m D1 D2 D3. apply (rd_other _ _ _ _ _ _ _ _ R); [done| |].
    - cbn. rewrite Hca. intros Hx%elem_of_list_singleton. congruence.
    - cbn. intros [?|?%elem_of_list_singleton]%elem_of_cons; congruence. }
  pose proof (rd_root _ _ _ _ _ _ _ _ R) as Rt.
  constructor.
  - intros m Hm Hmr. rewrite Rt in Hmr.
    destruct (decide (m = i)) as [-> |D2]; [by apply big_6|].
    destruct (decide (m = ri)) as [-> |D3]; [by apply big_6|].
    destruct (decide (m = p)) as [-> |D4].
    { apply (big_mono w t); [by eauto|lia|]. apply (md_in _ _ M); [|done]. rewrite (rd_p _ _ _ _ _ _ _ _ R). eauto. }
    pose proof (Hot m D4 D2 D3) as Hkm.
    apply (big_mono w t); [by eauto|unfold chs; by rewrite Hkm|]. apply (md_in _ _ M); [|done]. by rewrite <- Hkm.
  - rewrite Rt. intros m Hm. destruct (decide (raw (root t) = p)) as [-> |D].
    { rewrite Hlen. rewrite (rd_chs L R), app_length. cbn. lia. }
    assert (kids t' (raw (root t)) = kids t (raw (root t))) as Hkm.
    { apply Hot; [done| |].
      - intros Ei. assert (AInt i ∈ chs t p) as [k Hx]%elem_of_list_lookup by (rewrite (rd_chs L R), <- Hca; set_solver).
        rewrite <- Ei, <- (wt_root_id W) in Hx. by apply (wt_root_nochild W) in Hx.
      - intros Ei. pose proof (wt_root_live W) as Hl. rewrite Ei, Hri in Hl. by destruct Hl. }
    unfold chs in *. rewrite Hkm in *. apply (md_root _ _ M m). done.
Qed.

Lemma ulbs_split_ok d path : forall t H lv i pos,
  DI NoE t H lv i d -> length (chs t i) = 12 -> (forall j, j <> i -> length (chs t j) <= 11) -> Up t (AInt i) pos path ->
  exists t' H' lv', (let? (_, _, tc, rc, t) := split_node t (AInt i) in
      let? x := ulbs_insert t path pos d (Some (tc, rc)) in ulbs_finish d x) = Ok t' /\ OK t' H' lv' /\
    gen t' (S H') (root t') = gen t (S H) (root t) /\ (forall z, el t' z = el t z) /\ anext (leaf_nodes t) <= anext (leaf_nodes t') /\ (forall w, MDw w t -> MDw w t').
Proof.
  induction path as [|[a pp] path IH]; intros t H lv i pos D Hlen Hsz U.
  - assert (Er : root t = AInt i) by (by inversion U). pose proof D as [W K V [cs Hk] Hne C Hroot Hent Hrc0].
    pose proof (chs_kids _ _ _ Hk) as Hci. rewrite Hci, map_length in Hlen.
    destruct (split_root_ok L NoE t H lv i cs 0 W K V Hk ltac:(lia) (eq_sym Er)) as (t' & Es & G & K' & Hrc).
    destruct (lk_root K i Er) as [s Hlk].
    destruct (split_node_ok L NoE t H lv i cs None s W Hk Hlk ltac:(lia) V) as (t1 & E1 & _).
    cbn [split_f] in Es. rewrite E1 in *. cbn [rbind] in *. cbn [ulbs_insert rbind ulbs_finish fst snd].
    set (sp := length cs / 2) in *. set (ri := anext (in_nodes t)) in *.
    assert (Hsp : sp = 6) by (unfold sp; by rewrite Hlen).
    pose proof (gr_WT W G) as W'.
    exists t', (S H), (lv_gr (r := i) (li := S ri) (ri := ri) (H := H) (lv := lv)).
    split; [done|]. split; [constructor; try done|split_and!].
    + intros j. destruct (decide (j = i)) as [-> |D1].
      { rewrite (chs_kids _ _ _ (gr_r' _ _ _ _ _ _ _ _ _ G)). cbn. lia. }
      destruct (decide (j = S ri)) as [-> |D2].
      { rewrite (chs_kids _ _ _ (gr_li' _ _ _ _ _ _ _ _ _ G)), map_length, take_length. lia. }
      destruct (decide (j = ri)) as [-> |D3].
      { rewrite (chs_kids _ _ _ (gr_ri' _ _ _ _ _ _ _ _ _ G)), map_length, drop_length. lia. }
      unfold chs. rewrite (gr_other _ _ _ _ _ _ _ _ _ G) by done. by apply Hsz.
    + intros q cs0 c0 Hk0 Hc0 _. eapply (gr_CO L W G); [exact C|done|done|exact Hk0|exact Hc0|].
      cbn beta. rewrite <- (gr_root' _ _ _ _ _ _ _ _ _ G). exact (root_not_entry W' q cs0 c0 Hk0 Hc0).
    + intros _. rewrite Hrc, (gr_root' _ _ _ _ _ _ _ _ _ G). symmetry.
      by rewrite (act_int _ _ _ _ (gr_r' _ _ _ _ _ _ _ _ _ G)).
    + by eapply (gr_VA L W G).
    + apply (gr_gen W G).
    + apply (gr_el _ _ _ _ _ _ _ _ _ G).
    + apply (gr_al _ _ _ _ _ _ _ _ _ G).
    + intros w M. constructor.
      * intros m Hm Hmr. rewrite (gr_root' _ _ _ _ _ _ _ _ _ G) in Hmr.
        destruct (decide (m = S ri)) as [-> |D2].
        { apply big_6. rewrite (chs_kids _ _ _ (gr_li' _ _ _ _ _ _ _ _ _ G)), map_length, take_length. lia. }
        destruct (decide (m = ri)) as [-> |D3].
        { apply big_6. rewrite (chs_kids _ _ _ (gr_ri' _ _ _ _ _ _ _ _ _ G)), map_length, drop_length. lia. }
        assert (m <> i) as D1 by congruence.
        assert (Ekm : kids t' m = kids t m) by (by apply (gr_other _ _ _ _ _ _ _ _ _ G)).
        rewrite Ekm in Hm. apply (big_mono w t).
        { intros Hs. by apply (gr_SP _ _ _ _ _ _ _ _ _ G). }
        { unfold chs. by rewrite Ekm. }
        apply (md_in _ _ M); [done|]. rewrite Er. congruence.
      * intros m _. rewrite (gr_root' _ _ _ _ _ _ _ _ _ G). cbn [raw]. rewrite (chs_kids _ _ _ (gr_r' _ _ _ _ _ _ _ _ _ G)). cbn. lia.
  - inversion U as [|? p k pp' r0 Hc U' E1 E2]; subst. pose proof D as [W K V [cs Hk] Hne C Hroot Hent Hrc0].
    pose proof (chs_kids _ _ _ Hk) as Hci. pose proof Hlen as Hlen0. rewrite Hci, map_length in Hlen.
    destruct (wt_ch W _ _ _ Hc) as [_ Hlv]. cbn in Hlv.
    assert (AInt i <> root t) as Er. { intros Er. rewrite Er in Hc. by apply (wt_root_nochild W) in Hc. }
    destruct (split_attach_ok L NoE t H lv i cs 0 W K V Hk ltac:(lia) Er) as (p0 & l & c & r & t' & Hca & Hlv' & R & Ki & Kr & (t1 & pn & Esn & Hgp & Hpn & Eu) & _).
    { intros q Hq. assert (q <> i) as Hqi. { intros ->. apply elem_of_list_lookup in Hq as [kk Hq]. apply (wt_ch W) in Hq as [_ Hq]. cbn in Hq. lia. }
      specialize (Hsz q Hqi). lia. }
    assert (Hcp0 : chs t p0 = map c_arena l ++ AInt i :: map c_arena r).
    { rewrite (chs_kids _ _ _ (rd_p _ _ _ _ _ _ _ _ R)), !map_app, <- Hca. done. }
    assert (p0 = p /\ pos = length l) as [-> ->].
    { apply (wt_uniq W _ _ _ _ _ ltac:(rewrite Hcp0; apply list_lookup_middle; by rewrite map_length)) in Hc. destruct Hc as [? Hc].
      done. }
    set (sp := length cs / 2) in *. set (ri := anext (in_nodes t)) in *.
    set (v1 := summ L (map c_cache (take sp cs))) in *. set (v2 := summ L (map c_cache (drop sp cs))) in *.
    assert (Hsp : sp = 6) by (unfold sp; by rewrite Hlen).
    assert (Hpi : p <> i) by (intros ->; lia).
    assert (Hszp : length (chs t p) <= 11) by (by apply Hsz).
    rewrite Esn. cbn [rbind ulbs_insert unwrap_internal]. rewrite Hgp. cbn [rbind]. rewrite Hpn.
    rewrite set_cc_mid. cbn [rbind].
    rewrite Hcp0, app_length in Hszp. cbn in Hszp. rewrite !map_length in Hszp.
    assert (Ev : vec_insert 12 (l ++ mkChild (c_arena c) v1 :: r) (S (length l)) (mkChild (AInt ri) v2) =
      Ok (l ++ mkChild (AInt i) v1 :: mkChild (AInt ri) v2 :: r)).
    { rewrite Hca. change (l ++ mkChild (AInt i) v1 :: r) with (l ++ [mkChild (AInt i) v1] ++ r). rewrite app_assoc.
      rewrite vec_insert_ok by (rewrite !app_length; cbn; lia).
      rewrite take_app_alt, drop_app_alt by (rewrite app_length; cbn; lia). by rewrite <- app_assoc. }
    rewrite Ev. cbn [rbind].
    assert (is_child_leaf (with_children pn (l ++ mkChild (AInt i) v1 :: mkChild (AInt ri) v2 :: r)) = false) as ->.
    { unfold is_child_leaf. cbn [n_children with_children].
      assert (forall x, x ∈ chs t p -> exists m, x = AInt m) as Hall.
      { intros x [kk Hx]%elem_of_list_lookup. apply (wt_ch W) in Hx as [_ Hx]. destruct x; [cbn in Hx; lia|eauto]. }
      destruct l as [|c0 l']; cbn; [done|]. destruct (Hall (c_arena c0)) as [m ->]; [rewrite Hcp0; set_solver|done]. }
    rewrite Eu. cbn [rbind].
    assert (Hlp : 0 < lv p) by lia.
    (* the state with the diff applied to the entry of [i] *)
    destruct (di_step _ t H lv i d p (length l) D Hc) as (pn1 & cs1 & Hg1 & Hac & Hlen1 & S1 & El1 & D1 & Ho1).
    assert (Hpn1 : n_children pn1 = l ++ c :: r).
    { pose proof (get_in_inv _ _ _ Hg1) as [Hx _]. rewrite (rd_p _ _ _ _ _ _ _ _ R) in Hx. by injection Hx. }
    assert (exists v, cs1 = l ++ [mkChild (c_arena c) v] ++ r) as [v ->].
    { rewrite Hpn1 in Hac. unfold apply_child_cache, vec_get in Hac. rewrite list_lookup_middle in Hac by done. cbn [ropt rbind] in Hac.
      destruct (apply_cache_diff (c_cache c) d) as [v| |]; cbn [rbind] in Hac; try done. injection Hac as <-. exists v.
      by rewrite insert_app_r_alt, Nat.sub_diag by lia. }
    set (t2 := set_in t p _) in *.
    assert (Kp2 : kids t2 p = Some (l ++ [mkChild (c_arena c) v] ++ r)) by (unfold t2; rewrite kids_set_in; by rewrite decide_True).
    assert (R2 : RD t2 t' p l [mkChild (c_arena c) v] [mkChild (AInt i) v1; mkChild (AInt ri) v2] r).
    { eapply RD_entry; [exact R|done|done|done|done|done|done|]. rewrite Hca. congruence. }
    destruct (rd_DI _ t2 t' H lv p d l [mkChild (c_arena c) v] [mkChild (AInt i) v1; mkChild (AInt ri) v2] r D1) as (lv' & D' & G' & Ele & Rt' & Al' & Hup & Hlv2); [| | |done|exact R2|].
    { by intros ? []. }
    { intros c0 ->%elem_of_list_singleton. left. unfold kidl. cbn [c_arena]. rewrite Hca, Ho1, Hk by done. cbn. by destruct cs. }
    { left. rewrite (rd_chs' L R2). by destruct (map c_arena l). }
    assert (D'' : DI NoE t' H lv' p d).
    { destruct D'. constructor; try done. eapply WT_shrink; [|done]. intros m _ _ -> _. rewrite (rd_chs' L R2). by destruct (map c_arena l). }
    assert (Hcp : chs t' p = map c_arena l ++ AInt i :: AInt ri :: map c_arena r) by apply (rd_chs' L R2).
    assert (U2 : Up t' (AInt p) pp path).
    { eapply up_ext; [apply D1| | |done].
      - eapply up_ext; [apply D|done| |apply S1]. intros. apply (sh_chs S1).
      - intros q Hq Hl. unfold chs. by rewrite Hup. }
    assert (Hsz1 : forall j, j <> p -> length (chs t' j) <= 11).
    { intros j Hj. destruct (decide (j = i)) as [-> |D1'].
      { rewrite (chs_kids _ _ _ Ki), map_length, take_length. lia. }
      destruct (decide (j = ri)) as [-> |D2'].
      { rewrite (chs_kids _ _ _ Kr), map_length, drop_length. lia. }
      unfold chs. rewrite (rd_other _ _ _ _ _ _ _ _ R); [by apply Hsz|done| |].
      - cbn. rewrite Hca. intros Hx%elem_of_list_singleton. congruence.
      - cbn. intros [?|?%elem_of_list_singleton]%elem_of_cons; congruence. }
    assert (FIN : exists t'' H' lv', (if is_full (with_children pn (l ++ mkChild (AInt i) v1 :: mkChild (AInt ri) v2 :: r))
        then let? (_, _, tc, rc, t) := split_node t' (AInt p) in let? x := ulbs_insert t path pp d (Some (tc, rc)) in ulbs_finish d x
        else let? x := ulbs_insert t' path pp d None in ulbs_finish d x) = Ok t'' /\ OK t'' H' lv' /\
      gen t'' (S H') (root t'') = gen t' (S H) (root t') /\ (forall z, el t'' z = el t' z) /\ anext (leaf_nodes t') <= anext (leaf_nodes t'') /\
      (forall w, MDw w t' -> MDw w t'')).
    { unfold is_full. cbn [n_children with_children]. case_bool_decide as Hf.
      - apply (IH t' H lv' p pp D''); [|done|done]. rewrite Hcp, app_length. cbn. rewrite !map_length. rewrite app_length in Hf. cbn in Hf. lia.
      - destruct (ulbs_none_ok d path t' H lv' p pp D'') as (t'' & E'' & O'' & G'' & El'' & Al'' & M''); [|done|by exists t'', H, lv'].
        intros j. destruct (decide (j = p)) as [-> |]; [|by apply Hsz1]. rewrite Hcp, app_length. cbn. rewrite !map_length. rewrite app_length in Hf. cbn in Hf. lia. }
    destruct FIN as (t'' & H' & lv'' & E'' & O'' & G'' & El'' & Al'' & M''). exists t'', H', lv''. split; [|split_and!; [done| | | |]].
    + rewrite <- E''. destruct (is_full _); [|done]. by destruct (split_node t' (AInt p)) as [[[[[? ?] ?] ?] ?]| |].
    + rewrite G'', G', (sh_root S1). apply (SH_gen _ _ S1).
    + intros z. by rewrite El'', Ele, El1.
    + pose proof (sh_al S1). lia.
    + intros w M. apply M''. apply (split_rd_MD w (fun _ => False) t t' H lv p i ri l c r v1 v2 cs); try done.
      * rewrite (chs_kids _ _ _ Ki), map_length, take_length. lia.
      * rewrite (chs_kids _ _ _ Kr), map_length, drop_length. lia.
      * destruct (kids t ri) eqn:Er'; [|done]. pose proof (wt_fresh W ri) as H0. rewrite Er' in H0. unfold ri in H0.
        specialize (H0 ltac:(eauto)). lia.
Qed.

(** ** The leaf level *)
Lemma rp_DI t t' H lv p l e A c Z N (N' : list child) d :
  OK t H lv -> lv p = 0 -> el t l = Some e -> RP t t' p l A c Z N N' ->
  (forall c0, c0 ∈ N' -> c_cache c0 = act t' (c_arena c0)) ->
  (forall x e, (x, e) ∈ N -> evalid L e) -> (N <> [] \/ mono L = true) ->
  drel L (get_elem_cache e) d (summ L (map (fun x => get_elem_cache (snd x)) N)) ->
  DI (fun m => m = p) t' H lv p d /\ (A ++ N' ++ Z <> [] -> DI NoE t' H lv p d) /\ (forall j, j <> p -> length (chs t' j) <= 11).
Proof.
  intros O Hlv He R Hnew Hev HN Hd. destruct O as [W K Z11 C HR V].
  pose proof (rp_ED L W K Hlv R) as D. pose proof (rp_p' _ _ _ _ _ _ _ _ _ R) as Hkp. pose proof (rp_p _ _ _ _ _ _ _ _ _ R) as Hk.
  pose proof (rp_root _ _ _ _ _ _ _ _ _ R) as Rt. pose proof (rp_rc _ _ _ _ _ _ _ _ _ R) as Rc.
  assert (W1 : WT (fun m => m = p) t' H lv).
  { eapply WT_mono; [|exact (ed_WT W Hlv D)]. intros m. cbn. intros [[]|[_ ?]]; done. }
  assert (K1 : LK t') by (by apply (ed_LK W D)).
  assert (HNN : map c_cache N' = map (fun x => get_elem_cache (snd x)) N).
  { pose proof (rp_NN _ _ _ _ _ _ _ _ _ R) as HNN. unfold lfs in HNN. pose proof (rp_new _ _ _ _ _ _ _ _ _ R) as Hn. clear -Hnew HNN Hn.
    revert N' HNN Hnew. induction N as [|[x e] N IH]; intros [|c0 N'] HNN Hnew; try done. cbn in HNN. injection HNN as Ex HNN. cbn. f_equal.
    - rewrite (Hnew c0) by (clear; set_solver). rewrite Ex. cbn [fst]. apply act_leaf. apply (Hn x e). clear; set_solver.
    - apply IH; [|done|]; intros; [apply Hn|apply Hnew]; by right. }
  assert (Hcv : forall c0, c0 ∈ N' -> cvalid L (c_cache c0)).
  { intros c0 Hc0. assert (c_cache c0 ∈ map c_cache N') as Hin by (by apply elem_of_list_fmap_1). rewrite HNN in Hin.
    apply elem_of_list_fmap in Hin as ([x ex] & -> & Hx). cbn. eapply lw_get, Hev, Hx. }
  assert (V1 : VA t') by (by apply (rp_VA L W K Hlv R V)).
  assert (C1 : CO t' (fun a => a = AInt p)) by (by apply (rp_CO_all L W K Hlv R)).
  assert (Hcc : c_cache c = get_elem_cache e).
  { rewrite (C p _ c Hk); [|clear; set_solver|by intros []]. rewrite (rp_c _ _ _ _ _ _ _ _ _ R). by apply act_leaf. }
  pose proof (VA_kids L _ _ _ V Hk) as F. rewrite map_app in F. cbn in F.
  apply Forall_app in F as [FA FZ]. apply Forall_cons in FZ as [_ FZ].
  assert (Hact : drel L (act t (AInt p)) d (act t' (AInt p))).
  { rewrite (act_int _ _ _ _ Hk), (act_int _ _ _ _ Hkp). rewrite !map_app. cbn [map]. rewrite Hcc, HNN.
    rewrite <- (lw_flat _ L).
    - by apply lw_cong.
    - apply Forall_app. split; [done|]. apply Forall_app. split; [|done]. rewrite <- HNN. apply Forall_forall.
      intros x (c0 & -> & Hc0)%elem_of_list_fmap. by apply Hcv.
    - destruct HN as [HN|?]; [left|by right]. by destruct N. }
  assert (Hp : AInt p <> root t' -> kids t (raw (root t)) = kids t' (raw (root t'))).
  { rewrite Rt. intros Hr. rewrite (rp_other _ _ _ _ _ _ _ _ _ R); [done|]. intros Hx. apply Hr. by rewrite (wt_root_id W), Hx. }
  assert (Hrt : root_cache t = act t (root t)).
  { apply HR. left. assert (is_Some (kids t p)) as Hpl by (rewrite Hk; eauto).
    destruct (decide (AInt p = root t)) as [Er|Er].
    - rewrite <- Er. cbn [raw]. rewrite (chs_kids _ _ _ Hk). by destruct A.
    - intros Hx. destruct (empty_nodes t H lv W Hx) as [He0 _]. apply Er. rewrite (He0 p Hpl). by rewrite <- (wt_root_id W). }
  assert (G : forall E, WT E t' H lv -> (A ++ N' ++ Z <> [] \/ mono L = true) -> DI E t' H lv p d).
  { intros E W' Hne. constructor; try done.
    - destruct Hne as [Hne|?]; [left|by right]. rewrite (chs_kids _ _ _ Hkp). by destruct (A ++ N' ++ Z).
    - rewrite Rt, Rc. intros Er. rewrite Hrt, <- Er. done.
    - intros q cs c0 Hkq Hc0 Ea. destruct (decide (q = p)) as [-> |Hqp].
      { exfalso. apply elem_of_list_lookup in Hc0 as [kk Hc0]. assert (chs t' p !! kk = Some (AInt p)) as Hx.
        { by rewrite (chs_kids _ _ _ Hkq), list_lookup_fmap, Hc0, <- Ea. }
        apply (wt_ch W') in Hx as [_ Hx]. cbn in Hx. lia. }
      rewrite (rp_other _ _ _ _ _ _ _ _ _ R) in Hkq by done. rewrite (C q cs c0 Hkq Hc0) by tauto. by rewrite Ea.
    - intros Hr. rewrite Rc, Hrt. rewrite (wt_root_id W), (wt_root_id W'). unfold Law.act. by rewrite (Hp Hr). }
  split_and!.
  - apply G; [done|]. destruct HN as [HN|?]; [left|by right]. intros [_ [Hx _]%app_nil]%app_nil.
    pose proof (rp_NN _ _ _ _ _ _ _ _ _ R) as HNN'. rewrite Hx in HNN'. by destruct N.
  - intros Hne. apply G; [|by left]. eapply WT_shrink; [|exact W1]. intros m _ _ -> _. rewrite (chs_kids _ _ _ Hkp). by destruct (A ++ N' ++ Z).
  - intros j Hj. unfold chs. rewrite (rp_other _ _ _ _ _ _ _ _ _ R) by done. apply Z11.
Qed.

Lemma RP_put t H lv l e e' p A c Z po s : WT NoE t H lv -> at_leaf t lv l e p A c Z -> lnk t p = Some (po, s) ->
  let c' := mkChild (ALeaf l) (get_elem_cache e') in
  RP t (set_in (set_lf t l (mkLeaf e' p)) p (mkNode po s (A ++ c' :: Z))) p l A c Z [(l, e')] [c'].
Proof.
  intros W AL Hlk c'. pose proof (RP_set t H lv l e e' p A c Z W AL) as R. set (t2 := set_lf t l _) in *. destruct R.
  constructor; try done.
  - rewrite kids_set_in. by rewrite decide_True.
  - intros j Hj. rewrite kids_set_in, decide_False by done. by apply rp_other.
  - intros j. rewrite lnk_set_in. case_decide; [subst; cbn; by rewrite Hlk|done].
Qed.
Lemma RP_put2 t H lv l e e' x p A c Z po s : WT NoE t H lv -> at_leaf t lv l e p A c Z -> lnk t p = Some (po, s) ->
  let n := anext (leaf_nodes t) in let c' := mkChild (ALeaf l) (get_elem_cache e') in let ch := mkChild (ALeaf n) (get_elem_cache x) in
  RP t (set_in (snd (ins_lf (set_lf t l (mkLeaf e' p)) (mkLeaf x p))) p (mkNode po s (A ++ c' :: ch :: Z))) p l A c Z [(l, e'); (n, x)] [c'; ch].
Proof.
  intros W (Hk & Ha & Hlv & He & Hl & _) Hlk n c' ch. pose proof (fresh_leaf t H lv W) as Hfr. fold n in Hfr.
  assert (Hnl : n <> l) by (intros El; rewrite El in Hfr; congruence).
  set (t1 := set_lf t l (mkLeaf e' p)). set (t2 := snd (ins_lf t1 (mkLeaf x p))).
  assert (E2 : forall y, el t2 y = if decide (n = y) then Some x else if decide (l = y) then Some e' else el t y).
  { intros y. unfold t2. rewrite el_ins_lf. change (anext (leaf_nodes t1)) with n. case_decide; [done|]. unfold t1. by rewrite el_set_lf. }
  assert (L2 : forall y, llnk t2 y = if decide (n = y) then Some p else if decide (l = y) then Some p else llnk t y).
  { intros y. unfold t2. rewrite llnk_ins_lf. change (anext (leaf_nodes t1)) with n. case_decide; [done|]. unfold t1. by rewrite llnk_set_lf. }
  constructor; try done.
  + rewrite kids_set_in, decide_True by done. done.
  + constructor; [set_solver|]. constructor; [set_solver|constructor].
  + intros y ey Hx. rewrite el_set_in, llnk_set_in, E2, L2. change (anext (leaf_nodes (set_in t2 p _))) with (S n).
    apply elem_of_cons in Hx as [[= -> ->]|[= -> ->]%elem_of_list_singleton].
    * rewrite !(decide_False (P := n = l)), !(decide_True (P := l = l)) by done. split_and!; try done; [by left|].
      assert (is_Some (el t l)) as Hx by (rewrite He; eauto). apply (wt_lfresh W) in Hx. fold n in Hx. lia.
    * rewrite !decide_True by done. split_and!; try done; [by right|lia].
  + cbn. set_solver.
  + intros y Hx Hn. rewrite el_set_in, llnk_set_in, E2, L2. cbn in Hn. rewrite !not_elem_of_cons in Hn.
    destruct Hn as (? & ? & _). by rewrite !decide_False by congruence.
  + intros j Hj. rewrite kids_set_in, decide_False by done. done.
  + intros j. rewrite lnk_set_in. case_decide; [subst; cbn; by rewrite Hlk|done].
  + change (anext (leaf_nodes t) <= S n). unfold n. lia.
Qed.
Lemma rem_set_lf t l lf : rem_lf (set_lf t l lf) l = rem_lf t l.
Proof. unfold rem_lf, set_lf, a_remove, a_set. cbn. do 2 f_equal. apply delete_insert_delete. Qed.

(** the descent keeps the path and ends where [query] ends *)
Lemma ulbs_descend_ok (Q : Query B) t H lv (q : QArg Q) : WT NoE t H lv -> forall f i pos path (s : Qst Q) fd l off fd' (s' : Qst Q),
  query_f Q f t i s q fd = Ok (Some (mkQR (mkCur l off) fd'), s') ->
  is_Some (kids t i) -> Up t (AInt i) pos (rev path) -> lv i + length path < 10 ->
  exists cpos (s1 : Qst Q) path' lf fnd, ulbs_descend Q (S f) t (AInt i) pos s q path = Ok (l, cpos, s1, path') /\
    Up t (ALeaf l) cpos (rev path') /\ get_lf t l = Ok lf /\ q_confirm Q s1 q (l_elem lf) = (off, fnd, s') /\ (fd' = true -> fnd = true).
Proof.
  intros W f. induction f as [|f IH]; intros i pos path s fd l off fd' s' Hq Hi HU Hp; [done|].
  cbn [query_f] in Hq. remember (S f) as f1 eqn:Ef. cbn [ulbs_descend]. unfold vec_push at 1. rewrite decide_True by lia. cbn [rbind].
  destruct (get_in t i) as [n| |] eqn:Hg; cbn [rbind] in *; try done.
  destruct (q_find Q s q (n_children n)) as [[[[ix o] fd1] s1]| |]; cbn [rbind] in *; try done.
  destruct (n_is_empty n); cbn [negb rassert rbind] in Hq; try done.
  unfold vec_get in *. destruct (n_children n !! ix) as [c|] eqn:Hc; cbn [ropt rbind] in *; try done.
  destruct (get_in_inv _ _ _ Hg) as [Hk _].
  assert (Hch : chs t i !! ix = Some (c_arena c)) by (by rewrite (chs_kids _ _ _ Hk), list_lookup_fmap, Hc).
  destruct (wt_ch W _ _ _ Hch) as [Hlive Hlv].
  assert (HU' : Up t (c_arena c) ix (rev (path ++ [mkIdx (AInt i) pos]))).
  { rewrite rev_app_distr. cbn. by econstructor. }
  destruct (c_arena c) as [l0|m] eqn:Ea.
  - destruct (get_lf t l0) as [lf| |] eqn:Hl; cbn [rbind] in Hq; try done.
    destruct (q_confirm Q s1 q (l_elem lf)) as [[off0 fnd] s2] eqn:Hqc. injection Hq as -> -> <- ->.
    subst f1. cbn [ulbs_descend]. exists ix, s1, (path ++ [mkIdx (AInt i) pos]), lf, fnd. split_and!; try done.
    by intros [_ ?]%andb_true_iff.
  - cbn in Hlv. destruct (IH m ix (path ++ [mkIdx (AInt i) pos]) s1 (fd && fd1) l off fd' s' Hq) as (cpos & s2 & path' & lf & fnd & E & ?); try done.
    { rewrite app_length. cbn. lia. }
    subst f1. exists cpos, s2, path', lf, fnd. by rewrite E.
Qed.

Definition ul_kept (e : Elem B) (n1 : option (Elem B)) : list (Elem B) := if can_remove e then [] else e :: olist n1.

Inductive ulbs_res l off (fresh : nat -> Prop) : list (Elem B) -> option cursor -> list nat -> list (nat * Elem B) -> Prop :=
| us_gone : ulbs_res l off fresh [] None [] []
| us_one e : ulbs_res l off fresh [e] (Some (mkCur l off)) [] [(l, e)]
| us_new e n x : fresh n -> ulbs_res l off fresh [e; x] (Some (mkCur l off)) [n] [(l, e); (n, x)].

Theorem t_ulbs (Q : Query B) t X l e Y (q : QArg Q) off fd (s' : Qst Q) f : Tree L t (X ++ (l, e) :: Y) -> Shallow t 10 ->
  query_with_finder_return Q t q = Ok (Some (mkQR (mkCur l off) fd), s') ->
  exists fnd, (fd = true -> fnd = true) /\
    (forall e', f e (mkQR (mkCur l off) fnd) = (e', None) -> evalid L e' -> get_elem_cache e' = get_elem_cache e ->
      exists t', update_leaf_by_search Q t q f = Ok (Some (mkCur l off), [], t') /\ Tree L t' (X ++ (l, e') :: Y) /\ (MDw true t -> MDw true t')) /\
    (forall e' d n1, f e (mkQR (mkCur l off) fnd) = (e', Some (d, n1, None)) -> evalid L e' -> (forall x, n1 = Some x -> evalid L x) ->
      (can_remove e' = true -> n1 = None) ->
      drel L (get_elem_cache e) d (summ L (map get_elem_cache (ul_kept e' n1))) ->
      exists rc sl R t', update_leaf_by_search Q t q f = Ok (rc, sl, t') /\ Tree L t' (X ++ R ++ Y) /\
        ulbs_res l off (fun n => anext (leaf_nodes t) <= n < anext (leaf_nodes t')) (ul_kept e' n1) rc sl R /\
        anext (leaf_nodes t) <= anext (leaf_nodes t') /\ (MDw true t -> MDw true t')).
Proof.
  intros T Hsh Hq. destruct (shallow_ok L t _ 10 T) as (H & lv & O & HH & Hcn); [by destruct X|done|].
  pose proof (ok_wt _ _ _ _ O) as W. pose proof (ok_lk _ _ _ _ O) as K.
  assert (He : el t l = Some e) by (apply (cont_el (H := H)); rewrite Hcn; clear; set_solver).
  unfold query_with_finder_return in Hq. unfold update_leaf_by_search.
  destruct (is_empty t) as [emp| |]; cbn [rbind] in *; try done. destruct emp; [done|].
  assert (Hlr : lv (raw (root t)) = H). { destruct (wt_root W) as (r & -> & _ & Hr). done. }
  destruct (ulbs_descend_ok Q t H lv q W _ (raw (root t)) 0 [] _ _ _ _ _ _ Hq) as (cpos & s1 & path' & lf & fnd & Ed & HU & Hgl & Hqc & Hfd).
  { apply (wt_root_live W). } { rewrite <- (wt_root_id W). constructor. } { rewrite Hlr. cbn. lia. }
  rewrite <- (wt_root_id W) in Ed. rewrite Ed. cbn [rbind]. rewrite Hgl. cbn [rbind]. rewrite Hqc.
  destruct (at_leaf_ok t H lv l e W K He) as (p & A & c & Z & AL).
  pose proof AL as (Hk & Ha & Hlv & _ & Hl & Hgl2 & _ & Hslot & po & s & Hg & Hlk).
  rewrite Hgl2 in Hgl. injection Hgl as <-. cbn [l_elem]. cbn [l_elem] in Hqc.
  assert (exists pp r, rev path' = mkIdx (AInt p) pp :: r /\ cpos = length A /\ Up t (AInt p) pp r) as (pp & r & Hrev & -> & HUp).
  { inversion HU as [pos E0|? p0 k pp r Hc HU' E1 E2]; subst.
    - exfalso. pose proof (wt_root_id W) as Hr. congruence.
    - assert (chs t p !! length A = Some (ALeaf l)) as Hc2.
      { rewrite (chs_kids _ _ _ Hk), list_lookup_fmap, list_lookup_middle by done. cbn. by rewrite Ha. }
      destruct (wt_uniq W _ _ _ _ _ Hc Hc2) as [-> ->]. by exists pp, r. }
  assert (Hlast : last path' = Some (mkIdx (AInt p) pp)).
  { rewrite <- (rev_involutive path'), Hrev. cbn. apply last_snoc. }
  exists fnd. split; [done|]. split.
  { intros e' Hf Ve' Hce. rewrite Hf. unfold with_elem. cbn [l_parent]. eexists. split; [done|].
    pose proof (RP_put t H lv l e e' p A c Z po s W AL Hlk) as R.
    assert (c = mkChild (ALeaf l) (get_elem_cache e')) as Ec.
    { pose proof (cache_ok L t H lv c l e p _ O Hk ltac:(clear; set_solver) Ha He) as Hcc. destruct c. cbn in *. by rewrite Ha, Hcc, Hce. }
    pose proof (RP_set t H lv l e e' p A c Z W AL) as R0. set (t1 := set_lf t l (mkLeaf e' p)) in *.
    assert (S1 : SH t t1).
    { split; try done.
      intros y. unfold t1. rewrite llnk_set_lf. case_decide as Hy; [by rewrite <- Hy, Hl|done]. }
    assert (OK t1 H lv) as O1.
    { destruct O as [_ _ Z11 C HR V]. constructor.
      - by eapply SH_WT.
      - by eapply SH_LK.
      - done.
      - intros q0 cs0 c0 Hk0 Hc0 Hd. rewrite (C q0 cs0 c0 Hk0 Hc0 Hd). destruct (c_arena c0) as [y|m]; [|done]. unfold Law.act, t1.
        rewrite el_set_lf. case_decide as Hy; [|done]. by rewrite <- Hy, He.
      - intros Hx. pose proof (HR Hx) as Hr. cbn [root_cache set_lf t1]. rewrite Hr. unfold t1. pose proof (wt_root_id W) as Hri. cbn [root set_lf].
        rewrite Hri. done.
      - apply (rp_VA L W K Hlv R0 V).
        + by intros x ex [= -> ->]%elem_of_list_singleton.
        + intros c0 ->%elem_of_list_singleton. rewrite Ec. cbn. by apply lw_get. }
    pose proof (rp_cont L W K Hlv R0 e X Y He Hcn) as Cn. pose proof (OK_Tree L t1 H lv O1) as T1. rewrite Cn in T1. split; [done|]. by apply MD_SH. }
  intros e' d n1 Hf Ve' Vn Hrm Hd. rewrite Hf. unfold with_elem. cbn [l_parent]. unfold ul_kept in *.
  pose proof (ok_sz _ _ _ _ O p) as Zp. rewrite (chs_kids _ _ _ Hk), map_length, app_length in Zp. cbn in Zp.
  assert (Hnlr : forall t' N N', RP t t' p l A c Z N N' -> Up t' (AInt p) pp r).
  { intros t' N N' R. eapply up_ext; [exact W|exact HUp| |apply R]. intros q0 _ Hl0. unfold chs.
    rewrite (rp_other _ _ _ _ _ _ _ _ _ R); [done|]. intros ->. lia. }
  destruct (can_remove e') eqn:Erm.
  - rewrite (Hrm eq_refl) in *. rewrite bool_decide_eq_true_2 by (by intros [? ?]). cbn [rassert rbind].
    destruct (lw_rm _ L e' Ve' Erm) as [HM _].
    rewrite rem_set_lf, Hrev. cbn [ulbs_delete unwrap_internal rbind].
    assert (get_in (rem_lf t l) p = Ok (mkNode po s (A ++ c :: Z))) as -> by exact Hg. cbn [rbind n_children].
    rewrite vec_remove_mid. cbn [rbind]. unfold with_children. cbn [n_parent n_slot n_children].
    pose proof (RP_del t H lv l e p A c Z po s W AL Hlk) as R.
    change (set_in (rem_lf t l) p (mkNode po s (A ++ Z))) with (rem_lf (set_in t p (mkNode po s (A ++ Z))) l).
    set (t1 := rem_lf (set_in t p (mkNode po s (A ++ Z))) l) in *.
    destruct (rp_DI t t1 H lv p l e A c Z [] [] d O Hlv He R) as (D1 & _ & Z1); [by intros ? []%elem_of_nil|by intros ? ? []%elem_of_nil|by right|done|].
    pose proof (chs_kids _ _ _ (rp_p' _ _ _ _ _ _ _ _ _ R)) as Hcp1. cbn [app] in Hcp1.
    assert (Z11 : SZ t1 11).
    { intros j. destruct (decide (j = p)) as [-> |Hj]; [|by apply Z1]. rewrite Hcp1, map_length, app_length. lia. }
    destruct (ulbs_delete_ok d HM r t1 H lv p pp (is_lack (mkNode po s (A ++ Z))) D1 Z11 (Hnlr _ _ _ R)) as (t2 & lv2 & lack & -> & D2 & Z2 & G2 & El2 & R2 & Al2 & HB).
    { unfold is_lack. cbn [n_children]. intros Hx%bool_decide_eq_false Hy. rewrite Hcp1 in Hy. apply (f_equal length) in Hy. rewrite map_length in Hy. cbn in Hy. lia. }
    cbn [rbind].
    pose proof (wt_root_id (di_wt _ _ _ _ _ _ D2)) as Hri2.
    destruct (di_finish _ t2 H lv2 (raw (root t2)) d D2) as (v & -> & O3); [|done|done|].
    { intros m Hm. by rewrite <- Hm. }
    cbn [rbind]. set (t3 := set_root_cache t2 v) in *.
    assert (S3 : SH t2 t3) by done.
    assert (Cn3 : cont t3 H = X ++ Y).
    { pose proof (rp_cont L W K Hlv R e X Y He Hcn) as Cn1. cbn [app] in Cn1. rewrite <- Cn1. apply cont_same; [|done]. change (gen t2 (S H) (root t2) = gen t1 (S H) (root t1)) in G2.
      rewrite <- G2. by apply SH_gen. }
    assert (Fin : exists t4, (if lack then let? rn := get_internal t3 (root t3) in
        if bool_decide (length (n_children rn) = 1) && negb (is_child_leaf rn) then try_reduce_levels t3 else Ok t3 else Ok t3) = Ok t4 /\ Tree L t4 (X ++ Y) /\ anext (leaf_nodes t4) = anext (leaf_nodes t3) /\ (MDw true t -> MDw true t4)).
    { assert (T3 : Tree L t3 (X ++ Y)) by (rewrite <- Cn3; by eapply OK_Tree).
      assert (HB3 : MDw true t -> (forall m, is_Some (kids t3 m) -> AInt m <> root t3 -> big true t3 m) /\ (lack = false -> 5 <= length (chs t3 (raw (root t3))))).
      { intros M. destruct HB as [HB1 HB2].
        - intros m Hm Hmr Hmp. change (kids t3 m) with (kids t2 m). pose proof (rp_other _ _ _ _ _ _ _ _ _ R m Hmp) as Ek. rewrite Ek in Hm. rewrite (rp_root _ _ _ _ _ _ _ _ _ R) in Hmr.
          apply (big_mono true t); [apply (rp_SP L W K Hlv R)|unfold chs; by rewrite Ek|by apply (md_in _ _ M)].
        - unfold is_lack. cbn [n_children]. intros Hx%bool_decide_eq_false. rewrite Hcp1, map_length. lia.
        - split; [|done]. intros m Hm Hmr. apply (big_mono true t2); [by apply (SP_SH t2 t3 S3)|by rewrite (sh_chs S3)|by apply HB1]. }
      destruct lack; [|exists t3; split_and!; try done; intros M; destruct (HB3 M) as [HB4 HB5]; constructor; [done|]; intros m _; specialize (HB5 eq_refl); lia]. pose proof (wt_root_id (ok_wt _ _ _ _ O3)) as Hri3. rewrite Hri3. unfold get_internal. cbn [unwrap_internal rbind].
      destruct (wt_root_live (ok_wt _ _ _ _ O3)) as [csr Hkr]. destruct (get_in_kids _ _ _ Hkr) as (po3 & s3 & -> & _). cbn [rbind].
      destruct (bool_decide (length _ = 1) && _) eqn:Hred.
      2: { exists t3; split_and!; try done; intros M; destruct (HB3 M) as [HB4 HB5]. constructor; [done|]. rewrite Hri3. cbn [raw]. rewrite (chs_kids _ _ _ Hkr), map_length.
        intros m Hm. cbn [n_children] in Hred. unfold is_child_leaf in Hred. cbn [n_children] in Hred. destruct csr as [|c1 [|c2 csr]]; cbn in Hm |- *; [by apply elem_of_nil in Hm| |lia].
        exfalso. apply elem_of_list_singleton in Hm. rewrite bool_decide_eq_true_2 in Hred by done. cbn in Hred. by rewrite <- Hm in Hred. }
      destruct (try_reduce_ok L t3 H lv2 O3) as (t4 & H4 & lv4 & -> & O4 & R4 & G4 & El4 & K4 & S4 & Sp4 & _ & Al4). exists t4. split; [done|]. split; [|split; [done|]].
      - rewrite <- Cn3, <- (cont_same _ _ _ _ G4 El4). by eapply OK_Tree.
      - intros M. destruct (HB3 M) as [HB4 _]. constructor; [|exact S4]. intros m Hm Hr. rewrite R4 in Hr. pose proof (K4 m Hm Hr) as Ek.
        apply (big_mono true t3); [intros; by apply Sp4|unfold chs; by rewrite Ek|]. apply HB4; [by rewrite <- Ek|done]. }
    destruct Fin as (t4 & -> & T4 & Al4 & M4). cbn [rbind]. exists None, [], [], t4. split; [done|]. split; [done|]. split; [constructor|]. change (anext (leaf_nodes t1)) with (anext (leaf_nodes t)) in Al2. change (anext (leaf_nodes t3)) with (anext (leaf_nodes t2)) in Al4. split; [lia|done].
  - destruct n1 as [x|].
    + cbn [olist map] in *. rewrite Hlast. cbn [ropt rbind i_arena raw].
      unfold alloc_leaf_child. 
      pose proof (RP_put2 t H lv l e e' x p A c Z po s W AL Hlk) as R. cbn zeta in R.
      set (n := anext (leaf_nodes t)) in *.
      destruct (ins_lf (set_lf t l (mkLeaf e' p)) (mkLeaf x p)) as [n' t1] eqn:Ei.
      assert (n' = n) as -> by (unfold ins_lf in Ei; injection Ei as <- _; done).
      cbn [snd] in R. unfold sl_push, vec_push at 1. cbn [length c_arena raw]. rewrite decide_True by lia. cbn [rbind app].
      rewrite Hrev. cbn [ulbs_insert unwrap_internal rbind].
      assert (get_in t1 p = Ok (mkNode po s (A ++ c :: Z))) as -> by (unfold ins_lf in Ei; injection Ei as <-; exact Hg).
      cbn [rbind n_children]. rewrite set_cc_mid, Ha. cbn [rbind].
      set (c' := mkChild (ALeaf l) (get_elem_cache e')) in *. set (ch := mkChild (ALeaf n) (get_elem_cache x)) in *.
      assert (Ev : vec_insert 12 (A ++ c' :: Z) (S (length A)) ch = Ok (A ++ c' :: ch :: Z)).
      { rewrite vec_insert_ok by (rewrite !app_length; cbn; lia). by rewrite ins_after. }
      rewrite Ev. cbn [rbind]. unfold with_children. cbn [n_parent n_slot n_children].
      set (t2 := set_in t1 p _) in *.
      assert (is_child_leaf (mkNode po s (A ++ c' :: ch :: Z)) = true) as ->.
      { unfold is_child_leaf. cbn [n_children]. destruct A as [|c0 A']; [done|]. cbn.
        destruct (wt_leaf_child W p (c_arena c0)) as [y ->]; [rewrite (chs_kids _ _ _ Hk); cbn; clear; set_solver|done|done]. }
      cbn [rbind].
      destruct (rp_new _ _ _ _ _ _ _ _ _ R l e' ltac:(clear; set_solver)) as (El & _).
      destruct (rp_new _ _ _ _ _ _ _ _ _ R n x ltac:(clear; set_solver)) as (En & _ & _ & Hn).
      destruct (rp_DI t t2 H lv p l e A c Z [(l, e'); (n, x)] [c'; ch] d O Hlv He R) as (_ & D1 & Z1).
      { intros c0 [-> | ->%elem_of_list_singleton]%elem_of_cons; cbn [c_cache c_arena c' ch]; symmetry; by apply act_leaf. }
      { intros y ey [[= -> ->]|[= -> ->]%elem_of_list_singleton]%elem_of_cons; [done|by apply Vn]. }
      { by left. } { done. }
      specialize (D1 ltac:(by destruct A)).
      pose proof (chs_kids _ _ _ (rp_p' _ _ _ _ _ _ _ _ _ R)) as Hcp1.
      assert (FIN : exists t'' H' lv', (if is_full (mkNode po s (A ++ c' :: ch :: Z))
        then let? (_, _, tc, rc, t) := split_node t2 (AInt p) in let? x := ulbs_insert t r pp d (Some (tc, rc)) in ulbs_finish d x
        else let? x := ulbs_insert t2 r pp d None in ulbs_finish d x) = Ok t'' /\ OK t'' H' lv' /\
        gen t'' (S H') (root t'') = gen t2 (S H) (root t2) /\ (forall z, el t'' z = el t2 z) /\ anext (leaf_nodes t2) <= anext (leaf_nodes t'') /\
        (forall w, MDw w t2 -> MDw w t'')).
      { unfold is_full. cbn [n_children]. rewrite app_length. cbn [length]. case_bool_decide as Hfull.
        - apply (ulbs_split_ok d r t2 H lv p pp D1); [|done|by eapply Hnlr]. rewrite Hcp1, map_length, !app_length. cbn. lia.
        - destruct (ulbs_none_ok d r t2 H lv p pp D1) as (t'' & E'' & O'' & G'' & El'' & Al'' & M''); [|by eapply Hnlr|by exists t'', H, lv].
          intros j. destruct (decide (j = p)) as [-> |]; [|by apply Z1]. rewrite Hcp1, map_length, !app_length. cbn. lia. }
      destruct FIN as (t'' & H' & lv'' & E'' & O'' & G'' & El'' & Al'' & M'').
      exists (Some (mkCur l off)), [n], [(l, e'); (n, x)], t''. split; [|split; [|split; [|split; [lia|intros M; by apply M'', (rp_MD L W K Hlv R)]]]].
      * assert (forall y, (let? (new, t0) := y in
            let? t4 := match new with
                       | Some (cache, ch0) => split_root t0 cache ch0
                       | None => let? w := apply_cache_diff (root_cache t0) d in Ok (set_root_cache t0 w)
                       end in Ok (Some (qr_cursor (mkQR (mkCur l off) fnd)), [n], t4)) =
           (let? t4 := (let? y := y in ulbs_finish d y) in Ok (Some (mkCur l off), [n], t4))) as Hy.
        { intros [[[[? ?]|] ?]| |]; done. }
        rewrite Hy. 
        destruct (is_full _).
        -- destruct (split_node t2 (AInt p)) as [[[[[? ?] ?] ?] ?]| |]; cbn [rbind] in *; try done. by rewrite E''.
        -- by rewrite E''.
      * rewrite <- (rp_cont L W K Hlv R e X Y He Hcn), <- (cont_same _ _ _ _ G'' El''). by eapply OK_Tree.
      * constructor. lia.
    + cbn [olist map] in *. rewrite lw_one in Hd by (by apply lw_get). cbn [rbind]. rewrite Hrev. cbn [ulbs_insert unwrap_internal rbind].
      assert (get_in (set_lf t l (mkLeaf e' p)) p = Ok (mkNode po s (A ++ c :: Z))) as -> by exact Hg. cbn [rbind n_children].
      pose proof (cache_ok L t H lv c l e p _ O Hk ltac:(clear; set_solver) Ha He) as Hcc.
      assert (apply_child_cache (A ++ c :: Z) (length A) d = Ok (A ++ mkChild (ALeaf l) (get_elem_cache e') :: Z)) as ->.
      { unfold apply_child_cache, vec_get. rewrite list_lookup_middle by done. cbn [ropt rbind]. rewrite Hcc, (lw_apply _ L _ _ _ Hd). cbn [rbind].
        by rewrite insert_app_r_alt, Nat.sub_diag, Ha by lia. }
      cbn [rbind]. unfold with_children. cbn [n_parent n_slot].
      pose proof (RP_put t H lv l e e' p A c Z po s W AL Hlk) as R. cbn zeta in R.
      set (c' := mkChild (ALeaf l) (get_elem_cache e')) in *. set (t2 := set_in _ p _) in *.
      destruct (rp_new _ _ _ _ _ _ _ _ _ R l e' ltac:(clear; set_solver)) as (El & _).
      destruct (rp_DI t t2 H lv p l e A c Z [(l, e')] [c'] d O Hlv He R) as (_ & D1 & Z1).
      { intros c0 ->%elem_of_list_singleton; cbn [c_cache c_arena c']; symmetry; by apply act_leaf. }
      { intros y ey [= -> ->]%elem_of_list_singleton; done. }
      { by left. } { cbn. by rewrite lw_one by (by apply lw_get). }
      specialize (D1 ltac:(by destruct A)).
      pose proof (chs_kids _ _ _ (rp_p' _ _ _ _ _ _ _ _ _ R)) as Hcp1.
      destruct (ulbs_none_ok d r t2 H lv p pp D1) as (t'' & E'' & O'' & G'' & El'' & Al'' & M''); [|by eapply Hnlr|].
      { intros j. destruct (decide (j = p)) as [-> |]; [|by apply Z1]. rewrite Hcp1, map_length, !app_length. cbn. lia. }
      exists (Some (mkCur l off)), [], [(l, e')], t''. split; [|split; [|split; [constructor|split; [exact Al''|intros M; by apply M'', (rp_MD L W K Hlv R)]]]].
      * destruct (ulbs_insert t2 r pp d None) as [[[[? ?]|] ?]| |]; cbn [rbind ulbs_finish fst snd] in *; try done; by rewrite E''.
      * rewrite <- (rp_cont L W K Hlv R e X Y He Hcn), <- (cont_same _ _ _ _ G'' El''). by eapply OK_Tree.
Qed.
End ulbs.
