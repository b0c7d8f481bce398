(** Drain4.v — drain as a whole. *)
From Verif Require Export Drain3.

Section refresh.
Context {B : BTreeTrait} (L : Lawful B).
Notation btree := (btree B).
Notation child := (child B).
Notation OK := (OK L).
Notation CO := (CO L).
Notation VA := (VA L).
Notation RC := (RC L).
Implicit Types (t : btree) (i j m p q k : nat) (a b : aidx) (c : child) (cs : list child).

(** recalculating from a leaf repairs all entries above it *)
Lemma ruc_any t H lv l e p (D : aidx -> Prop) :
  WT NoE t H lv -> LK t -> el t l = Some e -> ALeaf l ∈ chs t p -> CO t D -> VA t ->
  exists t', recursive_update_cache t (ALeaf l) false None = Ok t' /\ SH t t' /\ (forall z, el t' z = el t z) /\
    CO t' (fun a => D a /\ forall m, a = AInt m -> ~ upr t p m) /\ VA t' /\ RC t'.
Proof.
  intros W K He Hin C V. apply elem_of_list_lookup in Hin as [k Hck].
  assert (exists cs c, kids t p = Some cs /\ cs !! k = Some c /\ c_arena c = ALeaf l) as (cs & c & Hk & Hc & Ha).
  { pose proof (chs_lookup_live _ _ _ _ Hck) as [cs Hk]. exists cs. rewrite (chs_kids _ _ _ Hk), list_lookup_fmap in Hck.
    destruct (cs !! k) as [c|]; [|done]. exists c. split; [done|]. split; [done|]. by injection Hck. }
  pose proof (lk_ch K _ _ _ Hck) as Hlk. cbn in Hlk.
  destruct (get_in_kids t p cs Hk) as (po & s & Hg & Hl).
  set (cs' := <[k := mkChild (ALeaf l) (get_elem_cache e)]> cs) in *.
  set (t1 := set_in t p (mkNode po s cs')).
  assert (Hred : recursive_update_cache t (ALeaf l) false None = recursive_update_cache t1 (AInt p) false None).
  { unfold recursive_update_cache at 1. rewrite (get_lf_proj _ _ _ _ He Hlk). cbn [rbind l_parent].
    rewrite Hg. cbn [rbind n_children]. unfold set_leaf_cache.
    rewrite (wt_leaf_slot W p cs k l) by done. cbn [rbind]. unfold set_child_cache, vec_get.
    rewrite Hc. cbn [rbind ropt l_elem]. rewrite Ha. done. }
  rewrite Hred.
  assert (Hcs' : cs' = <[k := mkChild (c_arena c) (get_elem_cache e)]> cs) by (unfold cs'; by rewrite Ha).
  assert (S1 : SH t t1).
  { apply (setcs_SH t p (mkNode po s cs) cs'); [done|]. cbn. rewrite Hcs'. by rewrite (entry_arena _ _ _ _ Hc). }
  assert (W1 : WT NoE t1 H lv) by by eapply SH_WT. assert (K1 : LK t1) by by eapply SH_LK.
  assert (C1 : CO t1 (fun a => (D a /\ a <> ALeaf l) \/ a = AInt p)).
  { pose proof (entry_CO L W p cs k c (ALeaf l) (mkNode po s cs) (get_elem_cache e) D Hg Hk Hc Ha) as X.
    cbn [n_parent n_slot] in X. rewrite <- Hcs' in X. apply X; [done|done|by rewrite (act_leaf _ _ _ _ He)]. }
  assert (V1 : VA t1).
  { pose proof (entry_VA L p cs k c (mkNode po s cs) (get_elem_cache e) Hg Hk Hc V) as X.
    cbn [n_parent n_slot] in X. rewrite <- Hcs' in X. apply X. apply lw_get. by eapply va_el. }
  unfold recursive_update_cache. cbn [rbind].
  assert (Hpl : is_Some (kids t1 p)) by (apply (SH_kids _ _ S1); eauto).
  destruct (ruc_loop_ok L (H - lv p) NoE t1 H lv p (fun a => (D a /\ a <> ALeaf l) \/ a = AInt p) (fuel t1) W1 K1 Hpl eq_refl) as (t2 & E2 & S2 & El2 & C2 & V2 & R2 & _); [| |exact C1|exact V1|].
  { pose proof (wt_depth_bound W1 p Hpl) as Hb. unfold fuel. lia. }
  { left. rewrite (sh_chs S1). intros E0. by rewrite E0 in Hck. }
  rewrite E2. cbn [rbind]. assert (W2 : WT NoE t2 H lv) by by eapply SH_WT.
  destruct (calc_root_ok L NoE t2 H lv W2 V2) as (t' & E' & ->).
  { left. rewrite (sh_chs S2), (sh_root S2), (sh_chs S1), (sh_root S1). intros E0.
    assert (leaves t = []) as Hn by (rewrite (leaves_raw W), (wt_root_id W); cbn [gen achs]; by rewrite E0).
    assert (l ∈ leaves t) as Hx by (apply (leaves_live W); eauto). rewrite Hn in Hx. by apply elem_of_nil in Hx. }
  eexists. split; [done|]. split; [eapply SH_trans; [exact S1|eapply SH_trans; [exact S2|apply set_rc_SH]]|].
  split; [intros z; cbn; apply El2|]. split.
  { apply set_rc_CO. eapply CO_mono; [|exact C2]. intros a [[[Hd _]| ->] Hu].
    - split; [done|]. intros m -> U. apply (Hu m eq_refl). by apply (upr_SH2 _ _ _ _ S1).
    - destruct (Hu p eq_refl). constructor. }
  split; [by apply set_rc_VA|]. by intros _.
Qed.

Lemma upr_up t i j p : upr t i j -> AInt j ∈ chs t p -> upr t i p.
Proof. induction 1 as [i|i q j Hq _ IH]; intros Hj; [by eapply upr_step, upr_refl|]. eapply upr_step; [done|auto]. Qed.
Lemma lu_upr t H lv x p : WT NoE t H lv -> ALeaf x ∈ chs t p -> forall n m, lv m = n -> is_Some (kids t m) -> x ∈ lun t lv (AInt m) -> upr t p m.
Proof.
  intros W Hx. induction n as [|n IH]; intros m Hn Hm Hin; rewrite (lu_int W) in Hin by done;
    apply elem_of_list_bind in Hin as (a & Hxa & Ha).
  - destruct (wt_leaf_child W _ _ Ha Hn) as [l ->]. cbn in Hxa. apply elem_of_list_singleton in Hxa as ->.
    apply elem_of_list_lookup in Ha as [k1 Ha]. apply elem_of_list_lookup in Hx as [k2 Hx].
    destruct (wt_uniq W _ _ _ _ _ Ha Hx) as [-> _]. constructor.
  - destruct (wt_int_child W _ _ Ha) as (m' & -> & Hlv); [lia|]. eapply upr_up; [|exact Ha]. apply IH; [lia| |done].
    apply (wt_live_child W _ _ Ha).
Qed.

Lemma seg_mid (X s Y P R : list nat) x y z : NoDup (X ++ s ++ Y) -> X ++ s ++ Y = P ++ z :: R -> y ∈ s -> y ∈ P -> x ∈ s -> x ∈ R -> z ∈ s.
Proof.
  intros N E Hys HyP Hxs HxR. assert (z ∈ X ++ s ++ Y) as Hz by (rewrite E; clear; set_solver).
  apply elem_of_app in Hz as [Hz|[Hz|Hz]%elem_of_app]; [|done|]; exfalso.
  - apply elem_of_list_split in Hz as (X1 & X2 & ->).
    destruct (nodup_split_unique X1 (X2 ++ s ++ Y) P R z) as [-> _]; [by rewrite <- app_assoc in N|by rewrite <- app_assoc in E|].
    apply NoDup_app in N as (_ & N & _). apply (N y); clear -HyP Hys; set_solver.
  - apply elem_of_list_split in Hz as (Y1 & Y2 & ->).
    destruct (nodup_split_unique (X ++ s ++ Y1) Y2 P R z) as [_ ->].
    + rewrite <- !app_assoc. done.
    + rewrite <- !app_assoc. done.
    + apply NoDup_app in N as (_ & _ & N). apply NoDup_app in N as (_ & N & _). apply (N x Hxs). clear -HxR; set_solver.
Qed.
Lemma stale_bound t H lv P M S m : WT NoE t H lv -> leaves t = P ++ M ++ S -> is_Some (kids t m) -> stale (t := t) (lv := lv) M (AInt m) ->
  (exists z, last P = Some z /\ z ∈ lun t lv (AInt m)) \/ (exists z, head S = Some z /\ z ∈ lun t lv (AInt m)).
Proof.
  intros W HL Hm (_ & _ & (x & Hx & HxM) & (y & Hy & HyM)). destruct (lu_seg W (AInt m) Hm) as (X & Y & E).
  pose proof (leaves_nodup W) as N. rewrite E in N. assert (y ∈ P ++ M ++ S) as HyL.
  { rewrite <- HL, E. clear -Hy. set_solver. }
  rewrite HL in E. apply elem_of_app in HyL as [HyP|[?|HyS]%elem_of_app]; [left|done|right].
  - destruct P as [|z P' _] using rev_ind; [by apply elem_of_nil in HyP|]. exists z. rewrite last_snoc. split; [done|].
    apply elem_of_app in HyP as [HyP| ->%elem_of_list_singleton]; [|done].
    eapply (seg_mid X _ Y P' (M ++ S) x y z N); [rewrite <- E, <- app_assoc; done|done|done|done|clear -HxM; set_solver].
  - destruct S as [|z S]; [by apply elem_of_nil in HyS|]. exists z. split; [done|].
    apply elem_of_cons in HyS as [->|HyS]; [done|].
    eapply (seg_mid X _ Y (P ++ M) S y x z N); [rewrite <- E, <- app_assoc; done|done|clear -HxM; set_solver|done|done].
Qed.

(** the tail of drop, after purging *)
Definition drop_tail t (before after : option aidx) : res btree :=
  let same := bool_decide (after = before) in
  let? t := match after with
            | Some a => recursive_update_cache t a same None
            | None => Ok t
            end in
  match before with
  | Some bf =>
      let? t :=
        if same then recursive_update_cache t bf (USE_DIFF (b := B)) None
        else
          let? t := recursive_update_cache t bf false None in
          match after with
          | Some a => recursive_update_cache t a false None
          | None => Ok t
          end in
      seal t bf
  | None =>
      let? t := update_root_cache t in
      try_reduce_levels t
  end.

Lemma leaf_par t H lv l : WT NoE t H lv -> l ∈ leaves t -> exists e p, el t l = Some e /\ ALeaf l ∈ chs t p.
Proof.
  intros W Hl. apply (leaves_live W) in Hl as [e He]. destruct (wt_up W (ALeaf l)) as (p & k & Hp); [cbn; eauto|by rewrite (wt_root_id W)|].
  exists e, p. split; [done|]. by eapply elem_of_list_lookup_2.
Qed.
Lemma SH_OK t t' H lv : WT NoE t H lv -> LK t -> SZ t 11 -> SH t t' -> CO t' (fun _ => False) -> VA t' -> RC t' -> OK t' H lv.
Proof. intros W K Z S1 C V R. constructor; [by eapply SH_WT|by eapply SH_LK|eapply SH_SZ; [exact S1|done]|done|done|done]. Qed.

(** the recalculations from the leaf before and from a leaf [af] behind the hole repair
    everything above these two leaves *)
Lemma drop_tail_gen t H lv P S (af : option nat) (D : aidx -> Prop) : WT NoE t H lv -> LK t -> leaves t = P ++ S ->
  (forall z, af = Some z -> z ∈ S) -> VA t -> CO t D ->
  exists t0, SH t t0 /\ (forall z, el t0 z = el t z) /\ VA t0 /\
    CO t0 (fun a => D a /\ forall m, a = AInt m -> is_Some (kids t m) ->
       (forall z, last P = Some z -> z ∉ lun t lv a) /\ (forall z, af = Some z -> z ∉ lun t lv a)) /\
    (P <> [] -> RC t0) /\
    drop_tail t (ALeaf <$> last P) (ALeaf <$> af) =
      match last P with Some b => seal t0 (ALeaf b) | None => let? t := update_root_cache t0 in try_reduce_levels t end.
Proof.
  intros W K HL Haf V C. pose proof (leaves_nodup W) as N.
  (* one recalculation *)
  assert (Hstep : forall t0 (D0 : aidx -> Prop) l, SH t t0 -> (forall z, el t0 z = el t z) -> l ∈ P ++ S -> CO t0 D0 -> VA t0 ->
    exists t', recursive_update_cache t0 (ALeaf l) false None = Ok t' /\ SH t t' /\ (forall z, el t' z = el t z) /\
      CO t' (fun a => D0 a /\ forall m, a = AInt m -> is_Some (kids t m) -> l ∉ lun t lv a) /\ VA t' /\ RC t').
  { intros t0 D0 l S0 El0 Hl C0 V0. rewrite <- HL in Hl. destruct (leaf_par _ _ _ _ W Hl) as (e & p & He & Hp).
    destruct (ruc_any t0 H lv l e p D0) as (t' & E' & S' & El' & C' & V' & R'); [by eapply SH_WT|by eapply SH_LK|by rewrite El0|by rewrite (sh_chs S0)|done|done|].
    exists t'. split; [done|]. split; [by eapply SH_trans|]. split; [intros z; by rewrite El'|]. split; [|done].
    eapply CO_mono; [|exact C']. intros a [Hd Hu]. split; [done|]. intros m -> Hm Hin. apply (Hu m eq_refl).
    apply (upr_SH2 _ _ _ _ S0). by eapply lu_upr. }
  unfold drop_tail. destruct P as [|b P' _] using rev_ind; [destruct af as [a|]|destruct af as [a|]]; rewrite ?last_snoc; cbn [last fmap option_fmap option_map].
  - rewrite bool_decide_eq_false_2 by done.
    destruct (Hstep t D a (SH_refl _) ltac:(done) (Haf a eq_refl) C V) as (t1 & E1 & S1 & El1 & C1 & V1 & R1).
    rewrite E1. cbn [rbind]. exists t1. split; [done|]. split; [done|]. split; [done|]. split; [|split; [done|done]].
    eapply CO_mono; [|exact C1]. intros x [Hx Hu]. split; [done|]. intros m -> Hm. split; [done|]. intros z [= <-]. by apply (Hu m).
  - cbn [rbind]. exists t. split; [apply SH_refl|]. split; [done|]. split; [done|]. split; [|split; [done|done]].
    eapply CO_mono; [|exact C]. intros x Hx. by split.
  - rewrite bool_decide_eq_false_2.
    2:{ intros [= ->]. rewrite HL in N. apply NoDup_app in N as (_ & N & _). apply (N b); [clear; set_solver|by apply Haf]. }
    assert (HaS : a ∈ (P' ++ [b]) ++ S) by (pose proof (Haf a eq_refl) as Hx; clear -Hx; set_solver).
    destruct (Hstep t D a (SH_refl _) ltac:(done) HaS C V) as (t1 & E1 & S1 & El1 & C1 & V1 & R1).
    rewrite E1. cbn [rbind].
    destruct (Hstep t1 _ b S1 El1 ltac:(clear; set_solver) C1 V1) as (t2 & E2 & S2 & El2 & C2 & V2 & R2).
    rewrite E2. cbn [rbind].
    destruct (Hstep t2 _ a S2 El2 HaS C2 V2) as (t3 & E3 & S3 & El3 & C3 & V3 & R3).
    rewrite E3. cbn [rbind]. exists t3. split; [done|]. split; [done|]. split; [done|]. split; [|split; [done|done]].
    eapply CO_mono; [|exact C3]. intros x [[[Hx Hu] Hu2] _]. split; [done|]. intros m -> Hm. split; intros z [= <-]; [by apply (Hu2 m)|by apply (Hu m)].
  - rewrite bool_decide_eq_false_2 by done. cbn [rbind].
    destruct (Hstep t D b (SH_refl _) ltac:(done) ltac:(clear; set_solver) C V) as (t1 & E1 & S1 & El1 & C1 & V1 & R1).
    rewrite E1. cbn [rbind]. exists t1. split; [done|]. split; [done|]. split; [done|]. split; [|split; [done|done]].
    eapply CO_mono; [|exact C1]. intros x [Hx Hu]. split; [done|]. intros m -> Hm. split; [|done]. intros z [= <-]. by apply (Hu m).
Qed.

Lemma drop_tail_af t H lv P S (af : option nat) (D : aidx -> Prop) : WT NoE t H lv -> LK t -> SZ t 11 -> H <= 8 -> leaves t = P ++ S ->
  (forall z, af = Some z -> z ∈ S) -> VA t -> CO t D ->
  (forall a, D a -> exists m, a = AInt m /\ ((exists z, last P = Some z /\ z ∈ lun t lv a) \/ (exists z, af = Some z /\ z ∈ lun t lv a)) /\ is_Some (kids t m)) ->
  exists t' H' lv', drop_tail t (ALeaf <$> last P) (ALeaf <$> af) = Ok t' /\ OK t' H' lv' /\
    gen t' (Datatypes.S H') (root t') = gen t (Datatypes.S H) (root t) /\ (forall z, el t' z = el t z) /\
    anext (leaf_nodes t) <= anext (leaf_nodes t').
Proof.
  intros W K Z HH HL Haf V C HD. destruct (drop_tail_gen t H lv P S af D W K HL Haf V C) as (t0 & S0 & El0 & V0 & C0 & R0 & E). rewrite E. clear E.
  assert (C1 : CO t0 (fun _ => False)).
  { eapply CO_mono; [|exact C0]. intros a [Ha Hu]. destruct (HD a Ha) as (m & -> & [(z & Hz & Hzl)|(z & Hz & Hzl)] & Hm);
      destruct (Hu m eq_refl Hm) as [H1 H2]; [by apply (H1 z)|by apply (H2 z)]. }
  destruct (last P) as [b|] eqn:EP.
  - assert (b ∈ P) as Hb by (apply last_Some in EP as [P' ->]; clear; set_solver).
    pose proof (SH_OK t t0 H lv W K Z S0 C1 V0 (R0 ltac:(by intros ->))) as O0.
    assert (leaves t0 = leaves t) as Hlv.
    { rewrite (leaves_raw (ok_wt _ _ _ _ O0)), (leaves_raw W), (sh_root S0). by rewrite (SH_gen _ _ S0). }
    destruct (seal_ok L t0 H lv b O0 HH) as (t' & H' & lv' & E' & O' & G' & El' & A'); [rewrite Hlv, HL; clear -Hb; set_solver|].
    exists t', H', lv'. split; [done|]. split; [done|]. split; [rewrite G', (sh_root S0); by rewrite (SH_gen _ _ S0)|].
    split; [intros z; by rewrite El'|]. rewrite <- (sh_al S0). done.
  - assert (W0 : WT NoE t0 H lv) by by eapply SH_WT.
    assert (exists v, update_root_cache t0 = Ok (set_root_cache t0 v) /\ RC (set_root_cache t0 v)) as (v & Ev & Rv).
    { unfold update_root_cache. destruct (decide (chs t0 (raw (root t0)) <> [] \/ mono L = true)) as [Dr|Dr].
      - destruct (calc_root_ok L NoE t0 H lv W0 V0 Dr) as (t' & Ec & ->). eexists. split; [done|]. by intros _.
      - destruct (calc_root_nil L NoE t0 H lv W0) as (t' & v & Ec & ->).
        { destruct (chs t0 (raw (root t0))); [done|]. destruct Dr. by left. }
        exists v. split; [done|]. intros Hx. done. }
    rewrite Ev. cbn [rbind]. set (t1 := set_root_cache t0 v) in *.
    assert (S1 : SH t t1) by (eapply SH_trans; [exact S0|apply set_rc_SH]).
    assert (O1 : OK t1 H lv) by (apply (SH_OK t t1 H lv W K Z S1); [by apply set_rc_CO|by apply set_rc_VA|done]).
    destruct (try_reduce_ok L t1 H lv O1) as (t' & H' & lv' & E' & O' & R' & G' & El' & _ & _ & _ & _ & A').
    exists t', H', lv'. split; [done|]. split; [done|]. split; [rewrite G', (sh_root S1); by rewrite (SH_gen _ _ S1)|].
    split; [intros z; rewrite El'; apply El0|]. rewrite A', <- (sh_al S1). done.
Qed.
End refresh.
