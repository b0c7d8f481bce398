(** Upd.v — update (lib.rs:989-1057) and update_dirty_cache_map (lib.rs:1512-1560). *)
From Verif Require Export UpdLeaf.

Section dirty.
Context {B : BTreeTrait} (L : Lawful B).
Notation btree := (btree B).
Notation child := (child B).
Notation act := (act L).
Notation CO := (CO L).
Notation RC := (RC L).
Notation VA := (VA L).
Notation OK := (OK L).
Implicit Types (t : btree) (i j m p q k s : nat) (a b : aidx) (c : child) (cs : list child).

(** every cache entry is right up to the diff pending for it *)
Definition DMI t (dm : gmap aidx (Diff B)) : Prop :=
  forall p cs c, kids t p = Some cs -> c ∈ cs ->
    match dm !! c_arena c with
    | None => c_cache c = act t (c_arena c)
    | Some d => drel L (c_cache c) d (act t (c_arena c))
    end.

Definition dpush (dm : gmap aidx (Diff B)) (p : aidx) (d : Diff B) : gmap aidx (Diff B) :=
  match dm !! p with Some e => <[p := merge_cache_diff e d]> dm | None => <[p := d]> dm end.

Lemma dpush_ne dm (p : aidx) d a : a <> p -> dpush dm p d !! a = dm !! a.
Proof. intros. unfold dpush. destruct (dm !! p); by rewrite lookup_insert_ne. Qed.
Lemma dpush_dom dm (p : aidx) d a : is_Some (dpush dm p d !! a) <-> a = p \/ is_Some (dm !! a).
Proof.
  destruct (decide (a = p)) as [->|D].
  - split; [by left|]. intros _. unfold dpush. destruct (dm !! p); rewrite lookup_insert; eauto.
  - rewrite dpush_ne by done. naive_solver.
Qed.

Lemma dirty_entry t H lv dm p A c Z x d po sl : WT NoE t H lv -> VA t -> DMI t dm ->
  get_in t p = Ok (mkNode po sl (A ++ c :: Z)) -> c_arena c = x -> dm !! x = Some d -> cvalid L (act t x) ->
  let t1 := set_in t p (mkNode po sl (A ++ mkChild x (act t x) :: Z)) in
  SH t t1 /\ (forall z, el t1 z = el t z) /\ VA t1 /\ DMI t1 (dpush (delete x dm) (AInt p) d).
Proof.
  intros W V D Hg Ha Hd Vx t1. apply get_in_inv in Hg as [Hk Hl]. cbn [n_children n_parent n_slot] in Hk, Hl.
  assert (Hin : x ∈ chs t p). { rewrite (chs_kids _ _ _ Hk), map_app, elem_of_app. right. cbn. rewrite Ha. left. }
  assert (Hxp : x <> AInt p).
  { intros ->. eapply (self_not_entry W); [exact Hk| |exact Ha]. clear; set_solver. }
  assert (S1 : SH t t1).
  { constructor; try done.
    - intros i. unfold t1. rewrite chs_set_in. case_decide; [subst|done]. cbn. rewrite (chs_kids _ _ _ Hk), !map_app. done.
    - intros i. unfold t1. rewrite lnk_set_in. case_decide; [by subst|done]. }
  assert (Hk1 : forall j, kids t1 j = if decide (p = j) then Some (A ++ mkChild x (act t x) :: Z) else kids t j).
  { intros j. unfold t1. by rewrite kids_set_in. }
  assert (Hact : forall a, a <> AInt p -> act t1 a = act t a).
  { intros [l|m] Hm; [done|]. unfold Law.act. rewrite Hk1. rewrite decide_False by congruence. done. }
  assert (Hp : drel L (act t (AInt p)) d (act t1 (AInt p))).
  { rewrite (act_int _ _ _ _ Hk). rewrite (act_int _ t1 p (A ++ mkChild x (act t x) :: Z)) by (by rewrite Hk1, decide_True).
    rewrite !map_app. cbn [map c_cache]. apply lw_cong. specialize (D p _ c Hk ltac:(clear; set_solver)).
    rewrite Ha, Hd in D. done. }
  split; [done|]. split; [done|]. split.
  { constructor; [apply (va_el _ _ V)|]. intros q cs c' Hq Hc'. rewrite Hk1 in Hq. case_decide.
    - injection Hq as <-. apply elem_of_app in Hc' as [Hc'|[->|Hc']%elem_of_cons]; [|done|];
        (eapply (va_ch _ _ V); [exact Hk|]; clear -Hc'; set_solver).
    - by eapply (va_ch _ _ V). }
  assert (Hnd : NoDup (map c_arena (A ++ c :: Z))) by (rewrite <- (chs_kids _ _ _ Hk); apply (wt_nodup W)).
  assert (Gen : forall q cs c', kids t q = Some cs -> c' ∈ cs -> c_arena c' <> x ->
    match dpush (delete x dm) (AInt p) d !! c_arena c' with
    | None => c_cache c' = act t1 (c_arena c') | Some d => drel L (c_cache c') d (act t1 (c_arena c')) end).
  { intros q cs c' Hq Hc' Hnx. specialize (D q cs c' Hq Hc'). destruct (decide (c_arena c' = AInt p)) as [E|E].
    - rewrite E in *. unfold dpush. rewrite lookup_delete_ne by done. destruct (dm !! AInt p); rewrite lookup_insert.
      + by eapply lw_merge.
      + by rewrite D.
    - rewrite dpush_ne, lookup_delete_ne, Hact by done. done. }
  intros q cs c' Hq Hc'. rewrite Hk1 in Hq. case_decide as Eq.
  - injection Hq as <-. subst q. rewrite map_app in Hnd. cbn [map] in Hnd. apply NoDup_app in Hnd as (_ & Hn1 & Hn2).
    apply NoDup_cons in Hn2 as [Hn2 _].
    apply elem_of_app in Hc' as [Hc'|[->|Hc']%elem_of_cons].
    + eapply Gen; [exact Hk|clear -Hc'; set_solver|]. intros E. apply (Hn1 (c_arena c')); [by apply elem_of_list_fmap_1|]. rewrite Ha, E. left.
    + cbn [c_arena c_cache]. rewrite dpush_ne, lookup_delete by done. by rewrite Hact.
    + eapply Gen; [exact Hk|clear -Hc'; set_solver|]. intros E. apply Hn2. rewrite Ha, <- E. by apply elem_of_list_fmap_1.
  - eapply Gen; [exact Hq|exact Hc'|]. intros E.
    apply elem_of_list_lookup in Hc' as [k' Hc']. apply elem_of_list_lookup in Hin as [k Hin].
    assert (chs t q !! k' = Some x) as Hx by (by rewrite (chs_kids _ _ _ Hq), list_lookup_fmap, Hc', <- E).
    by destruct (wt_uniq W _ _ _ _ _ Hin Hx) as [<- _].
Qed.

Lemma find_index_mid (A Z : list child) c x : NoDup (map c_arena (A ++ c :: Z)) -> c_arena c = x ->
  find_index (fun c => bool_decide (c_arena c = x)) (A ++ c :: Z) = Some (length A).
Proof.
  intros Hnd Ha. induction A as [|c0 A IH]; cbn.
  - by rewrite bool_decide_true.
  - cbn in Hnd. apply NoDup_cons in Hnd as [Hn Hnd]. rewrite bool_decide_false; [by rewrite IH|].
    intros E. apply Hn. rewrite map_app, elem_of_app. right. cbn. rewrite Ha, E. left.
Qed.

Lemma dirty_step_ok t H lv dm vs x : WT NoE t H lv -> LK t -> VA t -> DMI t dm -> live t x -> x <> root t -> is_Some (dm !! x) ->
  exists p d t', dirty_step x (t, dm, vs) = Ok (t', dpush (delete x dm) (AInt p) d, {[AInt p]} ∪ vs) /\
    x ∈ chs t p /\ SH t t' /\ (forall z, el t' z = el t z) /\ VA t' /\ DMI t' (dpush (delete x dm) (AInt p) d).
Proof.
  intros W K V D Hx Hr [d Hd]. destruct x as [l|i].
  - destruct Hx as [e He]. destruct (at_leaf_ok t H lv l e W K He) as (p & A & c & Z & Hk & Ha & Hlv & _ & Hl & Hget & Hrp & _ & po & s & Hg & Hlk).
    exists p, d. destruct (dirty_entry t H lv dm p A c Z (ALeaf l) d po s W V D Hg Ha Hd) as (S1 & E1 & V1 & D1).
    { rewrite (act_leaf _ _ _ _ He). apply lw_get. by eapply (va_el _ _ V). }
    eexists. split; [|split; [|split; [exact S1|split; [exact E1|split; [exact V1|exact D1]]]]].
    + cbn [dirty_step]. rewrite Hget. cbn [rbind l_parent]. rewrite Hg. cbn [rbind n_children]. rewrite Hd. cbn [ropt rbind].
      rewrite find_index_mid; [|by rewrite <- (chs_kids _ _ _ Hk); apply (wt_nodup W)|done].
      unfold apply_child_cache, vec_get. rewrite list_lookup_middle by done. cbn [ropt rbind].
      specialize (D p _ c Hk ltac:(clear; set_solver)). rewrite Ha, Hd in D. rewrite (lw_apply _ L _ _ _ D). cbn [rbind].
      rewrite insert_app_r_alt, Nat.sub_diag by lia. cbn [insert list_insert]. unfold with_children. cbn [n_parent n_slot]. rewrite Ha.
      unfold dpush. destruct (delete (ALeaf l) dm !! AInt p); done.
    + rewrite (chs_kids _ _ _ Hk), map_app, elem_of_app. right. cbn. rewrite Ha. left.
  - destruct (wt_up W (AInt i) Hx Hr) as (p & k & Hp). pose proof (lk_ch K _ _ _ Hp) as Hlk. destruct Hx as [csi Hki].
    pose proof (chs_lookup_live _ _ _ _ Hp) as [cs Hk]. rewrite (chs_kids _ _ _ Hk), list_lookup_fmap in Hp.
    destruct (cs !! k) as [c|] eqn:Hc; [|done]. injection Hp as Ha.
    pose proof (elem_of_list_split_length _ _ _ Hc) as (A & Z & -> & ->).
    destruct (get_in_kids t p _ Hk) as (po & s & Hg & Hlkp).
    pose proof (get_in_proj _ _ _ _ _ Hki Hlk) as Hgi.
    exists p, d. destruct (dirty_entry t H lv dm p A c Z (AInt i) d po s W V D Hg Ha Hd) as (S1 & E1 & V1 & D1).
    { rewrite (act_int _ _ _ _ Hki). apply lw_summ; [by eapply VA_kids|]. left.
      assert (chs t i <> []) as Hne by (apply (wt_ne W); [rewrite Hki; eauto|done|by intros []]). rewrite (chs_kids _ _ _ Hki) in Hne. by destruct csi. }
    eexists. split; [|split; [|split; [exact S1|split; [exact E1|split; [exact V1|exact D1]]]]].
    + cbn [dirty_step]. rewrite Hgi. cbn [rbind n_parent unwrap_internal]. unfold calc_into_parent.
      rewrite bool_decide_false; [|intros ->; eapply (self_not_entry W); [exact Hk| |exact Ha]; clear; set_solver].
      cbn [negb rassert rbind]. rewrite Hg. cbn [rbind n_children n_slot]. unfold vec_get. rewrite list_lookup_middle by done. cbn [ropt rbind].
      rewrite Hd. unfold calc_cache. specialize (D p _ c Hk ltac:(clear; set_solver)). rewrite Ha, Hd in D. rewrite (lw_apply _ L _ _ _ D). cbn [rbind].
      rewrite insert_app_r_alt, Nat.sub_diag by lia. cbn [insert list_insert]. unfold with_children. cbn [n_parent n_slot]. rewrite Ha.
      unfold dpush. destruct (delete (AInt i) dm !! AInt p); done.
    + rewrite (chs_kids _ _ _ Hk), map_app, elem_of_app. right. cbn. rewrite Ha. left.
Qed.

Lemma dirty_level_ok H lv n xs : forall t dm vs, WT NoE t H lv -> LK t -> VA t -> DMI t dm -> NoDup xs ->
  (forall a, a ∈ xs -> is_Some (dm !! a) /\ live t a /\ alv lv a = n) ->
  (forall a, a ∈ vs -> is_Some (dm !! a) /\ live t a /\ alv lv a = S n) ->
  (forall a, is_Some (dm !! a) -> a ∈ xs \/ a ∈ vs \/ a = root t) ->
  exists t' dm' vs', dirty_level xs (t, dm, vs) = Ok (t', dm', vs') /\ SH t t' /\ (forall z, el t' z = el t z) /\ VA t' /\ DMI t' dm' /\
    (forall a, a ∈ vs' -> is_Some (dm' !! a) /\ live t' a /\ alv lv a = S n) /\
    (forall a, is_Some (dm' !! a) -> a ∈ vs' \/ a = root t').
Proof.
  induction xs as [|x xs IH]; intros t dm vs W K V D Hnd Hxs Hvs Hdm.
  { exists t, dm, vs. split; [done|]. split; [apply SH_refl|]. split_and!; try done.
    intros a Ha. destruct (Hdm a Ha) as [Hx|?]; [by apply elem_of_nil in Hx|done]. }
  cbn [dirty_level]. apply NoDup_cons in Hnd as [Hnx Hnd]. destruct (Hxs x) as (Hx & Lx & Ax); [left|].
  destruct (decide (x = root t)) as [Er|Er].
  - (* the root stays *)
    assert (dirty_step x (t, dm, vs) = Ok (t, dm, vs)) as ->.
    { subst x. rewrite (wt_root_id W). cbn [dirty_step]. destruct (live_get_in t _ (wt_root_live W)) as [nd Hg]. rewrite Hg. cbn [rbind].
      apply get_in_inv in Hg as [_ Hl]. destruct (lk_root K _ (wt_root_id W)) as [s Hs]. rewrite Hl in Hs. injection Hs as -> _. done. }
    cbn [rbind]. apply IH; try done.
    + intros a Ha. apply Hxs. by right.
    + intros a Ha. destruct (Hdm a Ha) as [[->|?]%elem_of_cons|?]; auto.
  - destruct (dirty_step_ok t H lv dm vs x W K V D Lx Er Hx) as (p & d & t1 & -> & Hin & S1 & E1 & V1 & D1). cbn [rbind].
    assert (Hp : live t (AInt p) /\ alv lv (AInt p) = S n).
    { apply elem_of_list_lookup in Hin as [k Hin]. split; [by eapply chs_lookup_live|]. apply (wt_ch W) in Hin as [_ Hin]. cbn. lia. }
    assert (Hpx : AInt p <> x). { intros <-. destruct Hp as [_ Hp]. rewrite Ax in Hp. lia. }
    destruct (IH t1 (dpush (delete x dm) (AInt p) d) ({[AInt p]} ∪ vs)) as (t' & dm' & vs' & E & S' & El' & V' & D' & Hv' & Hd').
    + by eapply SH_WT.
    + by eapply SH_LK.
    + done.
    + done.
    + done.
    + intros a Ha. rewrite dpush_dom, (SH_live _ _ S1). destruct (Hxs a) as (? & ? & ?); [by right|]. split_and!; try done.
      right. rewrite lookup_delete_ne; [done|]. by intros <-.
    + intros a Ha. rewrite dpush_dom, (SH_live _ _ S1). apply elem_of_union in Ha as [->%elem_of_singleton|Ha].
      { split_and!; try apply Hp. by left. }
      destruct (Hvs a Ha) as (? & ? & ?). split_and!; try done. right. rewrite lookup_delete_ne; [done|]. intros <-. lia.
    + intros a. rewrite dpush_dom, (sh_root S1). intros [->|Ha]; [right; left; clear; set_solver|].
      destruct (decide (x = a)) as [->|Dx]; [rewrite lookup_delete in Ha; by destruct Ha|]. rewrite lookup_delete_ne in Ha by done.
      destruct (Hdm a Ha) as [[->|?]%elem_of_cons|[?|?]]; [done|by left|right; left; by apply elem_of_union_r|by right; right].
    + exists t', dm', vs'. split; [exact E|]. split; [by eapply SH_trans|]. split_and!; try done. intros z. by rewrite El'.
Qed.

Lemma dirty_f_ok ord H lv (Hord : forall l, ord l ≡ₚ l) k : forall n t dm vs f, WT NoE t H lv -> LK t -> VA t -> DMI t dm ->
  (forall a, a ∈ vs -> is_Some (dm !! a) /\ live t a /\ alv lv a = n) ->
  (forall a, is_Some (dm !! a) -> a ∈ vs \/ a = root t) -> S (S H) - n = k -> k <= f ->
  exists t', dirty_f ord f t dm vs = Ok t' /\ SH t t' /\ (forall z, el t' z = el t z) /\ VA t' /\ CO t' (fun _ => False).
Proof.
  induction k as [|k IH]; intros n t dm vs f W K V D Hvs Hdm Hk Hf.
  - assert (vs = ∅) as ->.
    { apply elem_of_equiv_empty_L. intros a Ha. destruct (Hvs a Ha) as (_ & Hl & Hn). destruct a as [l|m]; cbn in Hn; [lia|].
      pose proof (wt_lv W m Hl). lia. }
    exists t. split; [by destruct f|]. split; [apply SH_refl|]. split_and!; try done.
    intros p cs c Hkp Hc _. specialize (D p cs c Hkp Hc). destruct (dm !! c_arena c) eqn:E; [|done].
    destruct (Hdm (c_arena c)) as [Hx|Hx]; [eauto|by apply elem_of_empty in Hx|]. by destruct (root_not_entry W _ _ _ Hkp Hc Hx).
  - destruct (decide (vs = ∅)) as [->|Hne].
    + exists t. split; [by destruct f|]. split; [apply SH_refl|]. split_and!; try done.
      intros p cs c Hkp Hc _. specialize (D p cs c Hkp Hc). destruct (dm !! c_arena c) eqn:E; [|done].
      destruct (Hdm (c_arena c)) as [Hx|Hx]; [eauto|by apply elem_of_empty in Hx|]. by destruct (root_not_entry W _ _ _ Hkp Hc Hx).
    + destruct f as [|f]; [lia|]. cbn [dirty_f]. rewrite decide_False by done.
      destruct (dirty_level_ok H lv n (ord (elements vs)) t dm ∅ W K V D) as (t1 & dm1 & vs1 & E1 & S1 & El1 & V1 & D1 & Hv1 & Hd1).
      * rewrite Hord. apply NoDup_elements.
      * intros a. rewrite Hord, elem_of_elements. apply Hvs.
      * by intros a ?%elem_of_empty.
      * intros a Ha. rewrite Hord, elem_of_elements. destruct (Hdm a Ha); tauto.
      * rewrite E1. cbn [rbind]. destruct (IH (S n) t1 dm1 vs1 f) as (t' & E' & S' & El' & V' & C'); try done.
        -- by eapply SH_WT.
        -- by eapply SH_LK.
        -- lia.
        -- lia.
        -- exists t'. split; [done|]. split; [by eapply SH_trans|]. split_and!; try done. intros z. by rewrite El'.
Qed.

Lemma dirty_ok ord t H lv dm (Hord : forall l, ord l ≡ₚ l) : WT NoE t H lv -> LK t -> VA t -> SZ t 11 -> chs t (raw (root t)) <> [] ->
  DMI t dm -> (forall a, is_Some (dm !! a) -> exists l, a = ALeaf l /\ is_Some (el t l)) ->
  exists t', update_dirty_cache_map ord t dm = Ok t' /\ OK t' H lv /\ SH t t' /\ (forall z, el t' z = el t z).
Proof.
  intros W K V Z Hne D Hdm. unfold update_dirty_cache_map.
  destruct (dirty_f_ok ord H lv Hord (S (S H) - 0) 0 t dm (dom dm) (S (fuel t)) W K V D) as (t1 & E1 & S1 & El1 & V1 & C1).
  - intros a [d Hd]%elem_of_dom. destruct (Hdm a) as (l & -> & Hl); [eauto|]. split_and!; eauto.
  - intros a Ha. left. by apply elem_of_dom.
  - done.
  - pose proof (wt_height_bound W Hne). unfold fuel. lia.
  - rewrite E1. cbn [rbind]. pose proof (SH_WT _ _ _ _ _ S1 W) as W1.
    destruct (calc_root_ok L NoE t1 H lv W1 V1) as (t2 & E2 & ->).
    { left. by rewrite (sh_chs S1), (sh_root S1). }
    rewrite E2. eexists. split; [done|]. assert (SH t1 (set_root_cache t1 (act t1 (root t1)))) as S2 by (by constructor).
    split; [|split; [by eapply SH_trans|done]]. constructor; try done.
    + by eapply SH_WT.
    + by eapply SH_LK, SH_LK.
    + by eapply SH_SZ, SH_SZ.
    + constructor; apply V1.
Qed.
End dirty.

(** ** the visiting loop *)

(** folding the user's function over the visited leaves *)
Fixpoint upd_run {B : BTreeTrait} {S0} (fu : S0 -> Elem B -> S0 * Elem B * option (Diff B)) (s : S0) (M : list (nat * Elem B))
  : S0 * list (nat * Elem B * option (Diff B)) :=
  match M with
  | [] => (s, [])
  | (l, e) :: M' => match fu s e with (s1, e', od) => let '(s2, r) := upd_run fu s1 M' in (s2, (l, e', od) :: r) end
  end.

Section loop.
Context {B : BTreeTrait} (L : Lawful B) {S0 : Type} (fu : S0 -> Elem B -> S0 * Elem B * option (Diff B)).
Notation btree := (btree B).
Notation child := (child B).
Notation OK := (OK L).
Implicit Types (t : btree) (i j m q k : nat) (a b : aidx).

Lemma upd_run_ids s M : (upd_run fu s M).2.*1.*1 = M.*1.
Proof.
  revert s. induction M as [|[l e] M IH]; intros s; [done|]. cbn [upd_run]. destruct (fu s e) as [[s1 e'] od].
  specialize (IH s1). destruct (upd_run fu s1 M) as [s2 r]. cbn in *. by rewrite IH.
Qed.
Lemma rpath_SH t t' : SH t t' -> forall r a, rpath t r a -> rpath t' r a.
Proof.
  intros S r a. induction 1 as [|i a k p Hp IH Hk].
  - rewrite <- (sh_root S). constructor.
  - econstructor; [done|]. by rewrite (sh_chs S).
Qed.
Definition rm_of (r : list (nat * Elem B * option (Diff B))) : list aidx :=
  map (fun x => ALeaf x.1.1) (filter (fun x => can_remove x.1.2 = true) r).

Lemma update_loop_ok H lv M : forall t X Y l0 e0 path s dm rm f en, WT NoE t H lv -> LK t ->
  leaves t = X ++ ((l0, e0) :: M).*1 ++ Y -> (forall l e, (l, e) ∈ (l0, e0) :: M -> el t l = Some e) ->
  rpath t (rev path) (ALeaf l0) -> cu_leaf <$> en = head Y -> S (length M) < f ->
  exists t' dm', update_loop fu f t path en s dm rm = Ok ((upd_run fu s ((l0, e0) :: M)).1, t', dm', rm ++ rm_of (upd_run fu s ((l0, e0) :: M)).2) /\
    SH t t' /\ (forall i, kids t' i = kids t i) /\
    (forall l e' od, (l, e', od) ∈ (upd_run fu s ((l0, e0) :: M)).2 -> el t' l = Some e' /\ dm' !! ALeaf l = match od with Some d => Some d | None => dm !! ALeaf l end) /\
    (forall l, l ∉ ((l0, e0) :: M).*1 -> el t' l = el t l) /\
    (forall a, (forall l, l ∈ ((l0, e0) :: M).*1 -> a <> ALeaf l) -> dm' !! a = dm !! a).
Proof.
  induction M as [|[l1 e1] M IH]; intros t X Y l0 e0 path s dm rm f en W K HL Hel Hp Hen Hf; (destruct f as [|f]; [cbn in Hf; lia|]).
  all: cbn [update_loop]; destruct (rpath_head _ _ _ Hp) as (k0 & r' & Er);
    assert (last path = Some (mkIdx (ALeaf l0) k0)) as -> by (rewrite <- (rev_involutive path), Er; cbn; by rewrite last_snoc);
    cbn [ropt rbind i_arena unwrap_leaf].
  all: pose proof (leaves_nodup W) as Hnd; rewrite HL in Hnd.
  all: assert (bool_decide (cu_leaf <$> en = Some l0) = false) as ->
    by (apply bool_decide_eq_false_2; rewrite Hen; intros Hy; destruct Y as [|y Y]; [done|]; injection Hy as ->;
        apply NoDup_app in Hnd as (_ & _ & Hnd); apply NoDup_app in Hnd as (_ & Hnd & _); apply (Hnd l0); [left|left]).
  all: pose proof (Hel l0 e0 ltac:(left)) as He0.
  all: assert (exists q, llnk t l0 = Some q) as [q Hq] by (apply el_llnk; rewrite He0; eauto).
  all: rewrite (get_lf_proj _ _ _ _ He0 Hq); cbn [rbind l_elem upd_run]; destruct (fu s e0) as [[s1 e'] od] eqn:Ef.
  all: set (t1 := set_lf t l0 (with_elem (mkLeaf e0 q) e')).
  all: assert (S1 : SH t t1) by (constructor; try done; intros x; unfold t1; rewrite llnk_set_lf; case_decide; [subst; cbn; by rewrite Hq|done]).
  all: assert (E1 : forall x, el t1 x = if decide (l0 = x) then Some e' else el t x) by (intros x; unfold t1; by rewrite el_set_lf).
  all: set (rm1 := if can_remove e' then rm ++ [ALeaf l0] else rm).
  all: set (dm1 := match od with Some d => <[ALeaf l0:=d]> dm | None => dm end).
  all: pose proof (SH_WT _ _ _ _ _ S1 W) as W1; pose proof (SH_LK _ _ S1 K) as K1; pose proof (rpath_SH _ _ S1 _ _ Hp) as Hp1.
  all: assert (Dm1 : dm1 !! ALeaf l0 = match od with Some d => Some d | None => dm !! ALeaf l0 end) by (unfold dm1; destruct od; [by rewrite lookup_insert|done]).
  all: assert (Dm2 : forall a, a <> ALeaf l0 -> dm1 !! a = dm !! a) by (intros a Ha; unfold dm1; destruct od; [by rewrite lookup_insert_ne|done]).
  all: assert (HG : gen t1 (S H) (root t1) = map ALeaf (leaves t1)) by (symmetry; apply (leaves_gen W1)).
  all: assert (HL1 : leaves t1 = leaves t) by (by rewrite (leaves_raw W1), (leaves_raw W), (SH_gen _ _ S1), (sh_root S1)).
  all: assert (Hpl : length path = S (S H)) by (pose proof (rpath_len W _ _ Hp) as Hx; rewrite rev_length in Hx; cbn in Hx; lia).
  all: rewrite HL1, HL, !map_app in HG; cbn [fmap list_fmap map fst app] in HG.
  all: pose proof (next_sibling_ok W1 K1 path (ALeaf l0) (S H) _ _ Hp1 ltac:(lia) HG Hpl) as Hns.
  - assert (Fin : forall (o : option (list idx)), o = None \/ (exists pth y Y', o = Some pth /\ Y = y :: Y' /\ rpath t1 (rev pth) (ALeaf y)) ->
      match o with Some path0 => update_loop fu f t1 path0 en s1 dm1 rm1 | None => Ok (s1, t1, dm1, rm1) end = Ok (s1, t1, dm1, rm1)).
    { intros o [->|(pth & y & Y' & -> & -> & Hp2)]; [done|]. destruct f as [|f]; [cbn in Hf; lia|]. cbn [update_loop].
      destruct (rpath_head _ _ _ Hp2) as (k2 & r2 & Er2).
      assert (last pth = Some (mkIdx (ALeaf y) k2)) as -> by (rewrite <- (rev_involutive pth), Er2; cbn; by rewrite last_snoc).
      cbn [ropt rbind i_arena unwrap_leaf]. by rewrite bool_decide_eq_true_2. }
    exists t1, dm1. split.
    { destruct Y as [|y Y]; cbn [map app] in Hns.
      - rewrite Hns. cbn [rbind]. f_equal. cbn [fst snd]. f_equal. unfold rm1, rm_of. rewrite filter_cons, filter_nil. cbn [fst snd].
        destruct (can_remove e'); cbn; [done|]. by rewrite app_nil_r.
      - destruct Hns as (pth & -> & Hp2). cbn [rbind]. rewrite (Fin (Some pth)) by (right; eauto 10). f_equal. cbn [fst snd]. f_equal.
        unfold rm1, rm_of. rewrite filter_cons, filter_nil. cbn [fst snd]. destruct (can_remove e'); cbn; [done|]. by rewrite app_nil_r. }
    split; [done|]. split; [done|]. split; [|split].
    + intros l e2 od2 [= -> -> ->]%elem_of_list_singleton. rewrite E1, decide_True by done. done.
    + intros l Hl. rewrite E1, decide_False; [done|]. intros ->. apply Hl. left.
    + intros a Ha. apply Dm2. apply Ha. left.
  - cbn [map app] in Hns. destruct Hns as (pth & -> & Hp2). cbn [rbind].
    destruct (IH t1 (X ++ [l0]) Y l1 e1 pth s1 dm1 rm1 f en W1 K1) as (t' & dm' & E' & S' & K' & Hr' & El' & Dm').
    + by rewrite HL1, HL, <- app_assoc.
    + intros l e Hl. rewrite E1, decide_False; [apply Hel; by right|]. intros ->.
      apply NoDup_app in Hnd as (_ & _ & Hnd). cbn in Hnd. apply NoDup_cons in Hnd as [Hnd _]. apply Hnd.
      apply (elem_of_list_fmap_1 fst) in Hl. cbn in Hl. clear -Hl. set_solver.
    + done.
    + done.
    + cbn in Hf. lia.
    + assert (Hl0 : l0 ∉ ((l1, e1) :: M).*1).
      { apply NoDup_app in Hnd as (_ & _ & Hnd). cbn in Hnd. apply NoDup_cons in Hnd as [Hnd _]. clear -Hnd. cbn. set_solver. }
      exists t', dm'. fold (upd_run fu s1 ((l1, e1) :: M)). destruct (upd_run fu s1 ((l1, e1) :: M)) as [s2 r] eqn:Er2.
      cbn [upd_run] in Er2. rewrite Er2. cbn [fst snd] in E', Hr' |- *. split; [rewrite E'|].
      { f_equal. f_equal. unfold rm1, rm_of. rewrite (filter_cons _ (l0, e', od)). cbn [fst snd]. destruct (can_remove e'); cbn; [by rewrite <- app_assoc|done]. }
      split; [by eapply SH_trans|]. split; [intros i; by rewrite K'|]. split; [|split].
      * intros l e2 od2 [[= -> -> ->]|Hl]%elem_of_cons.
        -- split; [rewrite El' by done; by rewrite E1, decide_True|]. rewrite Dm'; [done|]. intros l Hl [= ->]. done.
        -- destruct (Hr' _ _ _ Hl) as [Hx Hd]. split; [done|]. rewrite Hd. destruct od2; [done|]. apply Dm2. intros [= ->]. apply Hl0.
           rewrite <- (upd_run_ids s1). cbn [upd_run]. rewrite Er2. cbn [snd]. rewrite <- list_fmap_compose.
           by apply (elem_of_list_fmap_1 (fst ∘ fst)) in Hl.
      * intros l Hl. rewrite El', E1, decide_False; [done| |].
        -- intros ->. apply Hl. left.
        -- intros Hx. apply Hl. by right.
      * intros a Ha. rewrite Dm'; [apply Dm2|].
        -- apply Ha. left.
        -- intros l Hl. apply Ha. by right.
Qed.
End loop.

(** ** cutting the content at a cursor *)
Section cut.
Context {B : BTreeTrait}.
(** [Cut fresh xs cur A Z]: [A] is what lies before the cursor, [Z] what lies after it; an
    element with the cursor strictly inside is cut in two, the right half under a fresh handle *)
Inductive Cut (fresh : nat -> Prop) : list (nat * Elem B) -> cursor -> list (nat * Elem B) -> list (nat * Elem B) -> Prop :=
| cut_0 X l e Y : Cut fresh (X ++ (l, e) :: Y) (mkCur l 0) X ((l, e) :: Y)
| cut_end X l e Y off : off <> 0 -> off = rle_len e -> Cut fresh (X ++ (l, e) :: Y) (mkCur l off) (X ++ [(l, e)]) Y
| cut_mid X l e Y off e1 e2 n : 0 < off < rle_len e -> e_split e off = Ok (e1, e2) -> rle_len e1 = off -> fresh n ->
    Cut fresh (X ++ (l, e) :: Y) (mkCur l off) (X ++ [(l, e1)]) ((n, e2) :: Y).
End cut.

Section tupd.
Context {B : BTreeTrait} (L : Lawful B).
Notation btree := (btree B).
Notation OK := (OK L).
Notation Tree := (Tree L).
Implicit Types (t : btree) (i j m q k : nat) (a b : aidx).

(** the handle created by the cut, if any *)
Definition cut_new (xs A Z : list (nat * Elem B)) : list nat :=
  if decide (length xs = length (A ++ Z)) then [] else fst <$> take 1 Z.

Theorem t_cut t xs l e off : Tree t xs -> (l, e) ∈ xs -> off <= rle_len e ->
  exists si t' A Z, split_leaf_if_needed t (mkCur l off) = Ok (si, t') /\ Tree t' (A ++ Z) /\
    Cut (fun n => anext (leaf_nodes t) <= n < anext (leaf_nodes t')) xs (mkCur l off) A Z /\
    si_new_pos si = (fun y => mkCur (fst y) 0) <$> head Z /\
    si_new_leaf si = ALeaf <$> head (cut_new xs A Z) /\ anext (leaf_nodes t) <= anext (leaf_nodes t') /\
    (forall k, Shallow t k -> Shallow t' (S k)).
Proof.
  intros T (X & Y & ->)%elem_of_list_split Hoff.
  destruct (t_split_depth L t X l e Y off T Hoff) as (si & t' & E & Ha & Sh & G). exists si, t'. unfold cut_new.
  destruct G as [(-> & -> & Hp & Hn)|[(Hz & Hf & -> & Hp & Hn)|(Hz & n & e1 & e2 & Hs & Hl1 & Hl2 & Hnn & T' & Hp & Hn)]].
  - exists X, ((l, e) :: Y). split_and!; try done; [constructor|]. by rewrite decide_True.
  - exists (X ++ [(l, e)]), Y. rewrite <- app_assoc. split_and!; try done; [by constructor|]. by rewrite decide_True.
  - exists (X ++ [(l, e1)]), ((n, e2) :: Y). rewrite <- app_assoc. split_and!; try done; [by econstructor|].
    rewrite decide_False; [done|]. rewrite !app_length. cbn. lia.
Qed.

(** the cursor [a] is not after the cursor [b] *)
Definition cur_le (xs : list (nat * Elem B)) (a b : cursor) : Prop :=
  (cu_leaf a = cu_leaf b /\ cu_offset a <= cu_offset b) \/
  exists X Y, xs = X ++ Y /\ cu_leaf a ∈ X.*1 /\ cu_leaf b ∈ Y.*1.

Lemma fst_lookup_unique (xs : list (nat * Elem B)) l e1 e2 : NoDup xs.*1 -> (l, e1) ∈ xs -> (l, e2) ∈ xs -> e1 = e2.
Proof.
  intros Hnd [i Hi]%elem_of_list_lookup [j Hj]%elem_of_list_lookup.
  assert (i = j) as -> by (eapply (NoDup_lookup xs.*1); [done| |]; rewrite list_lookup_fmap, ?Hi, ?Hj; done). congruence.
Qed.
Lemma split_fst_unique (A1 A2 Z1 Z2 : list (nat * Elem B)) l e1 e2 : NoDup (A1 ++ (l, e1) :: Z1).*1 ->
  A1 ++ (l, e1) :: Z1 = A2 ++ (l, e2) :: Z2 -> A1 = A2 /\ e1 = e2 /\ Z1 = Z2.
Proof.
  intros Hnd E. assert (e1 = e2) as <-.
  { eapply (fst_lookup_unique _ l); [exact Hnd|clear; set_solver|]. rewrite E. clear; set_solver. }
  destruct (nodup_split_unique A1 Z1 A2 Z2 (l, e1)) as [-> ->]; [|done|done].
  by eapply NoDup_fmap_1.
Qed.

(** the start is left of the cut at the end *)
Lemma cut_before (xs : list (nat * Elem B)) (a b : cursor) fr A Z ea : NoDup xs.*1 -> cur_le xs a b -> Cut fr xs b A Z ->
  (cu_leaf a, ea) ∈ xs -> cu_offset a <= rle_len ea ->
  (exists ea', (cu_leaf a, ea') ∈ A /\ cu_offset a <= rle_len ea') \/
  (cu_offset a = 0 /\ exists ea', head Z = Some (cu_leaf a, ea')).
Proof.
  intros Hnd Hle HC Hin Hoff. destruct a as [la oa]. cbn [cu_leaf cu_offset] in *.
  assert (Hbefore : forall X l e Y, xs = X ++ (l, e) :: Y -> l = cu_leaf b -> la <> l -> (la, ea) ∈ X).
  { intros X l e Y Ex Hl Hne. destruct Hle as [[? _]|(P & Q & Eq & Ha & Hb)]; [cbn in *; congruence|]. cbn in Ha.
    apply elem_of_list_fmap in Ha as ([? ea'] & [= <-] & Ha).
    assert (ea' = ea) as -> by (eapply fst_lookup_unique; [exact Hnd| |exact Hin]; rewrite Eq; clear -Ha; set_solver).
    assert (l ∉ P.*1) as HlP.
    { intros HlP. subst l. rewrite Eq, fmap_app in Hnd. apply NoDup_app in Hnd as (_ & Hnd & _). by eapply Hnd. }
    rewrite Ex in Hin. apply elem_of_app in Hin as [?|[[= -> _]|HY]%elem_of_cons]; [done|done|]. exfalso.
    apply elem_of_list_split in Ha as (P1 & P2 & ->). rewrite Eq in Ex. rewrite <- app_assoc in Ex. cbn in Ex.
    (* la occurs before l in xs, and after it *)
    apply elem_of_list_split in HY as (Y1 & Y2 & ->).
    assert (P1 = X ++ (l, e) :: Y1) as ->.
    { apply (nodup_split_unique P1 (P2 ++ Q) (X ++ (l, e) :: Y1) Y2 (la, ea)).
      - rewrite Eq, <- app_assoc in Hnd. cbn in Hnd. by eapply NoDup_fmap_1.
      - rewrite <- app_assoc. cbn. done. }
    apply HlP. rewrite !fmap_app. clear. set_solver. }
  inversion HC as [X l e Y|X l e Y off Hz Hf|X l e Y off e1 e2 n Hz Hs Hl Hn]; subst.
  - destruct (decide (la = l)) as [->|Hne].
    + right. destruct Hle as [[_ Hle]|(P & Q & Eq & Ha & Hb)].
      * cbn in Hle. split; [lia|]. by exists e.
      * exfalso. rewrite Eq, fmap_app in Hnd. apply NoDup_app in Hnd as (_ & Hnd & _). by eapply Hnd.
    + left. exists ea. split; [|done]. by eapply Hbefore.
  - left. destruct (decide (la = l)) as [->|Hne].
    + exists e. split; [clear; set_solver|]. assert (ea = e) as -> by (eapply fst_lookup_unique; [exact Hnd|exact Hin|clear; set_solver]). done.
    + exists ea. split; [|done]. apply elem_of_app; left. by eapply (Hbefore X l e).
  - left. destruct (decide (la = l)) as [->|Hne].
    + exists e1. split; [clear; set_solver|]. destruct Hle as [[_ Hle]|(P & Q & Eq & Ha & Hb)]; [cbn in Hle; lia|].
      exfalso. rewrite Eq, fmap_app in Hnd. apply NoDup_app in Hnd as (_ & Hnd & _). by eapply Hnd.
    + exists ea. split; [|done]. apply elem_of_app; left. by eapply (Hbefore X l e).
Qed.

(** a cut of [A ++ Z] at a cursor that is not right of the middle leaves [Z] alone *)
Lemma cut_left (A Z : list (nat * Elem B)) (a : cursor) fr A1 R1 : NoDup (A ++ Z).*1 -> Cut fr (A ++ Z) a A1 R1 ->
  (exists ea, (cu_leaf a, ea) ∈ A) \/ (cu_offset a = 0 /\ exists ea, head Z = Some (cu_leaf a, ea)) ->
  exists M, R1 = M ++ Z.
Proof.
  intros Hnd HC Hc. destruct Hc as [(ea & (P & Q & ->)%elem_of_list_split)|(Hz & ea & Hh)].
  - rewrite <- app_assoc in HC, Hnd. cbn in HC, Hnd.
    inversion HC as [X l e Y Ex|X l e Y off Hz Hf Ex|X l e Y off e1 e2 n Hz Hs Hl Hn Ex]; subst; cbn [cu_leaf] in *.
    + destruct (split_fst_unique P A1 (Q ++ Z) Y l ea e) as (-> & <- & <-); [done|done|]. by exists ((l, ea) :: Q).
    + destruct (split_fst_unique P X (Q ++ Z) R1 l ea e) as (-> & <- & <-); [done|done|]. by exists Q.
    + destruct (split_fst_unique P X (Q ++ Z) Y l ea e) as (-> & <- & <-); [done|done|]. by exists ((n, e2) :: Q).
  - destruct Z as [|z Z]; [done|]. injection Hh as ->. destruct a as [la oa]. cbn [cu_leaf cu_offset] in *. subst oa.
    exists []. cbn.
    inversion HC as [X l e Y Ex|X l e Y off Hz Hf Ex|X l e Y off e1 e2 n Hz Hs Hl Hn Ex]; subst; [|done|lia].
    destruct (split_fst_unique A A1 Z Y la ea e) as (-> & <- & <-); [done|done|]. done.
Qed.

(** what the user's function has to satisfy: results are valid, and the reported diff leads
    from the old to the new summary (no diff: the summary has not changed) *)
Definition upd_sound {S0} (fu : S0 -> Elem B -> S0 * Elem B * option (Diff B)) : Prop :=
  forall s e s' e' od, evalid L e -> fu s e = (s', e', od) -> evalid L e' /\
    match od with Some d => drel L (get_elem_cache e) d (get_elem_cache e') | None => get_elem_cache e' = get_elem_cache e end.

Lemma upd_run_el {S0} (fu : S0 -> Elem B -> S0 * Elem B * option (Diff B)) : upd_sound fu -> forall M s l e' od,
  Forall (fun x => evalid L (snd x)) M -> (l, e', od) ∈ (upd_run fu s M).2 -> exists e, (l, e) ∈ M /\ evalid L e' /\
    match od with Some d => drel L (get_elem_cache e) d (get_elem_cache e') | None => get_elem_cache e' = get_elem_cache e end.
Proof.
  intros Hf. induction M as [|[l0 e0] M IH]; intros s l e' od HM Hin; [by apply elem_of_nil in Hin|].
  apply Forall_cons in HM as [H0 HM]. cbn [upd_run] in Hin. destruct (fu s e0) as [[s1 e1] od1] eqn:E1.
  specialize (IH s1). destruct (upd_run fu s1 M) as [s2 r]. cbn [snd] in *. apply elem_of_cons in Hin as [[= -> -> ->]|Hin].
  - exists e0. destruct (Hf s e0 s1 e1 od1) as [? ?]; try done. split; [left|done].
  - destruct (IH _ _ _ HM Hin) as (e & He & G). exists e. split; [by right|done].
Qed.

(** removing a list of leaves *)
Lemma filter_all {X} (P : X -> Prop) `{!forall x, Decision (P x)} (l : list X) : (forall x, x ∈ l -> P x) -> filter P l = l.
Proof.
  induction l as [|x l IH]; intros Hl; [done|]. rewrite filter_cons_True by (apply Hl; left). f_equal. apply IH. intros y Hy. apply Hl. by right.
Qed.
Lemma filter_in_ext {X} (P Q : X -> Prop) `{!forall x, Decision (P x)} `{!forall x, Decision (Q x)} (l : list X) :
  (forall x, x ∈ l -> P x <-> Q x) -> filter P l = filter Q l.
Proof.
  induction l as [|x l IH]; intros Hl; [done|]. rewrite !filter_cons.
  rewrite (IH ltac:(intros y Hy; apply Hl; by right)). pose proof (Hl x ltac:(left)). destruct (decide (P x)), (decide (Q x)); tauto.
Qed.
Lemma remove_leaves_ok rm : forall t xs, rm = [] \/ mono L = true -> Tree t xs -> NoDup rm -> (forall a, a ∈ rm -> exists l, a = ALeaf l /\ l ∈ xs.*1) ->
  exists t', remove_leaves t rm = Ok t' /\ Tree t' (filter (fun x => ALeaf (fst x) ∉ rm) xs) /\ anext (leaf_nodes t) <= anext (leaf_nodes t') /\ (forall w, MDw w t -> MDw w t').
Proof.
  induction rm as [|a rm IH]; intros t xs Hm T Hnd Hin.
  - exists t. split; [done|]. split; [|split; [done|auto]]. rewrite filter_all; [done|]. intros. apply not_elem_of_nil.
  - destruct Hm as [|Hm]; [done|]. apply NoDup_cons in Hnd as [Ha Hnd]. destruct (Hin a ltac:(left)) as (l & -> & Hl).
    apply elem_of_list_fmap in Hl as ([? e] & [= <-] & Hl). apply elem_of_list_split in Hl as (X & Y & ->).
    pose proof (tree_nodup L _ _ T) as Hnx.
    destruct (t_remove L t X l e Y 0 T (or_introl Hm)) as (t1 & E1 & T1 & M1 & A1).
    cbn [remove_leaves raw]. rewrite E1. cbn [rbind].
    destruct (IH t1 (X ++ Y) (or_intror Hm) T1 Hnd) as (t' & E' & T' & A' & M').
    { intros b Hb. destruct (Hin b ltac:(by right)) as (l' & -> & Hl'). exists l'. split; [done|].
      rewrite !fmap_app in Hl' |- *. cbn in Hl'. apply elem_of_app in Hl' as [H|[->|H]%elem_of_cons]; [clear -H; set_solver|done|clear -H; set_solver]. }
    exists t'. split; [done|]. split; [|split; [lia|auto]]. replace (filter _ (X ++ (l, e) :: Y)) with (filter (fun x : nat * Elem B => ALeaf x.1 ∉ rm) (X ++ Y)); [done|].
    rewrite !filter_app, filter_cons_False by (cbn; clear; set_solver).
    rewrite fmap_app in Hnx. cbn in Hnx. apply NoDup_app in Hnx as (_ & H1 & H2). apply NoDup_cons in H2 as [H2 _].
    f_equal; apply filter_in_ext; intros [l' e'] Hx; cbn; rewrite not_elem_of_cons; (split; [|tauto]); intros Hr; (split; [|done]); intros [= ->].
    + apply (H1 l); [|left]. by apply (elem_of_list_fmap_1 fst) in Hx.
    + apply H2. by apply (elem_of_list_fmap_1 fst) in Hx.
Qed.

(** the visited leaves that stay *)
Definition upd_keep (r : list (nat * Elem B * option (Diff B))) : list (nat * Elem B) :=
  map fst (filter (fun x => can_remove x.1.2 = false) r).

Lemma elems_of t (ys : list (nat * Elem B)) : (forall l e, (l, e) ∈ ys -> el t l = Some e) ->
  omap (fun l => (fun e => (l, e)) <$> el t l) ys.*1 = ys.
Proof.
  induction ys as [|[l e] ys IH]; intros Hy; [done|]. cbn. rewrite (Hy l e) by left. cbn. f_equal. apply IH. intros. apply Hy. by right.
Qed.

Lemma update_body {S0} (fu : S0 -> Elem B -> S0 * Elem B * option (Diff B)) ord t A1 M Z s st en :
  Tree t (A1 ++ M ++ Z) -> Shallow t 9 -> (forall l, ord l ≡ₚ l) -> upd_sound fu ->
  st = (fun y => mkCur (fst y) 0) <$> head (M ++ Z) -> en = (fun y => mkCur (fst y) 0) <$> head Z ->
  exists t', (match st with
   | None => Ok (s, t)
   | Some st =>
      let? path := get_path t (ALeaf (cu_leaf st)) in
      let? (s, t, dm, rm) := update_loop fu (S (anext (leaf_nodes t))) t path en s ∅ [] in
      let? t := if decide (dm = ∅) then calc_root t None else update_dirty_cache_map ord t dm in
      let? t := remove_leaves t rm in
      Ok (s, t)
   end) = Ok ((upd_run fu s M).1, t') /\ Tree t' (A1 ++ upd_keep (upd_run fu s M).2 ++ Z) /\ anext (leaf_nodes t) <= anext (leaf_nodes t') /\ (forall w, MDw w t -> MDw w t').
Proof.
  intros T Sh Hord Hfu -> ->. destruct (shallow_OK L t _ 9 ltac:(lia) T Sh) as (H & lv & O & HH & Hc).
  pose proof (ok_wt _ _ _ _ O) as W. pose proof (ok_lk _ _ _ _ O) as K.
  assert (Hlv : leaves t = (A1 ++ M ++ Z).*1).
  { rewrite <- (Tree_elems L _ _ T). unfold elems. pose proof (leaves_live W) as Hl. clear -Hl.
    assert (Forall (fun l => is_Some (el t l)) (leaves t)) as F by (apply Forall_forall; intros x; apply Hl). clear Hl.
    induction F as [|l ls [e He] F IH]; [done|]. cbn. rewrite He. cbn. f_equal. exact IH. }
  assert (Hel : forall l e, (l, e) ∈ A1 ++ M ++ Z -> el t l = Some e).
  { intros l e. apply (tree_in L _ _ _ _ T). }
  destruct M as [|[l0 e0] M].
  { (* nothing to visit *)
    cbn [app] in *. destruct Z as [|[lz ez] Z].
    { exists t. cbn. split; [done|]. split; [done|]. split; [done|auto]. }
    cbn [head fmap option_fmap option_map fst cu_leaf].
    destruct (leaf_path W K lz) as (r & Hr & ->); [rewrite Hlv, fmap_app; clear; set_solver|lia|]. cbn [rbind].
    destruct (rpath_head _ _ _ Hr) as (k0 & r' & Er). cbn [update_loop].
    assert (last (rev r) = Some (mkIdx (ALeaf lz) k0)) as -> by (rewrite Er; cbn; by rewrite last_snoc).
    cbn [ropt rbind i_arena unwrap_leaf]. rewrite bool_decide_eq_true_2 by done. cbn [rbind]. rewrite decide_True by done.
    destruct (calc_root_ok L NoE t H lv W (ok_va _ _ _ _ O)) as (t1 & E1 & ->).
    { left. intros He. assert (leaves t = []) as Hn; [|rewrite Hlv, fmap_app in Hn; by apply app_nil in Hn as [_ ?]].
      rewrite (leaves_raw W), (wt_root_id W). cbn [gen achs]. by rewrite He. }
    rewrite E1. cbn [rbind remove_leaves upd_run fst snd]. eexists. split; [done|]. cbn [upd_keep filter list_filter map app]. split; [|split; [done|intros w; apply MD_SH; by constructor]].
    rewrite <- Hc. set (t1 := set_root_cache t _). assert (S1 : SH t t1) by (by constructor).
    assert (O1 : OK t1 H lv).
    { constructor; [by eapply SH_WT|by eapply SH_LK|eapply SH_SZ; [exact S1|apply (ok_sz _ _ _ _ O)]|apply (ok_co _ _ _ _ O)|done|constructor; apply (ok_va _ _ _ _ O)]. }
    assert (cont t1 H = cont t H) as <- by (apply cont_same; [by rewrite (SH_gen _ _ S1)|done]). by eapply OK_Tree. }
  cbn [head app fmap option_fmap option_map fst cu_leaf]. set (M0 := (l0, e0) :: M) in *.
  destruct (leaf_path W K l0) as (r & Hr & ->); [rewrite Hlv, !fmap_app; clear; set_solver|lia|]. cbn [rbind].
  destruct (update_loop_ok fu H lv M t A1.*1 Z.*1 l0 e0 (rev r) s ∅ [] (S (anext (leaf_nodes t)))
     ((fun y : nat * Elem B => mkCur y.1 0) <$> head Z) W K) as (t2 & dm & El & S2 & K2 & Hr2 & Ho2 & Dm2).
  { by rewrite Hlv, !fmap_app. }
  { intros l e Hl. apply Hel. fold M0 in Hl. clear -Hl; set_solver. }
  { by rewrite rev_involutive. }
  { by destruct Z. }
  { pose proof (leaves_length W) as Hx. rewrite Hlv, fmap_length, !app_length in Hx. cbn in Hx. destruct Z; cbn in Hx; lia. }
  rewrite El. cbn [rbind]. fold M0 in Hr2, Ho2, Dm2 |- *. clear El. change ((upd_run fu s ((l0, e0) :: M))) with (upd_run fu s M0).
  destruct (upd_run fu s M0) as [s2 rr] eqn:Erun. cbn [fst snd] in *.
  assert (Hids : rr.*1.*1 = M0.*1) by (pose proof (upd_run_ids fu s M0) as Hx; by rewrite Erun in Hx).
  assert (HVM : Forall (fun x : nat * Elem B => evalid L x.2) M0).
  { apply Forall_forall. intros [l e] Hl. apply (va_el _ _ (ok_va _ _ _ _ O) l). apply Hel. clear -Hl; set_solver. }
  assert (Hrun : forall l e' od, (l, e', od) ∈ rr -> exists e, (l, e) ∈ M0 /\ evalid L e' /\
    match od with Some d => drel L (get_elem_cache e) d (get_elem_cache e') | None => get_elem_cache e' = get_elem_cache e end).
  { intros l e' od Hin. apply (upd_run_el fu Hfu M0 s l e' od HVM). by rewrite Erun. }
  pose proof (tree_nodup L _ _ T) as Hnd.
  assert (Hin2 : forall l, l ∈ M0.*1 -> exists e' od, (l, e', od) ∈ rr).
  { intros l Hl. rewrite <- Hids in Hl. apply elem_of_list_fmap in Hl as ([l' e'] & [= <-] & Hl).
    apply elem_of_list_fmap in Hl as ([[l' e''] od] & [= <- <-] & Hl). eauto. }
  assert (V2 : VA L t2).
  { constructor.
    - intros l e Hl. destruct (decide (l ∈ M0.*1)) as [Hi|Hi].
      + destruct (Hin2 l Hi) as (e' & od & Hx). destruct (Hr2 _ _ _ Hx) as [He' _]. destruct (Hrun _ _ _ Hx) as (_ & _ & Hv & _). congruence.
      + rewrite Ho2 in Hl by done. by eapply (va_el _ _ (ok_va _ _ _ _ O)).
    - intros p cs c. rewrite K2. apply (va_ch _ _ (ok_va _ _ _ _ O)). }
  assert (D2 : DMI L t2 dm).
  { intros p cs c Hk Hcc. rewrite K2 in Hk. pose proof (ok_co _ _ _ _ O p cs c Hk Hcc ltac:(by intros [])) as Hco.
    destruct (c_arena c) as [l|m] eqn:Ea.
    - destruct (decide (l ∈ M0.*1)) as [Hi|Hi].
      + destruct (Hin2 l Hi) as (e' & od & Hx). destruct (Hr2 _ _ _ Hx) as [He' Hd']. destruct (Hrun _ _ _ Hx) as (e & He & _ & Hd).
        rewrite Hd', (act_leaf _ _ _ _ He'), Hco, (act_leaf _ _ _ e); [|apply Hel; clear -He; set_solver].
        destruct od; [done|]. rewrite lookup_empty. done.
      + rewrite Dm2, lookup_empty, Hco by (intros l' Hl' [= ->]; done). unfold act. by rewrite Ho2.
    - rewrite Dm2, lookup_empty, Hco by done. unfold act. by rewrite K2. }
  assert (Hdl : forall a, is_Some (dm !! a) -> exists l, a = ALeaf l /\ is_Some (el t2 l)).
  { intros a Ha. destruct a as [l|m]; [|exfalso; rewrite Dm2, lookup_empty in Ha by done; by destruct Ha].
    exists l. split; [done|]. destruct (decide (l ∈ M0.*1)) as [Hi|Hi].
    - destruct (Hin2 l Hi) as (e' & od & Hx). destruct (Hr2 _ _ _ Hx) as [He' _]. eauto.
    - exfalso. rewrite Dm2, lookup_empty in Ha by (intros l' Hl' [= ->]; done). by destruct Ha. }
  assert (Hne : chs t2 (raw (root t2)) <> []).
  { rewrite (sh_chs S2), (sh_root S2). intros He. assert (leaves t = []) as Hn.
    { rewrite (leaves_raw W), (wt_root_id W). cbn [gen achs]. by rewrite He. }
    rewrite Hlv, !fmap_app in Hn. apply app_nil in Hn as [_ Hn]. done. }
  pose proof (SH_WT _ _ _ _ _ S2 W) as W2. pose proof (SH_LK _ _ S2 K) as K2'. pose proof (SH_SZ _ _ 11 S2 (ok_sz _ _ _ _ O)) as Z2.
  assert (exists t3, (if decide (dm = ∅) then calc_root t2 None else update_dirty_cache_map ord t2 dm) = Ok t3 /\ OK t3 H lv /\ SH t2 t3 /\
    (forall z, el t3 z = el t2 z)) as (t3 & -> & O3 & S3 & El3).
  { case_decide as Ed.
    - destruct (calc_root_ok L NoE t2 H lv W2 V2 (or_introl Hne)) as (t3 & E3 & ->). eexists. split; [exact E3|].
      set (t3 := set_root_cache t2 _). assert (S3 : SH t2 t3) by (by constructor). split; [|done].
      constructor; [by eapply SH_WT|by eapply SH_LK|by eapply SH_SZ| |done|constructor; apply V2].
      intros p cs c Hk Hcc _. specialize (D2 p cs c Hk Hcc). rewrite Ed, lookup_empty in D2. exact D2.
    - by apply dirty_ok. }
  cbn [rbind].
  set (ys := A1 ++ map fst rr ++ Z).
  assert (T3 : Tree t3 ys).
  { pose proof (OK_Tree L _ _ _ O3) as T3. replace ys with (cont t3 H); [done|].
    rewrite <- (Tree_elems L _ _ T3). unfold elems.
    assert (leaves t3 = ys.*1) as ->.
    { rewrite (leaves_raw (ok_wt _ _ _ _ O3)), (SH_gen _ _ S3), (SH_gen _ _ S2), (sh_root S3), (sh_root S2), <- (leaves_raw W), Hlv.
      unfold ys. rewrite !fmap_app. by rewrite <- Hids. }
    apply elems_of. intros l e Hl. rewrite El3. unfold ys in Hl. rewrite !elem_of_app in Hl.
    rewrite !fmap_app in Hnd. apply NoDup_app in Hnd as (_ & Hn1 & Hn2). apply NoDup_app in Hn2 as (_ & Hn2 & _).
    destruct Hl as [Hl|[Hl|Hl]].
    - rewrite Ho2; [apply Hel; clear -Hl; set_solver|]. intros Hx. apply (Hn1 l); [by apply (elem_of_list_fmap_1 fst) in Hl|clear -Hx; set_solver].
    - apply elem_of_list_fmap in Hl as ([[l' e'] od] & [= -> ->] & Hl). by destruct (Hr2 _ _ _ Hl).
    - rewrite Ho2; [apply Hel; clear -Hl; set_solver|]. intros Hx. apply (Hn2 l); [done|by apply (elem_of_list_fmap_1 fst) in Hl]. }
  pose proof (tree_nodup L _ _ T3) as Hnd3.
  destruct (remove_leaves_ok (rm_of rr) t3 ys) as (t' & E' & T' & A' & M').
  { unfold rm_of. destruct (filter _ rr) as [|[[l e'] od] fs] eqn:Ef; [by left|right].
    assert ((l, e', od) ∈ filter (fun x : nat * Elem B * option (Diff B) => can_remove x.1.2 = true) rr) as Hx by (rewrite Ef; left).
    apply elem_of_list_filter in Hx as [Hx1 Hx2]. destruct (Hrun _ _ _ Hx2) as (_ & _ & Hv & _). by destruct (lw_rm _ L e' Hv Hx1). }
  { exact T3. }
  { unfold rm_of. assert (NoDup rr.*1.*1) as Hn.
    { rewrite Hids. rewrite !fmap_app in Hnd. apply NoDup_app in Hnd as (_ & _ & Hn2). by apply NoDup_app in Hn2 as (? & _). }
    clear -Hn. induction rr as [|[[l e'] od] rr IH]; [constructor|]. cbn in Hn. apply NoDup_cons in Hn as [Hl Hn]. rewrite filter_cons.
    case_decide; [|by apply IH]. cbn [map]. apply NoDup_cons. split; [|by apply IH].
    intros ([[l' e''] od'] & [= <-] & Hx)%elem_of_list_fmap. apply elem_of_list_filter in Hx as [_ Hx]. apply Hl. rewrite <- list_fmap_compose.
    by apply (elem_of_list_fmap_1 (fst ∘ fst)) in Hx. }
  { intros a ([[l e'] od] & -> & Hx)%elem_of_list_fmap. exists l. split; [done|]. apply elem_of_list_filter in Hx as [_ Hx].
    unfold ys. rewrite !fmap_app, !elem_of_app. right; left. apply (elem_of_list_fmap_1 (fst ∘ fst)) in Hx. by rewrite list_fmap_compose in Hx. }
  cbn [app]. rewrite E'. cbn [rbind]. exists t'. split; [done|]. split.
  2: { split; [rewrite <- (sh_al S2), <- (sh_al S3); done|]. intros w Hw. apply M', (MD_SH w t2 t3 S3), (MD_SH w t t2 S2), Hw. }
  replace (A1 ++ upd_keep rr ++ Z) with (filter (fun x : nat * Elem B => ALeaf x.1 ∉ rm_of rr) ys); [done|].
  assert (Hrm : forall l, ALeaf l ∈ rm_of rr -> l ∈ (map fst rr).*1).
  { intros l ([[l' e'] od] & [= ->] & Hx)%elem_of_list_fmap. apply elem_of_list_filter in Hx as [_ Hx].
    apply (elem_of_list_fmap_1 (fst ∘ fst)) in Hx. by rewrite list_fmap_compose in Hx. }
  unfold ys in Hnd3 |- *. rewrite !fmap_app in Hnd3. apply NoDup_app in Hnd3 as (_ & Hn1 & Hn2). apply NoDup_app in Hn2 as (Hn3 & Hn2 & _).
  rewrite !filter_app. f_equal; [|f_equal].
  - apply filter_all. intros [l e] Hl. cbn. intros Hx%Hrm. apply (Hn1 l); [by apply (elem_of_list_fmap_1 fst) in Hl|clear -Hx; set_solver].
  - unfold upd_keep. clear -Hn3. assert (Hx : forall l e' od, (l, e', od) ∈ rr -> ALeaf l ∈ rm_of rr <-> can_remove e' = true).
    { intros l e' od Hl. unfold rm_of. rewrite elem_of_list_fmap. split.
      - intros ([[l' e''] od'] & [= <-] & [Hc Hx]%elem_of_list_filter). cbn in Hc.
        apply elem_of_list_lookup in Hl as [i Hi]. apply elem_of_list_lookup in Hx as [j Hj].
        assert (i = j) as ->. { apply (NoDup_lookup _ i j l Hn3); rewrite !list_lookup_fmap, ?Hi, ?Hj; done. } congruence.
      - intros Hc. exists (l, e', od). split; [done|]. by apply elem_of_list_filter. }
    generalize dependent (rm_of rr). intros rm Hx. clear Hn3. induction rr as [|[[l e'] od] rr IH]; [done|]. cbn [map]. rewrite !filter_cons. cbn [fst snd].
    pose proof (Hx l e' od ltac:(left)) as Hl. rewrite (IH ltac:(intros; eapply Hx; by right)).
    destruct (can_remove e') eqn:Ec.
    + rewrite decide_False by tauto. done.
    + rewrite decide_True by (rewrite Hl; done). done.
  - apply filter_all. intros [l e] Hl. cbn. intros Hx%Hrm. apply (Hn2 l); [done|]. by apply (elem_of_list_fmap_1 fst) in Hl.
Qed.

Lemma Cut_mono (fr fr' : nat -> Prop) xs cur A Z : (forall n, fr n -> fr' n) -> Cut (B := B) fr xs cur A Z -> Cut fr' xs cur A Z.
Proof. intros Hf HC. destruct HC; econstructor; eauto. Qed.

(** the tree after the two cuts of update and drain *)
Definition cuts t (a b : cursor) : res btree :=
  let? (_, t) := split_leaf_if_needed t b in let? (_, t) := split_leaf_if_needed t a in Ok t.

(** paths to the leaves of trees that are too deep *)
Lemma t_path_deep t xs l : Tree t xs -> l ∈ xs.*1 -> ~ Shallow t 9 -> get_path t (ALeaf l) = Panic.
Proof.
  intros T Hl Hns. destruct (Tree_OK L _ _ T) as (H & lv & O & Hc). pose proof (ok_wt _ _ _ _ O) as W. pose proof (ok_lk _ _ _ _ O) as K.
  assert (9 < S H) as HH.
  { destruct (decide (9 < S H)); [done|]. exfalso. apply Hns. exists (S H), (cont t H). split; [|lia]. by eapply content_cont. }
  assert (l ∈ leaves t) as Hll by (by rewrite (tree_leaves L _ _ T)). apply (leaves_live W) in Hll.
  destruct (rpath_exists W (ALeaf l) Hll) as [r Hr]. pose proof (rpath_len W _ _ Hr) as Hlen. cbn in Hlen.
  eapply (get_path_panic W K); [exact Hr|lia].
Qed.

Lemma cuts_shallow t xs (a b : cursor) ea eb : Tree t xs -> (cu_leaf a, ea) ∈ xs -> cu_offset a <= rle_len ea -> (cu_leaf b, eb) ∈ xs -> cu_offset b <= rle_len eb ->
  cur_le xs a b -> exists t2, cuts t a b = Ok t2 /\ forall k, Shallow t k -> Shallow t2 (S (S k)).
Proof.
  intros T Ha Hoa Hb Hob Hle. destruct a as [la oa]. destruct b as [lb ob]. cbn [cu_leaf cu_offset] in *.
  destruct (t_cut t xs lb eb ob T Hb Hob) as (sie & t1 & A & Z & E1 & T1 & C1 & P1 & N1 & G1 & S1).
  pose proof (cut_before xs (mkCur la oa) _ _ A Z ea (tree_nodup L _ _ T) Hle C1 Ha Hoa) as Hpos. cbn [cu_leaf cu_offset] in Hpos.
  assert (exists ea', (la, ea') ∈ A ++ Z /\ oa <= rle_len ea') as (ea' & Ha' & Hoa').
  { destruct Hpos as [(ea' & Hx & Hy)|(-> & ea' & Hx)]; exists ea'; (split; [|first [done|lia]]).
    - clear -Hx; set_solver.
    - destruct Z; [done|]. injection Hx as ->. clear; set_solver. }
  destruct (t_cut t1 (A ++ Z) la ea' oa T1 Ha' Hoa') as (sis & t2 & A1 & R1 & E2 & T2 & C2 & P2 & N2 & G2 & S2).
  exists t2. split; [|intros k Sh; exact (S2 _ (S1 _ Sh))]. unfold cuts. rewrite E1. cbn [rbind]. rewrite E2. done.
Qed.
(** the cut tree fits the path buffer *)
Definition Fits t (a b : cursor) : Prop := exists t2, cuts t a b = Ok t2 /\ Shallow t2 9.
(** update; the call panics iff the tree is too deep for the path buffer after the cuts (and the
    start is not the end of the tree) *)
Theorem t_update_full {S0} (fu : S0 -> Elem B -> S0 * Elem B * option (Diff B)) ord t xs (a b : cursor) ea eb s :
  Tree t xs -> (cu_leaf a, ea) ∈ xs -> cu_offset a <= rle_len ea -> (cu_leaf b, eb) ∈ xs -> cu_offset b <= rle_len eb ->
  cur_le xs a b -> (forall l, ord l ≡ₚ l) -> upd_sound fu ->
  exists A Z A1 M t2, let fr n := anext (leaf_nodes t) <= n < anext (leaf_nodes t2) in
    cuts t a b = Ok t2 /\ Tree t2 (A1 ++ M ++ Z) /\ anext (leaf_nodes t) <= anext (leaf_nodes t2) /\
    (forall k, Shallow t k -> Shallow t2 (S (S k))) /\
    Cut fr xs b A Z /\ Cut fr (A ++ Z) a A1 (M ++ Z) /\
    (M ++ Z = [] \/ Shallow t2 9 -> exists t',
      update ord t a b fu s = Ok (cut_new xs A Z ++ cut_new (A ++ Z) A1 (M ++ Z), (upd_run fu s M).1, t') /\
      Tree t' (A1 ++ upd_keep (upd_run fu s M).2 ++ Z) /\ anext (leaf_nodes t2) <= anext (leaf_nodes t') /\ (forall w, MDw w t2 -> MDw w t')) /\
    (M ++ Z <> [] -> ~ Shallow t2 9 -> update ord t a b fu s = Panic).
Proof.
  intros T Ha Hoa Hb Hob Hle Hord Hfu. destruct a as [la oa]. destruct b as [lb ob]. cbn [cu_leaf cu_offset] in *.
  destruct (t_cut t xs lb eb ob T Hb Hob) as (sie & t1 & A & Z & E1 & T1 & C1 & P1 & N1 & G1 & S1).
  pose proof (cut_before xs (mkCur la oa) _ _ A Z ea (tree_nodup L _ _ T) Hle C1 Ha Hoa) as Hpos. cbn [cu_leaf cu_offset] in Hpos.
  assert (exists ea', (la, ea') ∈ A ++ Z /\ oa <= rle_len ea') as (ea' & Ha' & Hoa').
  { destruct Hpos as [(ea' & Hx & Hy)|(-> & ea' & Hx)]; exists ea'; (split; [|first [done|lia]]).
    - clear -Hx; set_solver.
    - destruct Z; [done|]. injection Hx as ->. clear; set_solver. }
  destruct (t_cut t1 (A ++ Z) la ea' oa T1 Ha' Hoa') as (sis & t2 & A1 & R1 & E2 & T2 & C2 & P2 & N2 & G2 & S2).
  destruct (cut_left A Z (mkCur la oa) _ A1 R1 (tree_nodup L _ _ T1) C2) as [M ->].
  { cbn [cu_leaf cu_offset]. destruct Hpos as [(? & ? & _)|?]; [left|right]; eauto. }
  exists A, Z, A1, M, t2. cbn zeta.
  split. { unfold cuts. rewrite E1. cbn [rbind]. rewrite E2. done. }
  split; [done|]. split; [lia|]. split; [intros k Sh; exact (S2 _ (S1 _ Sh))|].
  split; [eapply Cut_mono; [|exact C1]; cbn; intros; lia|]. split; [eapply Cut_mono; [|exact C2]; cbn; intros; lia|].
  unfold update. rewrite E1. cbn [rbind].
  assert (sl_push_option [] (si_new_leaf sie) = Ok (cut_new xs A Z)) as ->.
  { rewrite N1. unfold cut_new. case_decide; [done|]. destruct Z as [|[? ?] Z]; done. }
  cbn [rbind]. rewrite E2. cbn [rbind].
  assert (sl_push_option (cut_new xs A Z) (si_new_leaf sis) = Ok (cut_new xs A Z ++ cut_new (A ++ Z) A1 (M ++ Z))) as ->.
  { rewrite N2. assert (length (cut_new xs A Z) <= 1).
    { unfold cut_new. case_decide; [cbn; lia|]. rewrite fmap_length, take_length. lia. }
    unfold cut_new at 2 4. case_decide; [by rewrite app_nil_r|]. destruct (M ++ Z) as [|[? ?] ?]; [by rewrite app_nil_r|].
    cbn. unfold sl_push, vec_push. rewrite decide_True by lia. done. }
  cbn [rbind]. set (sl := cut_new xs A Z ++ _). clearbody sl. split.
  - intros Hsh.
    assert (exists t', (match si_new_pos sis with
     | None => Ok (s, t2)
     | Some st =>
        let? path := get_path t2 (ALeaf (cu_leaf st)) in
        let? (s, t, dm, rm) := update_loop fu (S (anext (leaf_nodes t2))) t2 path (si_new_pos sie) s ∅ [] in
        let? t := if decide (dm = ∅) then calc_root t None else update_dirty_cache_map ord t dm in
        let? t := remove_leaves t rm in
        Ok (s, t)
     end) = Ok ((upd_run fu s M).1, t') /\ Tree t' (A1 ++ upd_keep (upd_run fu s M).2 ++ Z) /\ anext (leaf_nodes t2) <= anext (leaf_nodes t') /\ (forall w, MDw w t2 -> MDw w t')) as (t' & E' & T' & G' & M').
    { destruct Hsh as [HMZ|Hsh]; [|exact (update_body fu ord t2 A1 M Z s (si_new_pos sis) (si_new_pos sie) T2 Hsh Hord Hfu P2 P1)].
      rewrite P2, HMZ. apply app_nil in HMZ as [-> ->]. exists t2. cbn. split; [done|]. split; [done|]. split; [lia|auto]. }
    exists t'. split; [|split; [done|split; [lia|done]]]. clear -E'.
  destruct (si_new_pos sis) as [st|]; [|injection E' as E1 E2; by rewrite <- E1, <- E2].
  destruct (get_path t2 _) as [path| |]; [|done|done]. cbn [rbind] in *.
  destruct (update_loop _ _ _ _ _ _ _ _) as [[[[s1 t3] dm] rm]| |]; [|done|done]. cbn [rbind] in *.
  destruct (if decide (dm = ∅) then _ else _) as [t4| |]; [|done|done]. cbn [rbind] in *.
  destruct (remove_leaves t4 rm) as [t5| |]; [|done|done]. cbn [rbind] in *. injection E' as E1 E2; by rewrite <- E1, <- E2.
  - intros HMZ Hsh. rewrite P2. destruct (M ++ Z) as [|[lm em] R] eqn:EMZ; [done|]. cbn [head fmap option_fmap option_map cu_leaf fst].
    rewrite (t_path_deep t2 _ lm T2); [done| |done]. rewrite fmap_app. apply elem_of_app. right. left.
Qed.

Theorem t_update {S0} (fu : S0 -> Elem B -> S0 * Elem B * option (Diff B)) ord t xs (a b : cursor) ea eb s :
  Tree t xs -> Fits t a b -> (cu_leaf a, ea) ∈ xs -> cu_offset a <= rle_len ea -> (cu_leaf b, eb) ∈ xs -> cu_offset b <= rle_len eb ->
  cur_le xs a b -> (forall l, ord l ≡ₚ l) -> upd_sound fu ->
  exists A Z A1 M t', let fr n := anext (leaf_nodes t) <= n < anext (leaf_nodes t') in
    Cut fr xs b A Z /\ Cut fr (A ++ Z) a A1 (M ++ Z) /\
    update ord t a b fu s = Ok (cut_new xs A Z ++ cut_new (A ++ Z) A1 (M ++ Z), (upd_run fu s M).1, t') /\
    Tree t' (A1 ++ upd_keep (upd_run fu s M).2 ++ Z) /\ anext (leaf_nodes t) <= anext (leaf_nodes t').
Proof.
  intros T (t2' & Ec' & Sh) Ha Hoa Hb Hob Hle Hord Hfu.
  destruct (t_update_full fu ord t xs a b ea eb s T Ha Hoa Hb Hob Hle Hord Hfu) as (A & Z & A1 & M & t2 & Ec & T2 & G2 & S2 & C1 & C2 & HO & _).
  rewrite Ec' in Ec. injection Ec as ->. destruct (HO (or_intror Sh)) as (t' & E & T' & G' & _). exists A, Z, A1, M, t'. cbn zeta.
  split; [eapply Cut_mono; [|exact C1]; cbn; intros; lia|]. split; [eapply Cut_mono; [|exact C2]; cbn; intros; lia|]. split; [done|]. split; [done|lia].
Qed.
End tupd.
